(** Mirror symmetry of the Riemann solvers for arbitrary states (floors
    included). *)
From Coq Require Import ZArith Reals Lra Psatz List.
From Verif Require Import Arith HydroState RiemannModel HydroPoint HydroField HydroSpec Physics PointProofs
  RiemannProofs HllcProofs ApproxProofs RiemannSelect.
Import ListNotations.
Open Scope R_scope.

Section M.
Variable p : hparams R.
Variable d3 : bool.

Definition flr (q : hs R) : hs R :=
  HS (Rmax (hD q) (smallr p)) (Rmax (hP q) (Rmax (hD q) (smallr p) * smallp p)) (hU q) (hV q)
     (if d3 then hW q else 0).
Lemma flr_adm q : admissible p (flr q).
Proof. unfold admissible, flr. cbn [hD hP]. split; [apply Rmax_r|apply Rmax_r]. Qed.
Lemma flr_dim q : dim_ok d3 (flr q).
Proof. unfold dim_ok, planar, flr. cbn [hW]. destruct d3; auto. Qed.
Lemma flr_mirror q : flr (mirror q) = mirror (flr q).
Proof. unfold flr, mirror. reflexivity. Qed.
Lemma flr_D q : Rmax (hD (flr q)) (smallr p) = Rmax (hD q) (smallr p).
Proof. unfold flr. cbn [hD]. apply Rmax_left. apply Rmax_r. Qed.
Lemma flr_P q : Rmax (hP (flr q)) (Rmax (hD (flr q)) (smallr p) * smallp p) = Rmax (hP q) (Rmax (hD q) (smallr p) * smallp p).
Proof. rewrite flr_D. unfold flr. cbn [hP]. apply Rmax_left. apply Rmax_r. Qed.

Lemma ecin_flr r u q : hllc_ecin d3 r u (flr q) = hllc_ecin d3 r u q.
Proof. unfold hllc_ecin, flr. cbn [hV hW]. destruct d3; reflexivity. Qed.
Lemma hllc_flr ql qr : riemann_hllc p d3 ql qr = riemann_hllc p d3 (flr ql) (flr qr).
Proof.
  unfold riemann_hllc. ar. rewrite !flr_P, !flr_D, !ecin_flr. unfold flr. cbn [hU hV hW]. destruct d3; reflexivity.
Qed.
Lemma approx_flr ql qr : riemann_approx p d3 ql qr = riemann_approx p d3 (flr ql) (flr qr).
Proof.
  unfold riemann_approx. ar. rewrite !flr_P, !flr_D. unfold flr. cbn [hU hV hW]. destruct d3; reflexivity.
Qed.
Lemma hllc_mirror_all ql qr : params_ok p ->
  riemann_hllc p d3 (mirror qr) (mirror ql) = mirror_flux (riemann_hllc p d3 ql qr).
Proof.
  intros Hp. rewrite (hllc_flr (mirror qr)), (hllc_flr ql), !flr_mirror. apply hllc_mirror; auto using flr_adm, flr_dim.
Qed.
Lemma approx_mirror_all ql qr : params_ok p -> contact_speed p (flr ql) (flr qr) <> 0 ->
  riemann_approx p d3 (mirror qr) (mirror ql) = mirror_flux (riemann_approx p d3 ql qr).
Proof.
  intros Hp H. rewrite (approx_flr (mirror qr)), (approx_flr ql), !flr_mirror. apply approx_mirror; auto using flr_adm, flr_dim.
Qed.

Lemma cons_mirror q : cons_of p d3 (mirror q) =
  HS (hD (cons_of p d3 q)) (hP (cons_of p d3 q)) (- hU (cons_of p d3 q)) (hV (cons_of p d3 q)) (hW (cons_of p d3 q)).
Proof.
  unfold cons_of, mirror. cbn [hD hP hU hV hW]. ar. destruct d3; apply HS_eq; try ring.
Qed.
Lemma llf_side_mirror q u : llf_side d3 (mirror q) (HS (hD u) (hP u) (- hU u) (hV u) (hW u)) = mirror_flux (llf_side d3 q u).
Proof. unfold llf_side, mirror, mirror_flux. cbn [hD hP hU hV hW]. ar. destruct d3; apply HS_eq; ring. Qed.
Lemma hll_side_mirror q u : hll_side d3 (mirror q) (HS (hD u) (hP u) (- hU u) (hV u) (hW u)) = mirror_flux (hll_side d3 q u).
Proof. unfold hll_side, mirror, mirror_flux. cbn [hD hP hU hV hW]. ar. destruct d3; apply HS_eq; ring. Qed.

Lemma llf_mirror_all ql qr : riemann_llf p d3 (mirror qr) (mirror ql) = mirror_flux (riemann_llf p d3 ql qr).
Proof.
  unfold riemann_llf. ar. rewrite !cons_mirror, !llf_side_mirror.
  cbn [mirror hD hP hU]. rewrite !Rabs_Ropp, (Rmax_comm (Rabs (hU qr) + _)).
  set (c := Rmax _ (Rabs (hU qr) + _)). unfold comb4, mirror_flux. cbn [hD hP hU hV hW]. ar.
  destruct d3; apply HS_eq; ring.
Qed.
Lemma hll_mirror_all ql qr : riemann_hll p d3 (mirror qr) (mirror ql) = mirror_flux (riemann_hll p d3 ql qr).
Proof.
  unfold riemann_hll. ar. rewrite !cons_mirror, !hll_side_mirror.
  cbn [mirror hD hP hU].
  set (cl := sqrt (gamma0 p * Rmax (hP ql) _ / _)). set (cr := sqrt _).
  assert (E1 : Rmin (Rmin (- hU qr) (- hU ql) - Rmax cr cl) 0 = - Rmax (Rmax (hU ql) (hU qr) + Rmax cl cr) 0).
  { rewrite Rmin_opp, (Rmax_comm cr), (Rmax_comm (hU qr)).
    replace (- Rmax (hU ql) (hU qr) - Rmax cl cr) with (- (Rmax (hU ql) (hU qr) + Rmax cl cr)) by ring.
    rewrite <- Ropp_0 at 1. apply Rmin_opp. }
  assert (E2 : Rmax (Rmax (- hU qr) (- hU ql) + Rmax cr cl) 0 = - Rmin (Rmin (hU ql) (hU qr) - Rmax cl cr) 0).
  { rewrite Rmax_opp, (Rmax_comm cr), (Rmin_comm (hU qr)).
    replace (- Rmin (hU ql) (hU qr) + Rmax cl cr) with (- (Rmin (hU ql) (hU qr) - Rmax cl cr)) by ring.
    rewrite <- Ropp_0 at 1. apply Rmax_opp. }
  rewrite E1, E2. set (SL := Rmin _ _). set (SR := Rmax (_ + _) 0).
  unfold comb4, mirror_flux. cbn [hD hP hU hV hW]. ar.
  replace (- SL - - SR) with (SR - SL) by ring. unfold Rdiv.
  destruct d3; apply HS_eq; ring.
Qed.
End M.

Lemma mirror2_all p ql qr junk : params_ok p -> In (riemann_type p) [RIEMANN_HLL; RIEMANN_HLLC; RIEMANN_LLF] ->
  riemann_hydro2 p (mirror qr) (mirror ql) junk = mirror_flux (riemann_hydro2 p ql qr junk).
Proof.
  intros Hp Hr. unfold riemann_hydro2.
  destruct Hr as [E|[E|[E|[]]]]; rewrite <- E; cbn [Z.eqb];
   [apply hll_mirror_all|apply hllc_mirror_all|apply llf_mirror_all]; auto.
Qed.
Lemma mirror3_all p ql qr junk : params_ok p -> In (riemann_type p) [RIEMANN_HLLC; RIEMANN_LLF] ->
  riemann_hydro3 p (mirror qr) (mirror ql) junk = mirror_flux (riemann_hydro3 p ql qr junk).
Proof.
  intros Hp Hr. unfold riemann_hydro3.
  destruct Hr as [E|[E|[]]]; rewrite <- E; cbn [Z.eqb];
   [apply hllc_mirror_all|apply llf_mirror_all]; auto.
Qed.
