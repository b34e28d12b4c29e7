(** The HLLC solver over the reals. *)
From Coq Require Import ZArith Reals Lra Psatz.
From Verif Require Import Arith HydroState RiemannModel HydroPoint Physics PointProofs RiemannProofs.
Open Scope R_scope.

Section Core.
(** Scalars of one interface. *)
Variables rl ul pl el rr ur pr er C : R.
Definition cSL := Rmin ul ur - C.
Definition cSR := Rmax ul ur + C.
Definition crl := rl * (ul - cSL).
Definition crr := rr * (cSR - ur).
Definition cus := (crr * ur + crl * ul + (pl - pr)) / (crr + crl).
Definition cps := (crr * pl + crl * pr + crl * crr * (ul - ur)) / (crr + crl).
Definition csel : R * R * R * R :=
  if Rlt_dec 0 cSL then (rl, ul, pl, el)
  else if Rlt_dec 0 cus then
    (rl * (cSL - ul) / (cSL - cus), cus, cps, ((cSL - ul) * el - pl * ul + cps * cus) / (cSL - cus))
  else if Rlt_dec 0 cSR then
    (rr * (cSR - ur) / (cSR - cus), cus, cps, ((cSR - ur) * er - pr * ur + cps * cus) / (cSR - cus))
  else (rr, ur, pr, er).
Definition cflux (s : R * R * R * R) : R * R * R :=
  let '(ro, uo, po, eo) := s in (ro * uo, (eo + po) * uo, ro * uo * uo + po).

Hypothesis Hrl : 0 < rl.
Hypothesis Hrr : 0 < rr.
Hypothesis HC : 0 < C.
Hypothesis Hpl : pl < rl * (C * C).
Hypothesis Hpr : pr < rr * (C * C).
Hypothesis Hpl0 : 0 < pl.
Hypothesis Hpr0 : 0 < pr.

Lemma lo : cSL <= ul - C /\ cSL <= ur - C.
Proof. clear - HC. unfold cSL, Rmin. destruct Rle_dec; lra. Qed.
Lemma hi : ul + C <= cSR /\ ur + C <= cSR.
Proof. clear - HC. unfold cSR, Rmax. destruct Rle_dec; lra. Qed.
Lemma crl_pos : rl * C <= crl. Proof. destruct lo. unfold crl. nra. Qed.
Lemma crr_pos : rr * C <= crr. Proof. destruct hi. unfold crr. nra. Qed.
Lemma crs_pos : 0 < crl /\ 0 < crr.
Proof. pose proof crl_pos. pose proof crr_pos. assert (0 < rl * C) by nra. assert (0 < rr * C) by nra. lra. Qed.

Lemma cus_eq : cus * (crr + crl) = crr * ur + crl * ul + (pl - pr).
Proof. destruct crs_pos. unfold cus. field. lra. Qed.
Lemma cps_l : cps = pl + crl * (ul - cus).
Proof. destruct crs_pos. unfold cps, cus. field. lra. Qed.
Lemma cps_r : cps = pr - crr * (ur - cus).
Proof. destruct crs_pos. unfold cps, cus. field. lra. Qed.
Lemma cus_lo : cSL < cus.
Proof.
  pose proof cus_eq. destruct crs_pos. pose proof crr_pos. destruct lo.
  assert (crr * (ur - cSL) >= rr * (C * C)).
  { assert (crr * (ur - cSL) >= crr * C) by nra. nra. }
  assert (crl * (ul - cSL) > 0) by nra.
  assert (0 < (cus - cSL) * (crr + crl)) by nra. nra.
Qed.
Lemma cus_hi : cus < cSR.
Proof.
  pose proof cus_eq. destruct crs_pos. pose proof crl_pos. destruct hi.
  assert (crl * (cSR - ul) >= rl * (C * C)).
  { assert (crl * (cSR - ul) >= crl * C) by nra. nra. }
  assert (crr * (cSR - ur) > 0) by nra.
  assert (0 < (cSR - cus) * (crr + crl)) by nra. nra.
Qed.

(** The five regimes, with the boundary cases merged. *)
Lemma csel_left : 0 <= cSL -> cflux csel = (rl * ul, (el + pl) * ul, rl * ul * ul + pl).
Proof.
  intros H. unfold csel. destruct Rlt_dec; [reflexivity|]. assert (E : cSL = 0) by lra.
  pose proof cus_lo. destruct Rlt_dec; [|lra]. unfold cflux. rewrite cps_l. unfold crl. rewrite E.
  f_equal; [f_equal|]; field; lra.
Qed.
Lemma csel_right : cSR <= 0 -> cflux csel = (rr * ur, (er + pr) * ur, rr * ur * ur + pr).
Proof.
  intros H. pose proof cus_hi. pose proof cus_lo. unfold csel. destruct Rlt_dec; [lra|].
  destruct Rlt_dec; [lra|]. destruct Rlt_dec; [lra|]. reflexivity.
Qed.
Lemma csel_star_l : cSL <= 0 -> 0 < cus -> cflux csel =
  let r := rl * (cSL - ul) / (cSL - cus) in let e := ((cSL - ul) * el - pl * ul + cps * cus) / (cSL - cus) in
  (r * cus, (e + cps) * cus, r * cus * cus + cps).
Proof.
  intros H1 H2. unfold csel. destruct Rlt_dec; [lra|]. destruct Rlt_dec; [|lra]. reflexivity.
Qed.
Lemma csel_star_r0 : cus < 0 -> 0 < cSR -> cflux csel =
  let r := rr * (cSR - ur) / (cSR - cus) in let e := ((cSR - ur) * er - pr * ur + cps * cus) / (cSR - cus) in
  (r * cus, (e + cps) * cus, r * cus * cus + cps).
Proof.
  intros H1 H2. pose proof cus_lo. unfold csel. destruct Rlt_dec; [lra|]. destruct Rlt_dec; [lra|].
  destruct Rlt_dec; [|lra]. reflexivity.
Qed.
Lemma csel_star_r : cus < 0 -> 0 <= cSR -> cflux csel =
  let r := rr * (cSR - ur) / (cSR - cus) in let e := ((cSR - ur) * er - pr * ur + cps * cus) / (cSR - cus) in
  (r * cus, (e + cps) * cus, r * cus * cus + cps).
Proof.
  intros H1 H2. destruct (Req_dec cSR 0) as [E|E].
  - rewrite csel_right by lra. cbv zeta. rewrite cps_r. unfold crr. rewrite E. f_equal; [f_equal|]; field; lra.
  - apply csel_star_r0; lra.
Qed.
Lemma csel_zero : cus = 0 -> cflux csel = (0, 0, cps).
Proof.
  intros H. pose proof cus_lo. pose proof cus_hi. unfold csel. destruct Rlt_dec; [lra|]. destruct Rlt_dec; [lra|].
  destruct Rlt_dec; [|lra]. unfold cflux. rewrite H. f_equal; [f_equal|]; ring.
Qed.
(** Sign of the mass flux: the sign of the contact speed. *)
Lemma mass_sign : (0 < cus -> 0 < fst (fst (cflux csel))) /\ (cus < 0 -> fst (fst (cflux csel)) < 0)
  /\ (cus = 0 -> fst (fst (cflux csel)) = 0).
Proof.
  pose proof cus_lo. pose proof cus_hi. destruct lo. destruct hi. repeat split; intros Hu.
  - destruct (Rle_dec 0 cSL).
    + rewrite csel_left by lra. cbn. nra.
    + rewrite csel_star_l by lra. cbn. replace (rl * (cSL - ul) / (cSL - cus)) with (rl * (ul - cSL) / (cus - cSL)) by (field; lra).
      apply Rmult_lt_0_compat; auto. apply Rdiv_lt_0_compat; nra.
  - destruct (Rle_dec cSR 0).
    + rewrite csel_right by lra. cbn. nra.
    + rewrite csel_star_r by lra. cbn.
      assert (0 < rr * (cSR - ur) / (cSR - cus)) by (apply Rdiv_lt_0_compat; nra). nra.
  - rewrite csel_zero by auto. reflexivity.
Qed.
End Core.

(** Reflection of the core. *)
Lemma cSL_mir ul ur C : cSL (- ur) (- ul) C = - cSR ul ur C.
Proof. unfold cSL, cSR. rewrite Rmin_opp, (Rmax_comm ur). ring. Qed.
Lemma cSR_mir ul ur C : cSR (- ur) (- ul) C = - cSL ul ur C.
Proof. unfold cSL, cSR. rewrite Rmax_opp, (Rmin_comm ur). ring. Qed.
Lemma crl_mir rr ul ur C : crl rr (- ur) (- ul) C = crr ul rr ur C.
Proof. unfold crl, crr. rewrite cSL_mir. ring. Qed.
Lemma crr_mir rl ul ur C : crr (- ur) rl (- ul) C = crl rl ul ur C.
Proof. unfold crl, crr. rewrite cSR_mir. ring. Qed.

Section Mir.
Variables rl ul pl el rr ur pr er C : R.
Hypothesis Hrl : 0 < rl.
Hypothesis Hrr : 0 < rr.
Hypothesis HC : 0 < C.
Hypothesis Hpl : pl < rl * (C * C).
Hypothesis Hpr : pr < rr * (C * C).
Hypothesis Hpl0 : 0 < pl.
Hypothesis Hpr0 : 0 < pr.
Let us := cus rl ul pl rr ur pr C.
Let ps := cps rl ul pl rr ur pr C.

Lemma cus_mir : cus rr (- ur) pr rl (- ul) pl C = - us.
Proof.
  unfold us, cus. rewrite crl_mir, crr_mir. destruct (crs_pos rl ul rr ur C) as [H1 H2]; auto. field. lra.
Qed.
Lemma cps_mir : cps rr (- ur) pr rl (- ul) pl C = ps.
Proof.
  unfold ps, cps. rewrite crl_mir, crr_mir. destruct (crs_pos rl ul rr ur C) as [H1 H2]; auto. field. lra.
Qed.
Lemma csel_mir : cflux (csel rr (- ur) pr er rl (- ul) pl el C) =
  let '(fd, fe, fu) := cflux (csel rl ul pl el rr ur pr er C) in (- fd, - fe, fu).
Proof.
  pose proof (cus_lo rl ul pl rr ur pr C ltac:(auto) ltac:(auto) ltac:(auto) ltac:(auto) ltac:(auto)) as L.
  pose proof (cus_hi rl ul pl rr ur pr C ltac:(auto) ltac:(auto) ltac:(auto) ltac:(auto) ltac:(auto)) as H.
  fold us in L, H.
  destruct (Rtotal_order us 0) as [Hu|[Hu|Hu]].
  - destruct (Rle_dec (cSR ul ur C) 0).
    + rewrite (csel_right rl) by auto. rewrite (csel_left rr) by (auto; rewrite cSL_mir; lra).
      f_equal; [f_equal|]; ring.
    + rewrite (csel_star_r rl) by (auto; lra).
      rewrite (csel_star_l rr) by (auto; rewrite ?cSL_mir, ?cus_mir; lra).
      cbv zeta. rewrite cSL_mir, cus_mir, cps_mir. fold us ps. f_equal; [f_equal|]; field; lra.
  - rewrite (csel_zero rl) by auto. rewrite (csel_zero rr) by (auto; rewrite cus_mir; lra).
    rewrite cps_mir. fold ps. f_equal; f_equal; ring.
  - destruct (Rle_dec 0 (cSL ul ur C)).
    + rewrite (csel_left rl) by auto. rewrite (csel_right rr) by (auto; rewrite cSR_mir; lra).
      f_equal; [f_equal|]; ring.
    + rewrite (csel_star_l rl) by (auto; lra).
      rewrite (csel_star_r rr) by (auto; rewrite ?cSR_mir, ?cus_mir; lra).
      cbv zeta. rewrite cSR_mir, cus_mir, cps_mir. fold us ps. f_equal; [f_equal|]; field; lra.
Qed.
End Mir.

Section H.
Variable p : hparams R.
Variable d3 : bool.
Hypothesis Hp : params_ok p.

Definition cfast q := sqrt (Rmax (gamma0 p * hP q / hD q) (smallc p * smallc p)).
Definition cmx ql qr := Rmax (cfast ql) (cfast qr).
Lemma cfast_ge q : admissible p q -> csound p q <= cfast q.
Proof. intros _. apply sqrt_le_1_alt. apply Rmax_l. Qed.

Definition hcore ql qr := cflux (csel (hD ql) (hU ql) (hP ql) (total_energy (gamma0 p) ql)
  (hD qr) (hU qr) (hP qr) (total_energy (gamma0 p) qr) (cmx ql qr)).

Lemma ecin_spec q : dim_ok d3 q ->
  hP q * (1 / (gamma0 p - 1)) + hllc_ecin d3 (hD q) (hU q) q = total_energy (gamma0 p) q.
Proof.
  intros Hq. pose proof (gm1 p Hp). unfold hllc_ecin, total_energy. ar. destruct d3.
  - field; auto.
  - destruct Hq as [Hq|Hq]; [discriminate|]. unfold planar in Hq. rewrite Hq. field; auto.
Qed.
Lemma hllc_form ql qr : admissible p ql -> admissible p qr -> dim_ok d3 ql -> dim_ok d3 qr ->
  riemann_hllc p d3 ql qr =
  let '(fd, fe, fu) := hcore ql qr in
  HS fd fe fu (fd * (if Rlt_dec 0 fd then hV ql else hV qr)) (fd * (if Rlt_dec 0 fd then hW ql else hW qr)).
Proof.
  intros A1 A2 D1 D2. unfold riemann_hllc. ar. rewrite !floor_d, !floor_p by auto.
  rewrite !ecin_spec by auto.
  fold (cfast ql). fold (cfast qr). fold (cmx ql qr).
  unfold hcore. set (C := cmx ql qr).
  fold (cSL (hU ql) (hU qr) C). fold (cSR (hU ql) (hU qr) C).
  fold (crl (hD ql) (hU ql) (hU qr) C). fold (crr (hU ql) (hD qr) (hU qr) C).
  fold (cus (hD ql) (hU ql) (hP ql) (hD qr) (hU qr) (hP qr) C).
  fold (cps (hD ql) (hU ql) (hP ql) (hD qr) (hU qr) (hP qr) C).
  unfold csel.
  assert (Z : d3 = false -> hW ql = 0 /\ hW qr = 0).
  { intros E. destruct D1 as [D1|D1]; [congruence|]. destruct D2 as [D2|D2]; [congruence|]. auto. }
  assert (FIN : forall s : R * R * R * R, (let '(ro, uo, ptoto, etoto) := s in
    HS (ro * uo) ((etoto + ptoto) * uo) (ro * uo * uo + ptoto)
      (if (if Rlt_dec 0 (ro * uo) then true else false) then ro * uo * hV ql else ro * uo * hV qr)
      (if d3 then if (if Rlt_dec 0 (ro * uo) then true else false) then ro * uo * hW ql else ro * uo * hW qr else 0))
    = let '(fd, fe, fu) := cflux s in HS fd fe fu (fd * (if Rlt_dec 0 fd then hV ql else hV qr))
        (fd * (if Rlt_dec 0 fd then hW ql else hW qr))).
  { intros [[[ro uo] po] eo]. cbn [cflux]. apply HS_eq; auto.
    - destruct Rlt_dec; reflexivity.
    - destruct d3.
      + destruct Rlt_dec; reflexivity.
      + destruct (Z eq_refl) as [-> ->]. destruct Rlt_dec; ring. }
  rewrite <- FIN. clear.
  repeat match goal with |- context [Rlt_dec 0 ?x] => match x with cSL _ _ _ => idtac | cSR _ _ _ => idtac | cus _ _ _ _ _ _ _ => idtac end; destruct (Rlt_dec 0 x) end; reflexivity.
Qed.

Lemma core_hyps ql qr : admissible p ql -> admissible p qr ->
  0 < hD ql /\ 0 < hD qr /\ 0 < cmx ql qr /\ hP ql < hD ql * (cmx ql qr * cmx ql qr)
  /\ hP qr < hD qr * (cmx ql qr * cmx ql qr) /\ 0 < hP ql /\ 0 < hP qr.
Proof.
  intros A1 A2. destruct (adm_pos p Hp ql A1). destruct (adm_pos p Hp qr A2).
  pose proof (csound_pos p Hp ql A1). pose proof (csound_pos p Hp qr A2).
  pose proof (csound_sq p Hp ql A1). pose proof (csound_sq p Hp qr A2).
  pose proof (cfast_ge ql A1). pose proof (cfast_ge qr A2). destruct Hp as (G & _).
  assert (csound p ql <= cmx ql qr) by (unfold cmx; pose proof (Rmax_l (cfast ql) (cfast qr)); lra).
  assert (csound p qr <= cmx ql qr) by (unfold cmx; pose proof (Rmax_r (cfast ql) (cfast qr)); lra).
  set (C := cmx ql qr) in *. set (a := csound p ql) in *. set (b := csound p qr) in *.
  assert (a * a <= C * C) by nra. assert (b * b <= C * C) by nra.
  repeat split; try lra.
  - assert (hD ql * (a * a) <= hD ql * (C * C)) by nra. nra.
  - assert (hD qr * (b * b) <= hD qr * (C * C)) by nra. nra.
Qed.

Lemma hllc_mirror ql qr : admissible p ql -> admissible p qr -> dim_ok d3 ql -> dim_ok d3 qr ->
  riemann_hllc p d3 (mirror qr) (mirror ql) = mirror_flux (riemann_hllc p d3 ql qr).
Proof.
  intros A1 A2 D1 D2. rewrite !hllc_form by auto using mirror_adm, mirror_dim.
  destruct (core_hyps ql qr A1 A2) as (h1 & h2 & h3 & h4 & h5 & h6 & h7).
  unfold hcore. rewrite !mirror_energy. replace (cmx (mirror qr) (mirror ql)) with (cmx ql qr) by (unfold cmx; rewrite Rmax_comm; reflexivity).
  unfold mirror. cbn [hD hP hU hV hW]. rewrite csel_mir by auto.
  destruct (cflux _) as [[fd fe] fu]. unfold mirror_flux. cbn [hD hP hU hV hW].
  destruct (Rtotal_order fd 0) as [Hu|[Hu|Hu]].
  - destruct (Rlt_dec 0 (- fd)); [|lra]. destruct (Rlt_dec 0 fd); [lra|]. apply HS_eq; ring.
  - subst fd. apply HS_eq; ring.
  - destruct (Rlt_dec 0 (- fd)); [lra|]. destruct (Rlt_dec 0 fd); [|lra]. apply HS_eq; ring.
Qed.

(** Supersonic upwinding. *)
Lemma hllc_upwind_left ql qr : admissible p ql -> admissible p qr -> dim_ok d3 ql -> dim_ok d3 qr ->
  0 <= Rmin (hU ql) (hU qr) - cmx ql qr ->
  riemann_hllc p d3 ql qr = euler_flux (gamma0 p) ql.
Proof.
  intros A1 A2 D1 D2 H. rewrite hllc_form by auto.
  destruct (core_hyps ql qr A1 A2) as (h1 & h2 & h3 & h4 & h5 & h6 & h7).
  unfold hcore. rewrite csel_left by auto. assert (0 < hU ql) by (revert H; unfold Rmin; destruct Rle_dec; lra).
  destruct Rlt_dec; [|exfalso; nra]. unfold euler_flux. apply HS_eq; ring.
Qed.
Lemma hllc_upwind_right ql qr : admissible p ql -> admissible p qr -> dim_ok d3 ql -> dim_ok d3 qr ->
  Rmax (hU ql) (hU qr) + cmx ql qr <= 0 ->
  riemann_hllc p d3 ql qr = euler_flux (gamma0 p) qr.
Proof.
  intros A1 A2 D1 D2 H. rewrite hllc_form by auto.
  destruct (core_hyps ql qr A1 A2) as (h1 & h2 & h3 & h4 & h5 & h6 & h7).
  unfold hcore. rewrite csel_right by auto. assert (hU qr < 0) by (revert H; unfold Rmax; destruct Rle_dec; lra).
  destruct Rlt_dec; [exfalso; nra|]. unfold euler_flux. apply HS_eq; ring.
Qed.

(** Contact discontinuities, at rest or moving. *)
Lemma hllc_contact ql qr : admissible p ql -> admissible p qr -> dim_ok d3 ql -> dim_ok d3 qr ->
  hU ql = hU qr -> hP ql = hP qr ->
  riemann_hllc p d3 ql qr = euler_flux (gamma0 p) (if Rlt_dec 0 (hU ql) then ql else qr).
Proof.
  intros A1 A2 D1 D2 Eu Ep. rewrite hllc_form by auto.
  destruct (core_hyps ql qr A1 A2) as (h1 & h2 & h3 & h4 & h5 & h6 & h7).
  set (C := cmx ql qr) in *.
  destruct (crs_pos (hD ql) (hU ql) (hD qr) (hU qr) C) as [c1 c2]; auto.
  assert (Us : cus (hD ql) (hU ql) (hP ql) (hD qr) (hU qr) (hP qr) C = hU ql).
  { unfold cus. rewrite <- Ep, <- Eu in *. field. lra. }
  assert (Ps : cps (hD ql) (hU ql) (hP ql) (hD qr) (hU qr) (hP qr) C = hP ql).
  { unfold cps. rewrite <- Ep, <- Eu in *. field. lra. }
  assert (L : cSL (hU ql) (hU qr) C < hU ql) by (rewrite <- Us at 2; apply cus_lo; auto).
  assert (H : hU ql < cSR (hU ql) (hU qr) C) by (rewrite <- Us at 1; apply cus_hi; auto).
  unfold hcore. fold C. unfold euler_flux.
  destruct (Rtotal_order (hU ql) 0) as [Hu|[Hu|Hu]].
  - destruct (Rlt_dec 0 (hU ql)); [lra|]. 
    destruct (Rle_dec 0 (cSR (hU ql) (hU qr) C)).
    + rewrite csel_star_r by (auto; rewrite ?Us; auto). cbv zeta. rewrite Us, Ps.
      match goal with |- context [Rlt_dec 0 ?x] => assert (X : x = hD qr * hU qr) by (rewrite Eu in *; field; lra); rewrite X end.
      destruct Rlt_dec; [exfalso; nra|]. rewrite Eu, Ep in *. apply HS_eq; field; lra.
    + rewrite csel_right by (auto; lra). destruct Rlt_dec; [exfalso; nra|]. apply HS_eq; ring.
  - destruct (Rlt_dec 0 (hU ql)); [lra|]. rewrite csel_zero by (auto; rewrite Us; auto). rewrite Ps.
    destruct Rlt_dec; [lra|]. rewrite <- Eu, Hu, <- Ep. apply HS_eq; ring.
  - destruct (Rlt_dec 0 (hU ql)); [|lra].
    destruct (Rle_dec (cSL (hU ql) (hU qr) C) 0).
    + rewrite csel_star_l by (auto; rewrite ?Us; auto). cbv zeta. rewrite Us, Ps.
      match goal with |- context [Rlt_dec 0 ?x] => assert (X : x = hD ql * hU ql) by (field; lra); rewrite X end.
      destruct Rlt_dec; [|exfalso; nra]. apply HS_eq; field; lra.
    + rewrite csel_left by (auto; lra). destruct Rlt_dec; [|exfalso; nra]. apply HS_eq; ring.
Qed.
Lemma hllc_consistent q : admissible p q -> dim_ok d3 q -> riemann_hllc p d3 q q = euler_flux (gamma0 p) q.
Proof. intros A1 D1. rewrite hllc_contact by auto. destruct Rlt_dec; reflexivity. Qed.

(** Tangential momentum is carried by the mass flux from the upwind side. *)
Lemma hllc_tangential ql qr : admissible p ql -> admissible p qr -> dim_ok d3 ql -> dim_ok d3 qr ->
  let f := riemann_hllc p d3 ql qr in let q := if Rlt_dec 0 (hD f) then ql else qr in
  hV f = hD f * hV q /\ hW f = hD f * hW q.
Proof.
  intros A1 A2 D1 D2. cbv zeta. rewrite hllc_form by auto. destruct (hcore ql qr) as [[fd fe] fu].
  cbn [hD hV hW]. destruct Rlt_dec; auto.
Qed.
(** Mirror images exert only pressure: no mass, energy or tangential momentum crosses a wall. *)
End H.
