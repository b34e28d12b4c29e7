(** Properties of the hydrodynamics Riemann solvers over the reals. *)
From Coq Require Import ZArith Reals Lra Psatz.
From Verif Require Import Arith HydroState RiemannModel HydroPoint Physics PointProofs.
Open Scope R_scope.

Definition dim_ok (d3 : bool) (q : hs R) : Prop := d3 = true \/ planar q.

Lemma HS_eq (a b c d e a' b' c' d' e' : R) : a = a' -> b = b' -> c = c' -> d = d' -> e = e' ->
  HS a b c d e = HS a' b' c' d' e'.
Proof. congruence. Qed.
Lemma hs_eta (q : hs R) : q = HS (hD q) (hP q) (hU q) (hV q) (hW q).
Proof. destruct q; reflexivity. Qed.

Section R.
Variable p : hparams R.
Variable d3 : bool.
Hypothesis Hp : params_ok p.

Lemma gm1 : gamma0 p - 1 <> 0. Proof. destruct Hp as (H & _). lra. Qed.

Lemma cmpflx_euler q : dim_ok d3 q -> cmpflx p d3 q = euler_flux (gamma0 p) q.
Proof.
  intros Hq. pose proof gm1. unfold cmpflx, euler_flux, total_energy. destruct q as [d pr u v w].
  cbn [hD hP hU hV hW] in *. ar. destruct d3.
  - apply HS_eq; field; auto.
  - destruct Hq as [Hq|Hq]; [discriminate|]. unfold planar in Hq. cbn in Hq. subst w. apply HS_eq; field; auto.
Qed.
Lemma cons_of_spec q : dim_ok d3 q -> cons_of p d3 q = conservative (gamma0 p) q.
Proof.
  intros Hq. pose proof gm1. unfold cons_of, conservative, total_energy. destruct q as [d pr u v w].
  cbn [hD hP hU hV hW] in *. ar. destruct d3.
  - apply HS_eq; field; auto.
  - destruct Hq as [Hq|Hq]; [discriminate|]. unfold planar in Hq. cbn in Hq. subst w. apply HS_eq; field; auto.
Qed.
Lemma llf_side_spec q : dim_ok d3 q -> llf_side d3 q (conservative (gamma0 p) q) = euler_flux (gamma0 p) q.
Proof.
  intros Hq. unfold llf_side, euler_flux, conservative. destruct q as [d pr u v w].
  cbn [hD hP hU hV hW] in *. ar. destruct d3.
  - apply HS_eq; ring.
  - destruct Hq as [Hq|Hq]; [discriminate|]. unfold planar in Hq. cbn in Hq. subst w. apply HS_eq; ring.
Qed.
Lemma hll_side_spec q : dim_ok d3 q -> hll_side d3 q (conservative (gamma0 p) q) = euler_flux (gamma0 p) q.
Proof.
  intros Hq. unfold hll_side, euler_flux, conservative. destruct q as [d pr u v w].
  cbn [hD hP hU hV hW] in *. ar. destruct d3.
  - apply HS_eq; ring.
  - destruct Hq as [Hq|Hq]; [discriminate|]. unfold planar in Hq. cbn in Hq. subst w. apply HS_eq; ring.
Qed.

Lemma floor_d q : admissible p q -> Rmax (hD q) (smallr p) = hD q.
Proof. intros [H _]. apply Rmax_left. lra. Qed.
Lemma floor_p q : admissible p q -> Rmax (hP q) (hD q * smallp p) = hP q.
Proof. intros [_ H]. apply Rmax_left. lra. Qed.
Lemma adm_pos q : admissible p q -> 0 < hD q /\ 0 < hP q.
Proof. apply params_pos; auto. Qed.

(** The flux vector is planar-compatible: entry IW of the combination. *)
Lemma comb4_d3 f (a b c d : hs R) :
  (d3 = false -> f (hW a) (hW b) (hW c) (hW d) = 0) ->
  comb4 d3 f a b c d = HS (f (hD a) (hD b) (hD c) (hD d)) (f (hP a) (hP b) (hP c) (hP d))
     (f (hU a) (hU b) (hU c) (hU d)) (f (hV a) (hV b) (hV c) (hV d)) (f (hW a) (hW b) (hW c) (hW d)).
Proof. intros H. unfold comb4. ar. destruct d3; [reflexivity|]. rewrite H by auto. reflexivity. Qed.

Definition csound q := sqrt (gamma0 p * hP q / hD q).
Lemma csound_pos q : admissible p q -> 0 < csound q.
Proof.
  intros H. destruct (adm_pos q H). destruct Hp as (G & _). unfold csound. apply sqrt_lt_R0.
  apply Rdiv_lt_0_compat; auto. nra.
Qed.
Lemma csound_sq q : admissible p q -> hD q * (csound q * csound q) = gamma0 p * hP q.
Proof.
  intros H. destruct (adm_pos q H). destruct Hp as (G & _). unfold csound. rewrite sqrt_sqrt.
  - field. lra.
  - apply Rlt_le, Rdiv_lt_0_compat; auto. nra.
Qed.

(** LLF and HLL in terms of the physical fluxes. *)
Definition llf_cmax ql qr := Rmax (Rabs (hU ql) + csound ql) (Rabs (hU qr) + csound qr).
Lemma llf_form ql qr : admissible p ql -> admissible p qr -> dim_ok d3 ql -> dim_ok d3 qr ->
  riemann_llf p d3 ql qr =
  let f := fun c => / 2 * (c (euler_flux (gamma0 p) ql) + c (euler_flux (gamma0 p) qr)
     - llf_cmax ql qr * (c (conservative (gamma0 p) qr) - c (conservative (gamma0 p) ql))) in
  HS (f hD) (f hP) (f hU) (f hV) (f hW).
Proof.
  intros A1 A2 D1 D2. unfold riemann_llf. ar. rewrite !floor_d, !floor_p by auto.
  rewrite !cons_of_spec, !llf_side_spec by auto. rewrite comb4_d3; [reflexivity|].
  intros E. unfold dim_ok in *. destruct D1 as [D1|D1]; [congruence|]. destruct D2 as [D2|D2]; [congruence|].
  unfold planar in *. unfold euler_flux, conservative. cbn [hW]. rewrite D1, D2. ring.
Qed.
Definition hll_SL ql qr := Rmin (Rmin (hU ql) (hU qr) - Rmax (csound ql) (csound qr)) 0.
Definition hll_SR ql qr := Rmax (Rmax (hU ql) (hU qr) + Rmax (csound ql) (csound qr)) 0.
Lemma hll_form ql qr : admissible p ql -> admissible p qr -> dim_ok d3 ql -> dim_ok d3 qr ->
  riemann_hll p d3 ql qr =
  let SL := hll_SL ql qr in let SR := hll_SR ql qr in
  let f := fun c => (SR * c (euler_flux (gamma0 p) ql) - SL * c (euler_flux (gamma0 p) qr)
     + SR * SL * (c (conservative (gamma0 p) qr) - c (conservative (gamma0 p) ql))) / (SR - SL) in
  HS (f hD) (f hP) (f hU) (f hV) (f hW).
Proof.
  intros A1 A2 D1 D2. unfold riemann_hll. ar. rewrite !floor_d, !floor_p by auto.
  rewrite !cons_of_spec, !hll_side_spec by auto. rewrite comb4_d3; [reflexivity|].
  intros E. unfold dim_ok in *. destruct D1 as [D1|D1]; [congruence|]. destruct D2 as [D2|D2]; [congruence|].
  unfold planar in *. unfold euler_flux, conservative. cbn [hW]. rewrite D1, D2. unfold Rdiv. ring.
Qed.
Lemma hll_speeds ql qr : admissible p ql -> admissible p qr -> hll_SL ql qr < hll_SR ql qr.
Proof.
  intros A1 A2. pose proof (csound_pos ql A1). pose proof (csound_pos qr A2). unfold hll_SL, hll_SR.
  unfold Rmin, Rmax. repeat destruct Rle_dec; lra.
Qed.

(** Consistency. *)
Lemma llf_consistent q : admissible p q -> dim_ok d3 q -> riemann_llf p d3 q q = euler_flux (gamma0 p) q.
Proof.
  intros A1 D1. rewrite llf_form by auto. cbv zeta. rewrite (hs_eta (euler_flux _ q)). apply HS_eq; cbn [hD hP hU hV hW]; field.
Qed.
Lemma hll_consistent q : admissible p q -> dim_ok d3 q -> riemann_hll p d3 q q = euler_flux (gamma0 p) q.
Proof.
  intros A1 D1. rewrite hll_form by auto. cbv zeta. pose proof (hll_speeds q q A1 A1).
  rewrite (hs_eta (euler_flux _ q)). apply HS_eq; cbn [hD hP hU hV hW]; field; lra.
Qed.

(** Mirror symmetry. *)
Lemma mirror_adm q : admissible p q -> admissible p (mirror q).
Proof. unfold admissible, mirror. auto. Qed.
Lemma mirror_dim q : dim_ok d3 q -> dim_ok d3 (mirror q).
Proof. unfold dim_ok, planar, mirror. auto. Qed.
Lemma mirror_csound q : csound (mirror q) = csound q. Proof. reflexivity. Qed.
Lemma mirror_energy q : total_energy (gamma0 p) (mirror q) = total_energy (gamma0 p) q.
Proof. unfold total_energy, mirror. cbn [hD hP hU hV hW]. f_equal. f_equal. ring. Qed.
Lemma Rmin_opp a b : Rmin (- a) (- b) = - Rmax a b.
Proof. unfold Rmin, Rmax. repeat destruct Rle_dec; lra. Qed.
Lemma Rmax_opp a b : Rmax (- a) (- b) = - Rmin a b.
Proof. unfold Rmin, Rmax. repeat destruct Rle_dec; lra. Qed.

Lemma llf_mirror ql qr : admissible p ql -> admissible p qr -> dim_ok d3 ql -> dim_ok d3 qr ->
  riemann_llf p d3 (mirror qr) (mirror ql) = mirror_flux (riemann_llf p d3 ql qr).
Proof.
  intros A1 A2 D1 D2. rewrite !llf_form by auto using mirror_adm, mirror_dim. cbv zeta.
  assert (E : llf_cmax (mirror qr) (mirror ql) = llf_cmax ql qr).
  { unfold llf_cmax. rewrite !mirror_csound. cbn [mirror hU]. rewrite !Rabs_Ropp. apply Rmax_comm. }
  rewrite E. unfold mirror_flux. cbn [hD hP hU hV hW euler_flux conservative].
  rewrite !mirror_energy. unfold mirror. cbn [hD hP hU hV hW]. apply HS_eq; field.
Qed.
Lemma hll_mirror ql qr : admissible p ql -> admissible p qr -> dim_ok d3 ql -> dim_ok d3 qr ->
  riemann_hll p d3 (mirror qr) (mirror ql) = mirror_flux (riemann_hll p d3 ql qr).
Proof.
  intros A1 A2 D1 D2. rewrite !hll_form by auto using mirror_adm, mirror_dim. cbv zeta.
  assert (E1 : hll_SL (mirror qr) (mirror ql) = - hll_SR ql qr).
  { unfold hll_SL, hll_SR. rewrite !mirror_csound. cbn [mirror hU].
    rewrite Rmin_opp, (Rmax_comm (csound qr)), (Rmax_comm (hU qr)).
    replace (- Rmax (hU ql) (hU qr) - Rmax (csound ql) (csound qr)) with (- (Rmax (hU ql) (hU qr) + Rmax (csound ql) (csound qr))) by ring.
    rewrite <- Ropp_0 at 1. apply Rmin_opp. }
  assert (E2 : hll_SR (mirror qr) (mirror ql) = - hll_SL ql qr).
  { unfold hll_SL, hll_SR. rewrite !mirror_csound. cbn [mirror hU].
    rewrite Rmax_opp, (Rmax_comm (csound qr)), (Rmin_comm (hU qr)).
    replace (- Rmin (hU ql) (hU qr) + Rmax (csound ql) (csound qr)) with (- (Rmin (hU ql) (hU qr) - Rmax (csound ql) (csound qr))) by ring.
    rewrite <- Ropp_0 at 1. apply Rmax_opp. }
  rewrite E1, E2. pose proof (hll_speeds ql qr A1 A2). unfold mirror_flux. cbn [hD hP hU hV hW euler_flux conservative].
  rewrite !mirror_energy. unfold mirror. cbn [hD hP hU hV hW]. apply HS_eq; field; lra.
Qed.

(** Upwinding of HLL. *)
Lemma hll_upwind_left ql qr : admissible p ql -> admissible p qr -> dim_ok d3 ql -> dim_ok d3 qr ->
  0 <= Rmin (hU ql) (hU qr) - Rmax (csound ql) (csound qr) ->
  riemann_hll p d3 ql qr = euler_flux (gamma0 p) ql.
Proof.
  intros A1 A2 D1 D2 H. rewrite hll_form by auto. cbv zeta. pose proof (hll_speeds ql qr A1 A2).
  assert (E : hll_SL ql qr = 0) by (unfold hll_SL; apply Rmin_right; auto). rewrite E in *.
  rewrite (hs_eta (euler_flux _ ql)). apply HS_eq; cbn [hD hP hU hV hW]; field; lra.
Qed.
Lemma hll_upwind_right ql qr : admissible p ql -> admissible p qr -> dim_ok d3 ql -> dim_ok d3 qr ->
  Rmax (hU ql) (hU qr) + Rmax (csound ql) (csound qr) <= 0 ->
  riemann_hll p d3 ql qr = euler_flux (gamma0 p) qr.
Proof.
  intros A1 A2 D1 D2 H. rewrite hll_form by auto. cbv zeta. pose proof (hll_speeds ql qr A1 A2).
  assert (E : hll_SR ql qr = 0) by (unfold hll_SR; apply Rmax_right; auto). rewrite E in *.
  rewrite (hs_eta (euler_flux _ qr)). apply HS_eq; cbn [hD hP hU hV hW]; field; lra.
Qed.
End R.
