(** Theorems about the MHD Riemann solvers (C74, C75).  Specification: MhdFanSpec.v, which defines fans of
    waves, jump conditions, the outer and contact speeds and mirror images without reference to the code. *)
From Coq Require Import ZArith Bool Reals Lra Psatz List.
From Verif Require Import Arith HydroState MhdState MhdRiemann MhdPhysics MhdFanSpec MhdFan2 MhdFan4.
Import ListNotations.
Open Scope R_scope.

(** States of the interface as the solvers see them. *)
Notation left_state p ql qr := (interface_state (cIso p) ql qr ql).
Notation right_state p ql qr := (interface_state (cIso p) ql qr qr).
Notation raw_left ql qr := (with_A ql (mean_field ql qr)).
Notation raw_right ql qr := (with_A qr (mean_field ql qr)).
Definition physical (p : mparams R) (ql qr : ms R) : Prop :=
  1 < gamma0 (mh p) /\ 0 < mD ql /\ 0 < mD qr /\ 0 < mP ql /\ 0 < mP qr.

(** ** C75: the interface flux is that of a fan satisfying the jump conditions *)
Theorem C75_hlld_fan : forall (p : mparams R) ql qr junk, riemann_type (mh p) = RIEMANN_HLLD -> physical p ql qr ->
  regular_fan (gamma0 (mh p)) (left_state p ql qr) (right_state p ql qr) ->
  mhd_fan_between (gamma0 (mh p)) (left_state p ql qr) (right_state p ql qr)
    (five_speeds (gamma0 (mh p)) (left_state p ql qr) (right_state p ql qr)) (riemann_mhd p ql qr junk).
Proof. intros p ql qr junk E (H1 & H2 & H3 & H4 & H5) HR. unfold riemann_mhd. rewrite E. apply hlld_between; auto. Qed.
Print Assumptions C75_hlld_fan.
Theorem C75_hll_fan : forall (p : mparams R) ql qr junk, riemann_type (mh p) = RIEMANN_HLL -> physical p ql qr ->
  fan_between (gamma0 (mh p)) (left_state p ql qr) (right_state p ql qr)
    [left_speed (gamma0 (mh p)) (raw_left ql qr) (raw_right ql qr); right_speed (gamma0 (mh p)) (raw_left ql qr) (raw_right ql qr)]
    (riemann_mhd p ql qr junk).
Proof. intros p ql qr junk E (H1 & H2 & H3 & H4 & H5). unfold riemann_mhd. rewrite E. apply hll_between; auto. Qed.
Print Assumptions C75_hll_fan.
Theorem C75_llf_fan : forall (p : mparams R) ql qr junk, riemann_type (mh p) = RIEMANN_LLF -> physical p ql qr ->
  fan_between (gamma0 (mh p)) (left_state p ql qr) (right_state p ql qr)
    [- largest_signal (gamma0 (mh p)) (raw_left ql qr) (raw_right ql qr); largest_signal (gamma0 (mh p)) (raw_left ql qr) (raw_right ql qr)]
    (riemann_mhd p ql qr junk).
Proof. intros p ql qr junk E (H1 & H2 & H3 & H4 & H5). unfold riemann_mhd. rewrite E. apply llf_between; auto. Qed.
Print Assumptions C75_llf_fan.

(** Example: a shock tube with a transverse field on one side only. *)
Definition tube (r : Z) : mparams R := MParams (HParams R (5/3) 1 (1/100) (1/100) (1/100) 1 1 (1/2) 1 1 1 r)%R 0%R 0%R 0%R.
Definition tube_l : ms R := MS 1 (12/5) 0 0 0 1 0 0.
Definition tube_r : ms R := MS 1 (3/5) 0 0 0 1 (1/2) 0.
Lemma raw_is_state (ql qr q : ms R) : interface_state 0 ql qr q = with_A q (mean_field ql qr).
Proof. unfold interface_state, gas_state. destruct Rlt_dec; [lra|reflexivity]. Qed.
Lemma fast_normal gam d pr u v w a c : 0 < d -> 0 <= c -> gam * pr <= a * a -> a * a = d * (c * c) -> fast_speed gam (MS d pr u v w a 0 0) a = c.
Proof.
  intros Hd Hc H E. unfold fast_speed, field2. cbn.
  match goal with |- R_sqrt.sqrt ((_ + R_sqrt.sqrt ?x) / 2) = _ => rewrite (is_sq x (a * a / d - gam * pr / d)) end.
  - apply is_sq; auto. rewrite E. field. lra.
  - unfold Rdiv. rewrite <- Rmult_minus_distr_r. apply Rmult_le_pos; [lra|]. left. apply Rinv_0_lt_compat. auto.
  - field. lra.
Qed.
Lemma fast_sonic gam d pr u v w a c : 0 < d -> 0 <= c -> a * a <= gam * pr -> gam * pr = d * (c * c) -> fast_speed gam (MS d pr u v w a 0 0) a = c.
Proof.
  intros Hd Hc H E. unfold fast_speed, field2. cbn.
  match goal with |- R_sqrt.sqrt ((_ + R_sqrt.sqrt ?x) / 2) = _ => rewrite (is_sq x (gam * pr / d - a * a / d)) end.
  - apply is_sq; auto. rewrite E. field. lra.
  - unfold Rdiv. rewrite <- Rmult_minus_distr_r. apply Rmult_le_pos; [lra|]. left. apply Rinv_0_lt_compat. auto.
  - field. lra.
Qed.
Lemma fast_bound gam q x c : 0 <= c -> 0 <= 4 * (gam * mP q / mD q) * (x * x / mD q) -> 0 <= gam * mP q / mD q + field2 q / mD q ->
  gam * mP q / mD q + field2 q / mD q <= c * c -> fast_speed gam q x <= c.
Proof.
  intros Hc Hx H0 H. unfold fast_speed. set (S := gam * mP q / mD q + field2 q / mD q) in *.
  rewrite <- (R_sqrt.sqrt_square c) by auto. apply R_sqrt.sqrt_le_1_alt.
  assert (R_sqrt.sqrt (S * S - 4 * (gam * mP q / mD q) * (x * x / mD q)) <= S); [|lra].
  apply Rle_trans with (R_sqrt.sqrt (S * S)); [|rewrite R_sqrt.sqrt_square; lra]. apply R_sqrt.sqrt_le_1_alt. lra.
Qed.
Lemma tube_states r : left_state (tube r) tube_l tube_r = tube_l /\ right_state (tube r) tube_l tube_r = tube_r.
Proof. change (cIso (tube r)) with 0. rewrite !raw_is_state. unfold mean_field, tube_l, tube_r. cbn. split; apply MhdFan2.ms_eq; cbn; lra. Qed.
Lemma tube_speeds : left_speed (5/3) tube_l tube_r = - 2 /\ right_speed (5/3) tube_l tube_r = 2 /\ contact_speed_mhd (5/3) tube_l tube_r = 67/160.
Proof.
  assert (F : fastest_speed (5/3) tube_l tube_r = 2).
  { unfold fastest_speed. replace (fast_speed (5/3) tube_l (mA tube_l)) with 2.
    - apply Rmax_left. apply fast_bound; unfold tube_r, field2; cbn; lra.
    - symmetry. apply fast_sonic; cbn; lra. }
  assert (A : left_speed (5/3) tube_l tube_r = - 2) by (unfold left_speed; rewrite F; cbn; rewrite Rmin_left; lra).
  assert (B : right_speed (5/3) tube_l tube_r = 2) by (unfold right_speed; rewrite F; cbn; rewrite Rmax_left; lra).
  repeat split; auto. unfold contact_speed_mhd. rewrite A, B. unfold total_pressure, field2. cbn. field; intros E; lra.
Qed.
Lemma tube_ok r : physical (tube r) tube_l tube_r. Proof. unfold physical. cbn. lra. Qed.
Lemma tube_regular r : let p := tube r in regular_fan (gamma0 (mh p)) (left_state p tube_l tube_r) (right_state p tube_l tube_r) /\
  alfven_inside (gamma0 (mh p)) (left_state p tube_l tube_r) (right_state p tube_l tube_r).
Proof.
  cbv zeta. destruct (tube_states r) as (-> & ->). destruct tube_speeds as (A & B & C). change (gamma0 (mh (tube r))) with (5/3).
  unfold regular_fan, regular_side, alfven_inside. rewrite A, B, C. cbn. repeat split; try (intros E; lra); try lra;
    intros _; rewrite Rabs_pos_eq; lra.
Qed.
Example C75_hypotheses_hold : let p := tube RIEMANN_HLLD in riemann_type (mh p) = RIEMANN_HLLD /\ physical p tube_l tube_r /\
  regular_fan (gamma0 (mh p)) (left_state p tube_l tube_r) (right_state p tube_l tube_r) /\
  riemann_type (mh (tube RIEMANN_HLL)) = RIEMANN_HLL /\ physical (tube RIEMANN_HLL) tube_l tube_r /\
  riemann_type (mh (tube RIEMANN_LLF)) = RIEMANN_LLF /\ physical (tube RIEMANN_LLF) tube_l tube_r.
Proof.
  cbv zeta. repeat split; try exact eq_refl; try (cbn; lra); try apply (tube_regular RIEMANN_HLLD).
Qed.

(** ** C74: mirror image *)
Theorem C74_mirror_hll_llf : forall (p : mparams R) ql qr junk, riemann_type (mh p) = RIEMANN_HLL \/ riemann_type (mh p) = RIEMANN_LLF ->
  physical p ql qr -> riemann_mhd p (mhd_mirror qr) (mhd_mirror ql) junk = mhd_mirror_flux (riemann_mhd p ql qr junk).
Proof.
  intros p ql qr junk [E | E] (H1 & H2 & H3 & H4 & H5); unfold riemann_mhd; rewrite E; [apply hll_mirror|apply llf_mirror]; auto.
Qed.
Print Assumptions C74_mirror_hll_llf.
Theorem C74_mirror_hlld : forall (p : mparams R) ql qr junk, riemann_type (mh p) = RIEMANN_HLLD -> physical p ql qr ->
  regular_fan (gamma0 (mh p)) (left_state p ql qr) (right_state p ql qr) ->
  alfven_inside (gamma0 (mh p)) (left_state p ql qr) (right_state p ql qr) ->
  riemann_mhd p (mhd_mirror qr) (mhd_mirror ql) junk = mhd_mirror_flux (riemann_mhd p ql qr junk).
Proof. intros p ql qr junk E (H1 & H2 & H3 & H4 & H5) HR HI. unfold riemann_mhd. rewrite E. apply hlld_mirror; auto. Qed.
Print Assumptions C74_mirror_hlld.
Example C74_mirror_hypotheses_hold : let p := tube RIEMANN_HLLD in riemann_type (mh p) = RIEMANN_HLLD /\ physical p tube_l tube_r /\
  regular_fan (gamma0 (mh p)) (left_state p tube_l tube_r) (right_state p tube_l tube_r) /\
  alfven_inside (gamma0 (mh p)) (left_state p tube_l tube_r) (right_state p tube_l tube_r).
Proof. split; [reflexivity|]. split; [apply tube_ok|]. apply (tube_regular RIEMANN_HLLD). Qed.

(** ** C74: supersonic flow *)
Theorem C74_upwind_hll : forall (p : mparams R) ql qr junk, riemann_type (mh p) = RIEMANN_HLL -> physical p ql qr ->
  (0 <= left_speed (gamma0 (mh p)) (raw_left ql qr) (raw_right ql qr) ->
   riemann_mhd p ql qr junk = mhd_flux (gamma0 (mh p)) (left_state p ql qr)) /\
  (right_speed (gamma0 (mh p)) (raw_left ql qr) (raw_right ql qr) <= 0 ->
   riemann_mhd p ql qr junk = mhd_flux (gamma0 (mh p)) (right_state p ql qr)).
Proof.
  intros p ql qr junk E (H1 & H2 & H3 & H4 & H5). unfold riemann_mhd. rewrite E. split; intros H; [apply hll_left|apply hll_right]; auto.
Qed.
Print Assumptions C74_upwind_hll.
Theorem C74_upwind_hlld : forall (p : mparams R) ql qr junk, riemann_type (mh p) = RIEMANN_HLLD -> physical p ql qr ->
  (0 < left_speed (gamma0 (mh p)) (left_state p ql qr) (right_state p ql qr) ->
   riemann_mhd p ql qr junk = mhd_flux (gamma0 (mh p)) (left_state p ql qr)) /\
  (regular_fan (gamma0 (mh p)) (left_state p ql qr) (right_state p ql qr) ->
   alfven_inside (gamma0 (mh p)) (left_state p ql qr) (right_state p ql qr) ->
   right_speed (gamma0 (mh p)) (left_state p ql qr) (right_state p ql qr) <= 0 ->
   riemann_mhd p ql qr junk = mhd_flux (gamma0 (mh p)) (right_state p ql qr)).
Proof.
  intros p ql qr junk E (H1 & H2 & H3 & H4 & H5). unfold riemann_mhd. rewrite E.
  split; intros; [apply hlld_left|apply hlld_right]; auto.
Qed.
Print Assumptions C74_upwind_hlld.
(** The same tube moving with speed +-3. *)
Definition boost (u : R) (q : ms R) : ms R := MS (mD q) (mP q) (mU q + u) (mV q) (mW q) (mA q) (mB q) (mC q).
Lemma boost_state u r : left_state (tube r) (boost u tube_l) (boost u tube_r) = boost u tube_l /\
  right_state (tube r) (boost u tube_l) (boost u tube_r) = boost u tube_r.
Proof. change (cIso (tube r)) with 0. rewrite !raw_is_state. unfold mean_field, boost, tube_l, tube_r. cbn. split; apply MhdFan2.ms_eq; cbn; lra. Qed.
Lemma boost_speeds u : left_speed (5/3) (boost u tube_l) (boost u tube_r) = u - 2 /\ right_speed (5/3) (boost u tube_l) (boost u tube_r) = u + 2 /\
  contact_speed_mhd (5/3) (boost u tube_l) (boost u tube_r) = u + 67/160.
Proof.
  assert (F : fastest_speed (5/3) (boost u tube_l) (boost u tube_r) = 2).
  { unfold fastest_speed. replace (fast_speed (5/3) (boost u tube_l) (mA (boost u tube_l))) with 2.
    - apply Rmax_left. apply fast_bound; unfold tube_r, boost, field2; cbn; lra.
    - symmetry. apply fast_sonic; cbn; lra. }
  assert (A : left_speed (5/3) (boost u tube_l) (boost u tube_r) = u - 2) by (unfold left_speed; rewrite F; cbn; rewrite Rmin_left; lra).
  assert (B : right_speed (5/3) (boost u tube_l) (boost u tube_r) = u + 2) by (unfold right_speed; rewrite F; cbn; rewrite Rmax_left; lra).
  repeat split; auto. unfold contact_speed_mhd. rewrite A, B. unfold total_pressure, field2. cbn. field; intros E; lra.
Qed.
Example C74_upwind_hypotheses_hold : let p := tube RIEMANN_HLLD in
  let l := boost 3 tube_l in let r := boost 3 tube_r in let l' := boost (-3) tube_l in let r' := boost (-3) tube_r in
  physical p l r /\ 0 < left_speed (gamma0 (mh p)) (left_state p l r) (right_state p l r) /\
  physical p l' r' /\ regular_fan (gamma0 (mh p)) (left_state p l' r') (right_state p l' r') /\
  alfven_inside (gamma0 (mh p)) (left_state p l' r') (right_state p l' r') /\
  right_speed (gamma0 (mh p)) (left_state p l' r') (right_state p l' r') <= 0.
Proof.
  cbv zeta. change (gamma0 (mh (tube RIEMANN_HLLD))) with (5/3).
  destruct (boost_state 3 RIEMANN_HLLD) as (-> & ->). destruct (boost_state (-3) RIEMANN_HLLD) as (-> & ->).
  destruct (boost_speeds 3) as (A & B & C). destruct (boost_speeds (-3)) as (A' & B' & C').
  unfold regular_fan, regular_side, alfven_inside, physical. rewrite A, A', B', C'. cbn.
  repeat split; try (intros E; lra); try lra; intros _; rewrite Rabs_pos_eq; lra.
Qed.

(** With a strong normal field a rotational wave can lie outside the outer wave; the solver then does not take
    the right state although every outer wave moves to the left, nor is it mirror symmetric. *)
Definition strong_l : ms R := MS 4 1 (-202/100) 0 0 2 0 0.
Definition strong_r : ms R := MS 1 (1/10) (-202/100) 0 0 2 0 0.
Lemma strong_states r : left_state (tube r) strong_l strong_r = strong_l /\ right_state (tube r) strong_l strong_r = strong_r.
Proof. change (cIso (tube r)) with 0. rewrite !raw_is_state. unfold mean_field, strong_l, strong_r. cbn. split; apply MhdFan2.ms_eq; cbn; lra. Qed.
Lemma strong_speeds : left_speed (5/3) strong_l strong_r = -402/100 /\ right_speed (5/3) strong_l strong_r = -2/100 /\
  contact_speed_mhd (5/3) strong_l strong_r = -193/100.
Proof.
  assert (F : fastest_speed (5/3) strong_l strong_r = 2).
  { unfold fastest_speed. replace (fast_speed (5/3) strong_r (mA strong_r)) with 2 by (symmetry; apply fast_normal; cbn; lra).
    replace (fast_speed (5/3) strong_l (mA strong_l)) with 1 by (symmetry; apply fast_normal; cbn; lra). apply Rmax_right. lra. }
  assert (A : left_speed (5/3) strong_l strong_r = -402/100) by (unfold left_speed; rewrite F; cbn; rewrite Rmin_left; lra).
  assert (B : right_speed (5/3) strong_l strong_r = -2/100) by (unfold right_speed; rewrite F; cbn; rewrite Rmax_left; lra).
  repeat split; auto. unfold contact_speed_mhd. rewrite A, B. unfold total_pressure, field2. cbn. field; intros E; lra.
Qed.

Theorem C74_hlld_upwind_refuted : exists (p : mparams R) ql qr, riemann_type (mh p) = RIEMANN_HLLD /\ physical p ql qr /\
  regular_fan (gamma0 (mh p)) (left_state p ql qr) (right_state p ql qr) /\
  right_speed (gamma0 (mh p)) (left_state p ql qr) (right_state p ql qr) < 0 /\
  forall junk, riemann_mhd p ql qr junk <> mhd_flux (gamma0 (mh p)) (right_state p ql qr).
Proof.
  exists (tube RIEMANN_HLLD), strong_l, strong_r. change (gamma0 (mh (tube RIEMANN_HLLD))) with (5/3).
  destruct (strong_states RIEMANN_HLLD) as (EL & ER). rewrite EL, ER. destruct strong_speeds as (A & B & C).
  assert (PH : physical (tube RIEMANN_HLLD) strong_l strong_r) by (unfold physical; cbn; lra).
  assert (RG : regular_fan (5/3) strong_l strong_r).
  { unfold regular_fan, regular_side. rewrite A, B, C. cbn. split; (split; [intros E; lra|]); intros _.
    - rewrite Rabs_pos_eq; lra.
    - rewrite Rabs_left; lra. }
  split; [reflexivity|]. split; [exact PH|]. split; [exact RG|]. split; [lra|]. intros junk E.
  destruct PH as (G & D1 & D2 & P1 & P2).
  assert (K := MhdFan.form (tube RIEMANN_HLLD) G strong_l strong_r D1 D2).
  assert (RG' : regular_fan (gamma0 (mh (tube RIEMANN_HLLD))) (left_state (tube RIEMANN_HLLD) strong_l strong_r) (right_state (tube RIEMANN_HLLD) strong_l strong_r))
    by (rewrite EL, ER; exact RG).
  assert (S := hlld_speeds (tube RIEMANN_HLLD) G strong_l strong_r D1 D2 P1 P2 RG').
  destruct (hlld_third_mass (tube RIEMANN_HLLD) strong_l strong_r RG') as (s1 & s2 & s4 & r1 & r2 & r3 & r4 & r5 & F & M).
  rewrite F in S, K. change (gamma0 (mh (tube RIEMANN_HLLD))) with (5/3) in *. rewrite EL, ER in *.
  unfold five_speeds in S. rewrite A, B, C in *. cbn [map fst] in S.
  assert (T1 := f_equal (fun l => nth 0 l 0) S). assert (T2 := f_equal (fun l => nth 1 l 0) S). assert (T4 := f_equal (fun l => nth 3 l 0) S).
  cbn [nth] in T1, T2, T4. clear S.
  change (riemann_mhd (tube RIEMANN_HLLD) strong_l strong_r junk) with (riemann_hlld (tube RIEMANN_HLLD) strong_l strong_r) in E.
  rewrite K in E. unfold fan_flux in E.
  assert (N1 : ~ 0 < s1) by (rewrite T1; lra).
  assert (N2 : ~ 0 < s2).
  { rewrite T2. cbn [mD mU mA strong_l]. intros X. pose proof (Rabs_pos 2).
    match type of X with 0 < _ - _ / R_sqrt.sqrt ?d => assert (0 <= Rabs 2 / R_sqrt.sqrt d) end; [|lra].
    apply Rmult_le_pos; [auto|]. apply Rlt_le, Rinv_0_lt_compat, R_sqrt.sqrt_lt_R0. lra. }
  assert (N4 : 0 < s4).
  { rewrite T4. cbn [mD mU mA strong_r]. rewrite Rabs_pos_eq by lra.
    match goal with |- 0 < _ + _ / R_sqrt.sqrt ?d => assert (Q : R_sqrt.sqrt d <= 10233/10000); [|assert (Q0 : 0 < R_sqrt.sqrt d) by (apply R_sqrt.sqrt_lt_R0; lra); set (q := R_sqrt.sqrt d) in *] end.
    - rewrite <- (R_sqrt.sqrt_square (10233/10000)) by lra. apply R_sqrt.sqrt_le_1_alt. lra.
    - assert (193/100 * q < 2) by lra. apply Rmult_lt_reg_r with q; [auto|]. replace ((-193/100 + 2 / q) * q) with (2 - 193/100 * q) by (field; lra). lra. }
  destruct (Rlt_dec 0 s1); [contradiction|]. destruct (Rlt_dec 0 s2); [contradiction|]. destruct (Rlt_dec 0 (-193/100)); [lra|].
  destruct (Rlt_dec 0 s4); [|contradiction]. rewrite E in M. cbn in M. lra.
Qed.
Print Assumptions C74_hlld_upwind_refuted.
Theorem C74_hlld_mirror_refuted : exists (p : mparams R) ql qr, riemann_type (mh p) = RIEMANN_HLLD /\ physical p ql qr /\
  regular_fan (gamma0 (mh p)) (left_state p ql qr) (right_state p ql qr) /\
  forall junk, riemann_mhd p (mhd_mirror qr) (mhd_mirror ql) junk <> mhd_mirror_flux (riemann_mhd p ql qr junk).
Proof.
  destruct C74_hlld_upwind_refuted as (p & ql & qr & HT & PH & RG & SP & NE). exists p, ql, qr.
  split; [exact HT|]. split; [exact PH|]. split; [exact RG|]. intros junk E. apply (NE junk).
  destruct PH as (G & D1 & D2 & P1 & P2).
  assert (PH' : physical p (mhd_mirror qr) (mhd_mirror ql)) by (unfold physical; cbn; tauto).
  destruct (C74_upwind_hlld p (mhd_mirror qr) (mhd_mirror ql) junk HT PH') as (U & _).
  rewrite !mirror_interface, mirror_left, mirror_flux in U by auto. rewrite U in E by lra.
  assert (I : forall f, mhd_mirror_flux (mhd_mirror_flux f) = f) by (intros f; destruct f; unfold mhd_mirror_flux; cbn; f_equal; ring).
  apply (f_equal mhd_mirror_flux) in E. rewrite !I in E. symmetry. exact E.
Qed.
Print Assumptions C74_hlld_mirror_refuted.
