(** The MHD Riemann solvers on states: fans, supersonic flow, mirror images. *)
From Coq Require Import ZArith Bool Reals Lra Psatz List.
From Verif Require Import Arith HydroState MhdState MhdRiemann MhdPoint MhdSpec MhdPhysics MhdFlux HllcProofs RiemannProofs MhdFanSpec MhdFan MhdFan2 MhdFan3.
Import ListNotations.
Open Scope R_scope.

Lemma gas_pos c q : 0 < mD q -> 0 < mP q -> 0 < mP (gas_state c q).
Proof. intros H1 H2. unfold gas_state. destruct Rlt_dec; cbn; [|auto]. apply Rmult_lt_0_compat; [apply Rmult_lt_0_compat|]; auto. Qed.
Lemma is_sq (x y : R) : 0 <= y -> x = y * y -> sqrt x = y.
Proof. intros H ->. apply sqrt_square; auto. Qed.

Section S.
Variable p : mparams R.
Local Notation gam := (gamma0 (mh p)).
Hypothesis gam_pos : 1 < gam.
Variables ql qr : ms R.
Let L := interface_state (cIso p) ql qr ql.
Let Q := interface_state (cIso p) ql qr qr.
Let L0 := with_A ql (mean_field ql qr).
Let Q0 := with_A qr (mean_field ql qr).
Hypothesis dl : 0 < mD ql.
Hypothesis dr : 0 < mD qr.
Hypothesis pl : 0 < mP ql.
Hypothesis pr : 0 < mP qr.

Lemma hll_between : fan_between gam L Q [left_speed gam L0 Q0; right_speed gam L0 Q0] (riemann_hll_mhd p ql qr).
Proof.
  eexists. split; [|split; [|split; [|apply hll_fan; auto]]]; [reflexivity| |reflexivity].
  apply two_fan_ok. apply sl_sr; auto.
Qed.
Lemma llf_between : fan_between gam L Q [- largest_signal gam L0 Q0; largest_signal gam L0 Q0] (riemann_llf_mhd p ql qr).
Proof.
  eexists. split; [|split; [|split; [|apply llf_fan; auto]]]; [reflexivity| |reflexivity].
  apply two_fan_ok. pose proof (c_pos p gam_pos ql qr dl pl) as H. fold L0 Q0 in H |- *. lra.
Qed.
Lemma hll_left : 0 <= left_speed gam L0 Q0 -> riemann_hll_mhd p ql qr = mhd_flux gam L.
Proof.
  intros H. rewrite hll_form by auto. fold L Q L0 Q0. pose proof (sl_sr p gam_pos ql qr dl pl) as K. fold L0 Q0 in K.
  rewrite Rmin_right, Rmax_left by lra. apply ms_eq; unfold two_F, cmp8, gas_region; cbn [rF rU mD mP mU mV mW mA mB mC]; field; lra.
Qed.
Lemma hll_right : right_speed gam L0 Q0 <= 0 -> riemann_hll_mhd p ql qr = mhd_flux gam Q.
Proof.
  intros H. rewrite hll_form by auto. fold L Q L0 Q0. pose proof (sl_sr p gam_pos ql qr dl pl) as K. fold L0 Q0 in K.
  rewrite Rmin_left, Rmax_right by lra. apply ms_eq; unfold two_F, cmp8, gas_region; cbn [rF rU mD mP mU mV mW mA mB mC]; field; lra.
Qed.
Lemma hlld_speeds : regular_fan gam L Q -> map fst (hlld_fan p ql qr) = five_speeds gam L Q.
Proof.
  assert (P1 : 0 < mP (gas_state (cIso p) ql)) by (apply gas_pos; auto). assert (P2 : 0 < mP (gas_state (cIso p) qr)) by (apply gas_pos; auto).
  pose proof (dL p ql qr dl) as DL. pose proof (dQ p ql qr dr) as DQ. fold L in DL. fold Q in DQ.
  destruct (speeds_between p gam_pos L Q DL DQ P1 P2 eq_refl) as (C & S1 & S2).
  intros (R1 & R2). unfold hlld_fan. fold L Q. rewrite (core_speeds (mean_field ql qr)); [reflexivity|exact S1| |].
  - apply reg_of. exact R1.
  - apply reg_of. exact R2.
Qed.
Lemma hlld_between : regular_fan gam L Q -> mhd_fan_between gam L Q (five_speeds gam L Q) (riemann_hlld p ql qr).
Proof.
  intros HR. exists (hlld_fan p ql qr).
  assert (P1 : 0 < mP (gas_state (cIso p) ql)) by (apply gas_pos; auto). assert (P2 : 0 < mP (gas_state (cIso p) qr)) by (apply gas_pos; auto).
  destruct (hlld_fan_ok p gam_pos ql qr dl dr P1 P2 HR) as (H1 & H2 & H3). fold L Q in H2, H3.
  split; [apply hlld_speeds; auto|split; [exact H1|split; [exact H2|split; [exact H3|apply form; auto]]]].
Qed.
Lemma hlld_third_mass (H : regular_fan gam L Q) : let sr := right_speed gam L Q in let us := contact_speed_mhd gam L Q in
  exists s1 s2 s4 r1 r2 r3 r4 r5, hlld_fan p ql qr = [(s1, r1); (s2, r2); (us, r3); (s4, r4); (sr, r5)] /\
  mD (rF r3) = mD Q * (sr - mU Q) / (sr - us) * us.
Proof.
  intros sr us. unfold hlld_fan, core_fan. fold L Q. do 8 eexists. split; [reflexivity|].
  destruct H as (_ & R2). apply reg_of in R2. rewrite (side_form (mean_field ql qr) (Rmax (mU L) (mU Q) + fastest_speed gam L Q)) by exact R2. reflexivity.
Qed.
Lemma hlld_left : 0 < left_speed gam L Q -> riemann_hlld p ql qr = mhd_flux gam L.
Proof.
  intros H. rewrite form by auto. fold L Q. unfold hlld_fan, core_fan, fan_flux. fold L Q.
  fold (left_speed gam L Q). destruct Rlt_dec; [reflexivity|contradiction].
Qed.
Lemma hlld_right : regular_fan gam L Q -> alfven_inside gam L Q -> right_speed gam L Q <= 0 -> riemann_hlld p ql qr = mhd_flux gam Q.
Proof.
  intros (R1 & R2) (I1 & I2) H. rewrite form by auto. fold L. unfold hlld_fan. fold L Q.
  assert (P1 : 0 < mP (gas_state (cIso p) ql)) by (apply gas_pos; auto). assert (P2 : 0 < mP (gas_state (cIso p) qr)) by (apply gas_pos; auto).
  pose proof (dL p ql qr dl) as DL. pose proof (dQ p ql qr dr) as DQ. fold L in DL. fold Q in DQ.
  destruct (speeds_between p gam_pos L Q DL DQ P1 P2 eq_refl) as (C & S1 & S2).
  pose proof (outer_gap p gam_pos ql qr dl dr P1 P2) as (G1 & G2). fold L Q in G1, G2.
  apply reg_of in R1, R2.
  rewrite core_right; auto.
  pose proof (gas_hreg p Q) as E. apply (f_equal rF) in E. cbn [hreg rF gas_region] in E. symmetry. exact E.
Qed.

(** Mirror images. *)
Lemma mirror_mean : mean_field (mhd_mirror qr) (mhd_mirror ql) = - mean_field ql qr.
Proof. unfold mean_field, mhd_mirror. cbn. lra. Qed.
Lemma mirror_gas c q : gas_state c (mhd_mirror q) = mhd_mirror (gas_state c q).
Proof. unfold gas_state. destruct Rlt_dec; destruct q; reflexivity. Qed.
Lemma mirror_with_A q x : with_A (mhd_mirror q) (- x) = mhd_mirror (with_A q x).
Proof. destruct q; reflexivity. Qed.
Lemma mirror_interface q : interface_state (cIso p) (mhd_mirror qr) (mhd_mirror ql) (mhd_mirror q) = mhd_mirror (interface_state (cIso p) ql qr q).
Proof. unfold interface_state. rewrite mirror_mean, mirror_gas. apply mirror_with_A. Qed.
Lemma mirror_fast q : fast_speed gam (mhd_mirror q) (mA (mhd_mirror q)) = fast_speed gam q (mA q).
Proof.
  unfold fast_speed, field2, mhd_mirror. cbn. replace (- mA q * - mA q) with (mA q * mA q) by ring. reflexivity.
Qed.
Lemma mirror_flux q : mhd_flux gam (mhd_mirror q) = mhd_mirror_flux (mhd_flux gam q).
Proof. unfold mhd_flux, mhd_mirror, mhd_mirror_flux, mhd_energy, speed2, field2, vdotB. cbn. f_equal; field; lra. Qed.
Lemma mirror_cons q : mhd_conservative gam (mhd_mirror q) = mhd_mirror (mhd_conservative gam q).
Proof. unfold mhd_conservative, mhd_mirror, mhd_energy, speed2, field2. cbn. f_equal; field; lra. Qed.
Lemma mirror_two sl sr (l r : region) : sl < sr ->
  two_F (- sr) (- sl) (mhd_mirror_flux (rF r)) (mhd_mirror_flux (rF l)) (mhd_mirror (rU r)) (mhd_mirror (rU l))
  = mhd_mirror_flux (two_F sl sr (rF l) (rF r) (rU l) (rU r)).
Proof. intros H. apply ms_eq; unfold two_F, cmp8, mhd_mirror, mhd_mirror_flux; cbn; field; lra. Qed.
Lemma mirror_fastest l r : fastest_speed gam (mhd_mirror r) (mhd_mirror l) = fastest_speed gam l r.
Proof. unfold fastest_speed. rewrite !mirror_fast. apply Rmax_comm. Qed.
Lemma mirror_left l r : left_speed gam (mhd_mirror r) (mhd_mirror l) = - right_speed gam l r.
Proof. unfold left_speed, right_speed. rewrite mirror_fastest. cbn [mhd_mirror mU]. rewrite Rmin_opp, (Rmax_comm (mU r)). ring. Qed.
Lemma mirror_right l r : right_speed gam (mhd_mirror r) (mhd_mirror l) = - left_speed gam l r.
Proof. unfold left_speed, right_speed. rewrite mirror_fastest. cbn [mhd_mirror mU]. rewrite Rmax_opp, (Rmin_comm (mU r)). ring. Qed.
Lemma mirror_signal q : signal_speed gam (mhd_mirror q) = signal_speed gam q.
Proof. unfold signal_speed. rewrite mirror_fast. cbn. rewrite Rabs_Ropp. reflexivity. Qed.
Lemma hll_mirror : riemann_hll_mhd p (mhd_mirror qr) (mhd_mirror ql) = mhd_mirror_flux (riemann_hll_mhd p ql qr).
Proof.
  rewrite !hll_form by auto. fold L Q L0 Q0. rewrite mirror_mean, !mirror_with_A. fold L0 Q0. rewrite mirror_left, mirror_right, !mirror_interface.
  fold L Q. unfold gas_region. cbn [rF rU]. rewrite !mirror_flux, !mirror_cons.
  replace (Rmin (- right_speed gam L0 Q0) 0) with (- Rmax (right_speed gam L0 Q0) 0) by (rewrite <- Rmin_opp, Ropp_0; reflexivity).
  replace (Rmax (- left_speed gam L0 Q0) 0) with (- Rmin (left_speed gam L0 Q0) 0) by (rewrite <- Rmax_opp, Ropp_0; reflexivity).
  apply (mirror_two _ _ (gas_region gam L) (gas_region gam Q)).
  pose proof (sl_sr p gam_pos ql qr dl pl) as K. fold L0 Q0 in K. pose proof (Rmin_l (left_speed gam L0 Q0) 0). pose proof (Rmax_l (right_speed gam L0 Q0) 0). lra.
Qed.
Lemma llf_mirror : riemann_llf_mhd p (mhd_mirror qr) (mhd_mirror ql) = mhd_mirror_flux (riemann_llf_mhd p ql qr).
Proof.
  rewrite !llf_form by auto. fold L Q L0 Q0. rewrite mirror_mean, !mirror_with_A. fold L0 Q0. rewrite !mirror_interface. fold L Q.
  unfold gas_region. cbn [rF rU]. rewrite !mirror_flux, !mirror_cons.
  assert (E : largest_signal gam (mhd_mirror Q0) (mhd_mirror L0) = largest_signal gam L0 Q0) by (unfold largest_signal; rewrite !mirror_signal; apply Rmax_comm).
  rewrite E. pose proof (c_pos p gam_pos ql qr dl pl) as K. fold L0 Q0 in K. set (c := largest_signal gam L0 Q0) in *.
  rewrite <- (Ropp_involutive c) at 2. apply (mirror_two _ _ (gas_region gam L) (gas_region gam Q)). lra.
Qed.
Lemma hlld_mirror : regular_fan gam L Q -> alfven_inside gam L Q ->
  riemann_hlld p (mhd_mirror qr) (mhd_mirror ql) = mhd_mirror_flux (riemann_hlld p ql qr).
Proof.
  intros (R1 & R2) (I1 & I2).
  assert (P1 : 0 < mP (gas_state (cIso p) ql)) by (apply gas_pos; auto). assert (P2 : 0 < mP (gas_state (cIso p) qr)) by (apply gas_pos; auto).
  pose proof (dL p ql qr dl) as DL. pose proof (dQ p ql qr dr) as DQ. fold L in DL. fold Q in DQ.
  destruct (speeds_between p gam_pos L Q DL DQ P1 P2 eq_refl) as (C & S1 & S2).
  pose proof (outer_gap p gam_pos ql qr dl dr P1 P2) as (G1 & G2). fold L Q in G1, G2. apply reg_of in R1, R2.
  rewrite !form by auto. rewrite !mirror_interface. fold L Q.
  unfold hlld_fan. rewrite !mirror_interface, mirror_mean, mirror_fastest. fold L Q.
  set (a := mean_field ql qr).
  assert (En : forall q, mhd_energy gam (mhd_mirror q) = mhd_energy gam q) by (intros q; unfold mhd_energy, speed2, field2, mhd_mirror; cbn; f_equal; [f_equal|]; f_equal; ring).
  assert (Tp : forall q, total_pressure (mhd_mirror q) = total_pressure q) by (intros q; unfold total_pressure, field2, mhd_mirror; cbn; f_equal; f_equal; ring).
  assert (Vb : forall q, vdotB (mhd_mirror q) = vdotB q) by (intros q; unfold vdotB, mhd_mirror; cbn; ring).
  rewrite !gas_hreg, !En, !Tp, !Vb. cbn [mhd_mirror mD mU mV mW mA mB mC].
  assert (AL : mA L = a) by reflexivity. assert (AQ : mA Q = a) by reflexivity. rewrite AL, AQ in *.
  rewrite <- !core_form. apply core_mirror; auto; unfold vdotB; rewrite ?AL, ?AQ; ring.
Qed.
End S.
