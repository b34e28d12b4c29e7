(** MHD Riemann solvers: HLL and LLF fans, supersonic flow, mirror images. *)
From Coq Require Import ZArith Bool Reals Lra Psatz List.
From Verif Require Import Arith HydroState MhdState MhdRiemann MhdPoint MhdSpec MhdPhysics MhdFlux HllcProofs RiemannProofs MhdFanSpec MhdFan.
Import ListNotations.
Open Scope R_scope.

Lemma ms_eq (x y : ms R) : mD x = mD y -> mP x = mP y -> mU x = mU y -> mV x = mV y -> mW x = mW y -> mA x = mA y ->
  mB x = mB y -> mC x = mC y -> x = y.
Proof. destruct x, y; cbn; congruence. Qed.

(** Two-wave fans. *)
Definition cmp8 (f : R -> R -> R -> R -> R) (fl fr ul ur : ms R) : ms R :=
  MS (f (mD fl) (mD fr) (mD ul) (mD ur)) (f (mP fl) (mP fr) (mP ul) (mP ur))
     (f (mU fl) (mU fr) (mU ul) (mU ur)) (f (mV fl) (mV fr) (mV ul) (mV ur))
     (f (mW fl) (mW fr) (mW ul) (mW ur)) (f (mA fl) (mA fr) (mA ul) (mA ur))
     (f (mB fl) (mB fr) (mB ul) (mB ur)) (f (mC fl) (mC fr) (mC ul) (mC ur)).
Definition two_U sl sr := cmp8 (fun fl fr ul ur => (sr * ur - sl * ul + fl - fr) / (sr - sl)).
Definition two_F sl sr := cmp8 (fun fl fr ul ur => (sr * fl - sl * fr + sr * sl * (ur - ul)) / (sr - sl)).
Definition two_fan sl sr (l r : region) : list (R * region) :=
  [(sl, Region (two_U sl sr (rF l) (rF r) (rU l) (rU r)) (two_F sl sr (rF l) (rF r) (rU l) (rU r))); (sr, r)].
Lemma two_fan_ok sl sr l r : sl < sr -> fan_ok l (two_fan sl sr l r).
Proof.
  intros H. unfold two_fan. cbn [fan_ok]. split; [|split; [|exact I]]; unfold jump, two_U, two_F, cmp8;
    cbn [rU rF mD mP mU mV mW mA mB mC]; repeat split; field; lra.
Qed.
Lemma two_fan_flux sl sr l r : sl < sr ->
  fan_flux l (two_fan sl sr l r) = two_F (Rmin sl 0) (Rmax sr 0) (rF l) (rF r) (rU l) (rU r).
Proof.
  intros H. unfold two_fan, fan_flux. destruct (Rlt_dec 0 sl) as [A|A].
  - rewrite Rmin_right, Rmax_left by lra. apply ms_eq; unfold two_F, cmp8; cbn [mD mP mU mV mW mA mB mC]; field; lra.
  - destruct (Rlt_dec 0 sr) as [B|B].
    + rewrite Rmin_left, Rmax_left by lra. reflexivity.
    + rewrite Rmin_left, Rmax_right by lra. apply ms_eq; unfold two_F, cmp8; cbn [mD mP mU mV mW mA mB mC]; field; lra.
Qed.

Section Two.
Variable p : mparams R.
Local Notation gam := (gamma0 (mh p)).
Hypothesis gam_pos : 1 < gam.
Variables ql qr : ms R.
Let a := mean_field ql qr.
Let L := interface_state (cIso p) ql qr ql.
Let Q := interface_state (cIso p) ql qr qr.
(** HLL and LLF take the pressure of the fast speed from the state as given. *)
Let L0 := with_A ql a.
Let Q0 := with_A qr a.
Hypothesis dl : 0 < mD ql.
Hypothesis dr : 0 < mD qr.
Hypothesis pl : 0 < mP ql.
Hypothesis pr : 0 < mP qr.

Lemma half_mean : / 2 * (mA ql + mA qr) = a. Proof. unfold a, mean_field. lra. Qed.
Lemma gas_with_A c q x : gas_state c (with_A q x) = with_A (gas_state c q) x.
Proof. unfold gas_state. destruct Rlt_dec; destruct q; reflexivity. Qed.
Lemma fast_L0 : find_speed_fast p CX L0 = fast_speed gam L0 (mA L0) /\ 0 < fast_speed gam L0 (mA L0).
Proof. assert (E : find_speed_fast p CX L0 = fast_speed gam L0 (mA L0)) by (apply (fast_speed_spec p CX); exact dl). split; [exact E|]. rewrite <- E. apply fast_pos; [exact dl|]. cbn. nra. Qed.
Lemma fast_Q0 : find_speed_fast p CX Q0 = fast_speed gam Q0 (mA Q0) /\ 0 < fast_speed gam Q0 (mA Q0).
Proof. assert (E : find_speed_fast p CX Q0 = fast_speed gam Q0 (mA Q0)) by (apply (fast_speed_spec p CX); exact dr). split; [exact E|]. rewrite <- E. apply fast_pos; [exact dr|]. cbn. nra. Qed.
Lemma fl0 : find_mhd_flux p L0 = (rU (gas_region gam L), rF (gas_region gam L)).
Proof. rewrite find_mhd_flux_spec by lra. unfold L0, L. rewrite gas_with_A. reflexivity. Qed.
Lemma fq0 : find_mhd_flux p Q0 = (rU (gas_region gam Q), rF (gas_region gam Q)).
Proof. rewrite find_mhd_flux_spec by lra. unfold Q0, Q. rewrite gas_with_A. reflexivity. Qed.

Let sl := left_speed gam L0 Q0.
Let sr := right_speed gam L0 Q0.
Lemma sl_sr : sl < sr.
Proof.
  destruct fast_L0 as (_ & C1). unfold sl, sr, left_speed, right_speed.
  assert (fast_speed gam L0 (mA L0) <= fastest_speed gam L0 Q0) by apply Rmax_l.
  pose proof (Rmin_l (mU L0) (mU Q0)). pose proof (Rmax_l (mU L0) (mU Q0)). lra.
Qed.
Lemma hll_form : riemann_hll_mhd p ql qr
  = two_F (Rmin sl 0) (Rmax sr 0) (rF (gas_region gam L)) (rF (gas_region gam Q)) (rU (gas_region gam L)) (rU (gas_region gam Q)).
Proof.
  unfold riemann_hll_mhd. cbn [half add sub mul div minv maxv zero RArith]. rewrite half_mean. fold L0 Q0.
  rewrite fl0, fq0. cbv beta iota. destruct fast_L0 as (-> & _). destruct fast_Q0 as (-> & _). reflexivity.
Qed.
Lemma hll_fan : riemann_hll_mhd p ql qr = fan_flux (gas_region gam L) (two_fan sl sr (gas_region gam L) (gas_region gam Q)).
Proof. rewrite two_fan_flux by apply sl_sr. apply hll_form. Qed.
Let c := largest_signal gam L0 Q0.
Lemma c_pos : 0 < c.
Proof.
  destruct fast_L0 as (_ & C). unfold c, largest_signal. pose proof (Rmax_l (signal_speed gam L0) (signal_speed gam Q0)).
  unfold signal_speed in *. pose proof (Rabs_pos (mU L0)). lra.
Qed.
Lemma llf_form : riemann_llf_mhd p ql qr
  = two_F (- c) c (rF (gas_region gam L)) (rF (gas_region gam Q)) (rU (gas_region gam L)) (rU (gas_region gam Q)).
Proof.
  unfold riemann_llf_mhd, find_speed_info, find_speed_info_dir. cbn [half two add sub mul div absv maxv RArith]. rewrite half_mean. fold L0 Q0.
  rewrite fl0, fq0. cbv beta iota. destruct fast_L0 as (-> & _). destruct fast_Q0 as (-> & _).
  rewrite (Rplus_comm _ (Rabs (mU L0))), (Rplus_comm _ (Rabs (mU Q0))). fold (signal_speed gam L0) (signal_speed gam Q0). fold (largest_signal gam L0 Q0). fold c.
  pose proof c_pos. apply ms_eq; unfold two_F, cmp8; cbn [mD mP mU mV mW mA mB mC]; field; lra.
Qed.
Lemma llf_fan : riemann_llf_mhd p ql qr = fan_flux (gas_region gam L) (two_fan (- c) c (gas_region gam L) (gas_region gam Q)).
Proof. pose proof c_pos. rewrite two_fan_flux by lra. rewrite Rmin_left, Rmax_left by lra. apply llf_form. Qed.
End Two.
