(** Settings for which the initial state is not the prescribed one. *)
From Coq Require Import ZArith List Bool Lia Reals Lra.
From Verif Require Import Arith Par GridModel HydroState HydroKernels HydroSpec Physics
  MhdState MhdInit MhdInitSpec HydroInit HydroInitSpec HydroInitProofs HydroInitState.
Import ListNotations.
Local Open Scope R_scope.

(** A conservative state with non-zero density determines the primitive one. *)
Lemma conservative_inj gam a b : 1 < gam -> hD a <> 0 -> conservative gam a = conservative gam b -> a = b.
Proof.
  intros Hg Ha H. unfold conservative, total_energy in H.
  assert (H1 := f_equal hD H). assert (H2 := f_equal hP H). assert (H3 := f_equal hU H).
  assert (H4 := f_equal hV H). assert (H5 := f_equal hW H). clear H.
  cbn [hD hP hU hV hW] in *. rewrite <- H1 in *.
  apply Rmult_eq_reg_l in H3; [|exact Ha]. apply Rmult_eq_reg_l in H4; [|exact Ha]. apply Rmult_eq_reg_l in H5; [|exact Ha].
  rewrite <- H3, <- H4, <- H5 in H2. apply hs_eq; auto.
  apply Rplus_eq_reg_r in H2. unfold Rdiv in H2. apply Rmult_eq_reg_r in H2; [exact H2|]. apply Rinv_neq_0_compat. lra.
Qed.

Section Wrong.
Variable b3 : bool.
Variable g : grid.
Variable h : hparams R.
Variable bx : box R.
Hypothesis Hgam : 1 < gamma0 h.
Local Notation gam := (gamma0 h).
Variables (s s' : store R) (i j k : Z).
Hypothesis Hin : in_array b3 g i j k.
Local Notation P := (position g h bx i j k).

Lemma holds_actual pr a : run_kernels (init_hydro RHLibm b3 g h bx pr) s s' ->
  held_of b3 (fst (hpoint b3 h bx RHLibm pr (i, j, k) (px P) (py P) (pz P))) (conservative gam a) ->
  held b3 s' i j k = conservative gam a.
Proof. intros Hrun Hh. eapply held_init; eauto. Qed.
Lemma misses_by pr a : hD a <> 0 -> held b3 s' i j k = conservative gam a ->
  (forall q, prescribed b3 h bx pr P q -> q <> a) -> misses b3 h bx pr P (held b3 s' i j k).
Proof.
  intros Hd He Hq q Hp Hc. rewrite He in Hc. apply conservative_inj in Hc; auto. apply (Hq q Hp). auto.
Qed.

Definition implode_actual (r : ms R) : hs R :=
  HS (mD r) (mP r + (gam - 1) * ((mU r * mU r + mV r * mV r + (if b3 then mW r * mW r else 0)) * (mD r - / mD r) / 2))
     (mU r / mD r) (mV r / mD r) (if b3 then mW r / mD r else 0).
Lemma implode_wrong q r : run_kernels (init_hydro RHLibm b3 g h bx (HImplode q)) s s' ->
  (implode_outside b3 bx q P /\ r = im_out q) \/ (~ implode_outside b3 bx q P /\ r = im_in q) -> mD r <> 0 ->
  held b3 s' i j k = conservative gam (implode_actual r) /\
  (mD r <> 1 -> ~ at_rest b3 r -> misses b3 h bx (HImplode q) P (held b3 s' i j k)).
Proof.
  intros Hrun Hreg Hd.
  assert (E : held b3 s' i j k = conservative gam (implode_actual r)).
  { apply (holds_actual (HImplode q)); auto. cbn [hpoint fst]. unfold himplode.
    replace (if himplode_region b3 bx q (px P) (py P) (pz P) then im_out q else im_in q) with r.
    - unfold himplode_state. apply held_cons; unfold implode_actual, total_energy; cbn; try reflexivity; destruct b3; field; lra.
    - destruct (himplode_region b3 bx q (px P) (py P) (pz P)) eqn:E.
      + apply implode_region_spec in E. tauto.
      + destruct Hreg as [[H _]|[_ H]]; auto. apply implode_region_spec in H. congruence. }
  split; [exact E|]. intros H1 Hr. apply (misses_by _ (implode_actual r)); auto.
  intros q' Hq' Eq. assert (Eg : q' = gas_of b3 r).
  { cbn in Hq'. destruct Hq' as [[Ha Hb]|[Ha Hb]], Hreg as [[Hc Hd']|[Hc Hd']]; subst; tauto. }
  rewrite Eg in Eq. unfold gas_of, implode_actual in Eq. apply Hr.
  assert (HU := f_equal hU Eq). assert (HV := f_equal hV Eq). assert (HW := f_equal hW Eq). cbn [hU hV hW] in *.
  assert (Hx : forall x, x = x / mD r -> x = 0).
  { intros x Hx. assert (Hy : x * mD r = x) by (rewrite Hx at 1; field; lra).
    assert (Hz : x * (mD r - 1) = 0) by lra. apply Rmult_integral in Hz. destruct Hz; lra. }
  split; [apply Hx; auto|]. split; [apply Hx; auto|]. intros Eb. rewrite Eb in HW. apply Hx. auto.
Qed.

Lemma kh_nothing (m : hlibm R) rnd q : run_kernels (init_hydro m b3 g h bx (HKelvinHelmholtz rnd q)) s s' ->
  kh_rand q = false -> kh_sine_rob q = false -> held b3 s' i j k = held b3 s i j k.
Proof.
  intros Hrun H1 H2. pose proof (init_cells m b3 g h bx _ s s' Hrun (i, j, k)) as Hc.
  assert (Hf : forall v, s' (Loc aU i j k v) = s (Loc aU i j k v)).
  { intros v. destruct (Hc v (In_array _ _ _ _ _ Hin)) as [He _]. rewrite hcell_point in He. cbn [hpoint fst] in He.
    unfold hkh in He. rewrite H1, H2 in He. exact He. }
  unfold held. rewrite !Hf. reflexivity.
Qed.

Lemma gresho_wrong q : run_kernels (init_hydro RHLibm b3 g h bx (HGresho q)) s s' -> gr_rho0 q <> 0 ->
  held b3 s' i j k = conservative gam (gresho_actual b3 h q P) /\
  (gr_u q <> 0 \/ gr_v q <> 0 \/ (b3 = true /\ gr_w q = 0 /\ px P <> 0 /\ radius (px P) (py P) < 2 / 5) ->
   misses b3 h bx (HGresho q) P (held b3 s' i j k)).
Proof.
  intros Hrun H0.
  assert (E : held b3 s' i j k = conservative gam (gresho_actual b3 h q P)).
  { apply (holds_actual (HGresho q)); auto. apply gresho_held; auto. }
  split; [exact E|]. intros Hc. apply (misses_by _ (gresho_actual b3 h q P)); auto.
  intros q' -> Eq. unfold gresho_gas, gresho_actual in Eq.
  assert (HU := f_equal hU Eq). assert (HV := f_equal hV Eq). assert (HW := f_equal hW Eq). cbn [hU hV hW] in *.
  destruct Hc as [Hc|[Hc|(Hb & Hw & Hx & Hr)]]; [lra|lra|].
  rewrite Hb, Hw in HW. assert (Hr0 := radius_pos (px P) (py P) (or_introl Hx)).
  assert (Hs : 0 < gresho_speed (radius (px P) (py P))).
  { unfold gresho_speed. destruct (Rlt_dec (radius (px P) (py P)) (/ 5)); [lra|].
    destruct (Rlt_dec (radius (px P) (py P)) (2 / 5)); lra. }
  symmetry in HW. apply Rmult_integral in HW. destruct HW as [HW|HW]; [|lra].
  unfold Rdiv in HW. apply Rmult_integral in HW. destruct HW as [HW|HW]; [lra|].
  assert (H := Rinv_neq_0_compat (radius (px P) (py P))). lra.
Qed.

Lemma vortex_wrong q : b3 = false -> run_kernels (init_hydro RHLibm b3 g h bx (HVortex q)) s s' ->
  held b3 s' i j k = conservative gam (vortex_actual h q (px P) (py P)) /\
  (0 < iv_rho q -> 0 < iv_T q -> 0 < vortex_T gam q (px P) (py P) -> iv_p q <> iv_rho q * iv_T q ->
   misses b3 h bx (HVortex q) P (held b3 s' i j k)).
Proof.
  intros Hb Hrun.
  assert (E : held b3 s' i j k = conservative gam (vortex_actual h q (px P) (py P))).
  { apply (holds_actual (HVortex q)); auto. apply vortex_held; auto. }
  split; [exact E|]. intros Hr HT Ht Hp.
  assert (Hpow : forall e, 0 < Rpower (vortex_T gam q (px P) (py P) / iv_T q) e) by (intros e; apply exp_pos).
  apply (misses_by _ (vortex_actual h q (px P) (py P))); auto.
  - unfold vortex_actual, vortex_gas. cbn [hD]. apply Rgt_not_eq. apply Rmult_lt_0_compat; auto.
  - intros q' -> Eq. assert (HP := f_equal hP Eq). unfold vortex_actual in HP. cbv zeta in HP. cbn [hP] in HP.
    set (q0 := Vortex (iv_rho q) (iv_rho q * iv_T q) (iv_T q) (iv_u q) (iv_v q) (iv_x q) (iv_y q) (iv_beta q)).
    assert (HP0 := vortex_pressure h Hgam q0 (px P) (py P) eq_refl HT Ht).
    change (hD (vortex_gas gam q0 (px P) (py P))) with (hD (vortex_gas gam q (px P) (py P))) in HP0.
    change (vortex_T gam q0 (px P) (py P)) with (vortex_T gam q (px P) (py P)) in HP0.
    rewrite <- HP0 in HP. unfold vortex_gas in HP. cbn [hP] in HP.
    change (vortex_T gam q0 (px P) (py P)) with (vortex_T gam q (px P) (py P)) in HP. cbn [q0 iv_p iv_T] in HP.
    apply Rmult_eq_reg_r in HP; [auto|]. apply Rgt_not_eq. apply Hpow.
Qed.

Lemma rayleigh_wrong q d : run_kernels (init_hydro RHLibm b3 g h bx (HRayleigh q)) s s' ->
  (rt_above b3 bx P /\ d = rt_d1 q) \/ (~ rt_above b3 bx P /\ d = rt_d0 q) -> 0 < d ->
  held b3 s' i j k = conservative gam (rt_actual b3 h bx q P d) /\
  (rt_velocity bx q P <> 0 ->
   hP (rt_actual b3 h bx q P d) < hP (rt_gas b3 bx q P d) /\
   misses b3 h bx (HRayleigh q) P (held b3 s' i j k)).
Proof.
  intros Hrun Hreg Hd.
  assert (E : held b3 s' i j k = conservative gam (rt_actual b3 h bx q P d)).
  { apply (holds_actual (HRayleigh q)); auto. cbn [hpoint fst].
    destruct (hrayleigh_eq b3 h bx q P) as (d' & Hd' & El). rewrite El.
    assert (d' = d) by (destruct Hd' as [[? ->]|[? ->]], Hreg as [[? ->]|[? ->]]; tauto). subst d'.
    apply rt_held; lra. }
  split; [exact E|]. intros Hv.
  assert (Hk : 0 < (gam - 1) * (rt_velocity bx q P * rt_velocity bx q P / (2 * d))).
  { apply Rmult_lt_0_compat; [lra|]. apply Rdiv_lt_0_compat; [|lra]. nra. }
  split; [unfold rt_actual; cbn [hP]; lra|].
  apply (misses_by _ (rt_actual b3 h bx q P d)); auto; [cbn; lra|].
  intros q' Hq' Eq. assert (Eg : q' = rt_gas b3 bx q P d) by (cbn in Hq'; destruct Hq' as [[? ->]|[? ->]], Hreg as [[? ->]|[? ->]]; tauto).
  rewrite Eg in Eq. assert (HP := f_equal hP Eq). unfold rt_actual in HP. cbv zeta in HP. cbn [hP] in HP. lra.
Qed.

Lemma disk_wrong q so : run_kernels (init_hydro RHLibm b3 g h bx (HDisk q so)) s s' -> 0 < dk_r (dk_pos b3 q P) ->
  held b3 s' i j k = conservative gam (disk_actual b3 h q so P) /\
  (dk_omega2 q so (dk_pos b3 q P) < 0 ->
   hP (disk_actual b3 h q so P) < hP (disk_gas b3 q so P) /\
   misses b3 h bx (HDisk q so) P (held b3 s' i j k)).
Proof.
  intros Hrun Hr.
  assert (E : held b3 s' i j k = conservative gam (disk_actual b3 h q so P)).
  { apply (holds_actual (HDisk q so)); auto. apply disk_held; auto. }
  split; [exact E|]. intros Hw.
  assert (Hrho : 0 < dk_rho q so (dk_pos b3 q P)).
  { unfold dk_rho. apply Rlt_le_trans with (/ 1000000); [lra|apply Rmax_r]. }
  assert (Hs : 0 < dk_soft so (dk_pos b3 q P)).
  { assert (H := radius_sq (px (dk_pos b3 q P)) (py (dk_pos b3 q P))). fold (dk_r (dk_pos b3 q P)) in H.
    unfold dk_soft. apply sqrt_lt_R0. rewrite <- H. nra. }
  assert (Hk : hP (disk_actual b3 h q so P) < hP (disk_gas b3 q so P)).
  { unfold disk_actual. cbv zeta. cbn [hP]. rewrite Rmin_left by lra. change (hD (disk_gas b3 q so P)) with (dk_rho q so (dk_pos b3 q P)).
    set (w := dk_omega2 q so (dk_pos b3 q P)) in *. set (rho := dk_rho q so (dk_pos b3 q P)) in *. set (S := dk_soft so (dk_pos b3 q P)) in *.
    assert (H1 : 0 < rho * - w * (S * S)) by (apply Rmult_lt_0_compat; [apply Rmult_lt_0_compat; lra|nra]).
    assert (H2 : 0 < (gam - 1) * (rho * - w * (S * S) / 2)) by (apply Rmult_lt_0_compat; lra). lra. }
  split; [exact Hk|]. apply (misses_by _ (disk_actual b3 h q so P)); auto.
  - change (dk_rho q so (dk_pos b3 q P) <> 0). lra.
  - intros q' -> Eq. rewrite <- Eq in Hk. lra.
Qed.

Lemma disk_gravity_moved q so : run_kernels (init_hydro RHLibm b3 g h bx (HDisk q so)) s s' ->
  prescribed_gravity b3 (HDisk q (moved b3 q so)) P (held_gravity b3 s' i j k).
Proof.
  intros Hrun. destruct (disk_gravity b3 h bx q so (i, j, k) P) as (gx & gy & gz & El & Hg).
  rewrite (gravity_init b3 g h bx RHLibm _ s s' i j k gx gy gz Hrun Hin El). exact Hg.
Qed.
End Wrong.
