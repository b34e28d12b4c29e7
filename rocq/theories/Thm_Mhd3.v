(** Theorems about the 3D MHD solver: the 3D parts of C26, C36-C39, C56 and C57.
    Specifications: MhdSpec.v ([div3], [mfill3], [mst], [mslope_ok], [mriemann_ok], [cell_centred3]),
    MhdSpec3.v ([variant_ok3], [no_rotation]), MhdPhysics.v, HydroSpec.v ([total3], [inside3],
    [all_periodic]).  [mst s a i j k] is the state stored in array [a], cell (i,j,k). *)
From Coq Require Import ZArith List Bool Lia Reals Lra String.
From Verif Require Import Arith Par ParProofs GridModel BoundaryModel BoundarySpec HydroState HydroKernels HydroSpec
  LoopModel MhdState MhdRiemann MhdPoint MhdKernels2 MhdSpec MhdExec MhdConserve2 MhdPhysics MhdFlux
  MhdSpec3 MhdPoint3 MhdKernels3 MhdField3 MhdStep3 MhdConserve3 MhdLoop3 MhdRun3 MhdVariant3.
Import ListNotations.
Open Scope Z_scope.

(** Example settings. *)
Definition plasma3 (r : Z) : mparams R := MParams (HParams R (5/3) 1 (1/100) (1/100) (1/100) 1 1 (1/2) 1 1 1 r)%R 0%R 0%R 0%R.
Definition pgrid3 : grid := Grid 4 5 3 3 8 (fun _ => 3).
Example mhd_settings_exist_3d : mhd_grid3 pgrid3 /\ all_periodic pgrid3 /\ mslope_ok (plasma3 RIEMANN_HLLD) /\ mriemann_ok (plasma3 RIEMANN_HLLD) /\
  variant_ok3 (plasma3 RIEMANN_HLLD) 2 /\ no_rotation (plasma3 RIEMANN_HLLD) /\ mhd_params_ok (plasma3 RIEMANN_HLLD) /\ arr_ok aU aU2 /\
  inside3 pgrid3 3 3 3 /\ inside3 pgrid3 4 3 3 /\ inside3 pgrid3 3 4 3 /\ inside3 pgrid3 3 3 4.
Proof.
  assert (S : mslope_ok (plasma3 RIEMANN_HLLD)) by (left; cbn; destruct Req_EM_T; auto; lra).
  assert (Q : mriemann_ok (plasma3 RIEMANN_HLLD)) by (cbn; auto).
  split; [unfold mhd_grid3, mhd_grid2; cbn; lia|]. split; [intros f; reflexivity|]. split; [exact S|]. split; [exact Q|].
  split; [right; right; auto|]. split; [unfold no_rotation; cbn; destruct (Rlt_dec 0 0); auto; lra|].
  split; [unfold mhd_params_ok; cbn; lra|]. split; [left; auto|]. unfold inside3; cbn; lia.
Qed.
(** Every step exists. *)
Example mhd_steps_exist_3d : forall (p : mparams R) g impl dt (s : store R), exists s', mhd_step3 p g impl aU aU2 dt s s'.
Proof. intros. eexists. exists (fun _ _ => ms_zero). apply run_kernels_seq. Qed.
(** The code of one step (time step computed in the middle) is an iteration of the loop model. *)
Example mhd_step_as_written_3d : forall (p : mparams R) g lowest impl a b clip (m m' : store R) dt, arr_ok a b ->
  mgodunov_as_written3 p g lowest impl a b clip m m' dt ->
  exists d, mhd_dt3 p g lowest a m d /\ dt = clip d /\ mhd_step3 p g impl a b dt m m'.
Proof. intros p g. exact (as_written3 p g). Qed.

(** ** C36: the divergence of the magnetic field *)
Theorem C36_divB_interior_3d : forall (p : mparams R) g dt junk impl aIn aOut (s s' : store R) i j k,
  variant_ok3 p impl -> arr_ok aIn aOut -> mhd_grid3 g -> run_kernels (mgodunov3 p g dt junk impl aIn aOut) s s' ->
  inside3 g i j k -> inside3 g (i + 1) j k -> inside3 g i (j + 1) k -> inside3 g i j (k + 1) ->
  div3 (mh p) (mst s' aOut) i j k = div3 (mh p) (mst s aIn) i j k.
Proof. intros p g dt junk. exact (div_interior3 p g dt junk). Qed.
Print Assumptions C36_divB_interior_3d.
Theorem C36_divB_interior_run_3d : forall (p : mparams R) g lowest impl c (s s' : sim R R) i j k,
  variant_ok3 p impl -> mhd_grid3 g -> 0 <= m_iteration s ->
  inside3 g i j k -> inside3 g (i + 1) j k -> inside3 g i (j + 1) k -> inside3 g i j (k + 1) ->
  run c (mhd_dt3 p g lowest) (mhd_step3 p g impl) s s' ->
  div3 (mh p) (mst (mem s') (current (m_iteration s'))) i j k = div3 (mh p) (mst (mem s) (current (m_iteration s))) i j k.
Proof. intros p g lowest impl c. exact (mdiv_interior_run3 p g lowest impl c). Qed.
Print Assumptions C36_divB_interior_run_3d.
Theorem C36_divB_periodic_3d : forall (p : mparams R) g dt junk impl aIn aOut (s s' : store R) i j k,
  variant_ok3 p impl -> arr_ok aIn aOut -> mhd_grid3 g -> all_periodic g -> mriemann_ok p -> no_rotation p ->
  run_kernels (mgodunov3 p g dt junk impl aIn aOut) s s' -> inside3 g i j k ->
  div3 (mh p) (mfill3 g s' aOut) i j k = div3 (mh p) (mfill3 g s aIn) i j k.
Proof. intros p g dt junk. exact (div_periodic3 p g dt junk). Qed.
Print Assumptions C36_divB_periodic_3d.
Theorem C36_divB_periodic_run_3d : forall (p : mparams R) g lowest impl c (s s' : sim R R) i j k,
  variant_ok3 p impl -> mhd_grid3 g -> all_periodic g -> mriemann_ok p -> no_rotation p -> 0 <= m_iteration s -> inside3 g i j k ->
  run c (mhd_dt3 p g lowest) (mhd_step3 p g impl) s s' ->
  div3 (mh p) (mfill3 g (mem s') (current (m_iteration s'))) i j k = div3 (mh p) (mfill3 g (mem s) (current (m_iteration s))) i j k.
Proof. intros p g lowest impl c. exact (mdiv_run3 p g lowest impl c). Qed.
Print Assumptions C36_divB_periodic_run_3d.

(** ** C37: variants 0 and 1 agree, for every schedule and slope type *)
Theorem C37_stored_atomic_agree_3d : forall (p : mparams R) g dt junk aIn aOut (s s1 s2 : store R),
  arr_ok aIn aOut -> mhd_grid3 g ->
  run_kernels (mgodunov3 p g dt junk 0 aIn aOut) s s1 ->
  run_kernels (mgodunov3 p g dt junk 1 aIn aOut) s s2 ->
  forall i j k v, inside3 g i j k -> 0 <= v < 8 -> s1 (Loc aOut i j k v) = s2 (Loc aOut i j k v).
Proof.
  intros p g dt junk aIn aOut s s1 s2 Ha Hg R1 R2 i j k v Hi Hv.
  destruct (mgodunov3_spec p g dt junk 0 aIn aOut s s1) as (K1 & _); [left; auto|auto..|].
  destruct (mgodunov3_spec p g dt junk 1 aIn aOut s s2) as (K2 & _); [right; left; auto|auto..|].
  rewrite (mst_get s1 aOut i j k v Hv), (mst_get s2 aOut i j k v Hv). f_equal.
  rewrite K1, K2 by auto. reflexivity.
Qed.
Print Assumptions C37_stored_atomic_agree_3d.
(** The low-memory variant (2) does not agree with the others in 3D, even without rotation: from the same
    state (divergence-free field, slope type 1, HLLD) the two give different values of Bx in an interior
    cell. *)
Theorem C37_low_memory_3d_refuted : exists (p : mparams R) g dt (s : store R),
  mhd_grid3 g /\ all_periodic g /\ mslope_ok p /\ mriemann_ok p /\ no_rotation p /\ mhd_params_ok p /\
  (forall i j k, inside3 g i j k -> div3 (mh p) (mst s aU) i j k = 0%R) /\
  exists i j k, inside3 g i j k /\ forall junk s0 s2,
    run_kernels (mgodunov3 p g dt junk 0 aU aU2) s s0 -> run_kernels (mgodunov3 p g dt junk 2 aU aU2) s s2 ->
    s0 (Loc aU2 i j k IA) <> s2 (Loc aU2 i j k IA).
Proof.
  exists xp, vgrid, xdt, ramp_store.
  split; [unfold mhd_grid3, mhd_grid2; cbn; lia|]. split; [intros f; reflexivity|].
  split; [left; cbn; destruct Req_EM_T; auto; lra|]. split; [cbn; auto|].
  split; [unfold no_rotation; cbn; destruct (Rlt_dec 0 0); auto; lra|].
  split; [unfold mhd_params_ok; cbn; lra|]. split; [intros; unfold div3; cbn; field|].
  exists 6, 6, 7. split; [unfold inside3; cbn; lia|]. exact runs_differ.
Qed.
Print Assumptions C37_low_memory_3d_refuted.
(** Every variant is deterministic: any two executions of it agree, whatever the schedules
    and the contents of uninitialised memory. *)
Theorem C37_deterministic_3d : forall (p : mparams R) g dt junk junk' impl aIn aOut (s s1 s2 : store R),
  variant_ok3 p impl -> arr_ok aIn aOut -> mhd_grid3 g -> mriemann_ok p ->
  run_kernels (mgodunov3 p g dt junk impl aIn aOut) s s1 ->
  run_kernels (mgodunov3 p g dt junk' impl aIn aOut) s s2 ->
  forall i j k v, inside3 g i j k -> 0 <= v < 8 -> s1 (Loc aOut i j k v) = s2 (Loc aOut i j k v).
Proof.
  intros p g dt junk junk' impl aIn aOut s s1 s2 Hv' Ha Hg Hr R1 R2 i j k v Hi Hv.
  destruct (mgodunov3_spec p g dt junk impl aIn aOut s s1 Hv' Ha Hg R1) as (K1 & _).
  destruct (mgodunov3_spec p g dt junk' impl aIn aOut s s2 Hv' Ha Hg R2) as (K2 & _).
  rewrite (mst_get s1 aOut i j k v Hv), (mst_get s2 aOut i j k v Hv). f_equal.
  rewrite K1, K2 by auto. apply vstep3_junk; auto.
Qed.
Print Assumptions C37_deterministic_3d.

(** ** C38: conservation *)
(** [flux_of] gives the Riemann fluxes of the states reconstructed by the variant, through the
    lower face of a cell along the given axis. *)
Theorem C38_balance_3d : forall (p : mparams R) g dt junk impl aIn aOut (s s' : store R) v,
  variant_ok3 p impl -> arr_ok aIn aOut -> mhd_grid3 g -> cell_centred3 v ->
  run_kernels (mgodunov3 p g dt junk impl aIn aOut) s s' ->
  let U c := mfill3 g s aIn (cx c) (cy c) (cz c) in
  let F d i j k := mget (flux_of p g dt junk impl (prim3 p U) U d (i, j, k)) v in
  let X0 := gw g in let X1 := gw g + nx g in let Y0 := gw g in let Y1 := gw g + ny g in
  let Z0 := gw g in let Z1 := gw g + nz g in
  (total3 g s' aOut v = total3 g s aIn v
    + sumZ Y0 Y1 (fun j => sumZ Z0 Z1 (fun k => F CX X0 j k * (dt / dx (mh p)) - F CX X1 j k * (dt / dx (mh p))))
    + sumZ X0 X1 (fun i => sumZ Z0 Z1 (fun k => F CY i Y0 k * (dt / dy (mh p)) - F CY i Y1 k * (dt / dy (mh p))))
    + sumZ X0 X1 (fun i => sumZ Y0 Y1 (fun j => F CZ i j Z0 * (dt / dz (mh p)) - F CZ i j Z1 * (dt / dz (mh p)))))%R.
Proof. intros p g dt junk. exact (mbalance3 p g dt junk). Qed.
Print Assumptions C38_balance_3d.
Theorem C38_conserved_3d : forall (p : mparams R) g dt junk impl aIn aOut (s s' : store R) v,
  variant_ok3 p impl -> arr_ok aIn aOut -> mhd_grid3 g -> all_periodic g -> mriemann_ok p -> no_rotation p -> cell_centred3 v ->
  run_kernels (mgodunov3 p g dt junk impl aIn aOut) s s' -> total3 g s' aOut v = total3 g s aIn v.
Proof. intros p g dt junk. exact (mconserve3 p g dt junk). Qed.
Print Assumptions C38_conserved_3d.
Theorem C38_conserved_run_3d : forall (p : mparams R) g lowest impl c (s s' : sim R R) v,
  variant_ok3 p impl -> mhd_grid3 g -> all_periodic g -> mriemann_ok p -> no_rotation p -> 0 <= m_iteration s -> cell_centred3 v ->
  run c (mhd_dt3 p g lowest) (mhd_step3 p g impl) s s' ->
  total3 g (mem s') (current (m_iteration s')) v = total3 g (mem s) (current (m_iteration s)) v.
Proof. intros p g lowest impl c. exact (mconserve_run3 p g lowest impl c). Qed.
Print Assumptions C38_conserved_run_3d.

(** ** C39: conversion to primitive variables *)
(** A cell whose face fields average to the field of q and whose density, momentum and energy are
    those of q is converted to q. *)
Theorem C39_primitives_3d : forall (p : mparams R) (U : cell -> ms R) i j k q,
  (0 < mD q)%R -> (gamma0 (mh p) <> 1)%R -> mhd_admissible p q -> (cIso p <= 0)%R ->
  (mA q = (mA (U (i, j, k)) + mA (U (i + 1, j, k)%Z)) / 2)%R ->
  (mB q = (mB (U (i, j, k)) + mB (U (i, j + 1, k)%Z)) / 2)%R ->
  (mC q = (mC (U (i, j, k)) + mC (U (i, j, k + 1)%Z)) / 2)%R ->
  (forall v, 0 <= v <= 4 -> mget (U (i, j, k)) v = mget (mhd_conservative (gamma0 (mh p)) q) v) ->
  prim3 p U (i, j, k) = q.
Proof.
  intros p U i j k q H1 H2 H3 H4 EA EB EC EH.
  pose proof (EH 0 ltac:(lia)) as E0. pose proof (EH 1 ltac:(lia)) as E1. pose proof (EH 2 ltac:(lia)) as E2.
  pose proof (EH 3 ltac:(lia)) as E3. pose proof (EH 4 ltac:(lia)) as E4. clear EH.
  rewrite <- (constoprim_equal p q H1 H2 H3 H4). unfold prim3. pos3. cbn [mget mhd_conservative mD mP mU mV mW mA mB mC] in *.
  cbn in E0, E1, E2, E3, E4. unfold constoprim_mhd. cbn [mhd_conservative mD mP mU mV mW mA mB mC].
  rewrite E0, E1, E2, E3, E4.
  assert (HA : (half * (mA (U (i, j, k)) + mA (U (i + 1, j, k)%Z)) = half * (mA q + mA q))%A) by (cbn; lra).
  assert (HB : (half * (mB (U (i, j, k)) + mB (U (i, j + 1, k)%Z)) = half * (mB q + mB q))%A) by (cbn; lra).
  assert (HC : (half * (mC (U (i, j, k)) + mC (U (i, j, k + 1)%Z)) = half * (mC q + mC q))%A) by (cbn; lra).
  rewrite HA, HB, HC. reflexivity.
Qed.
Print Assumptions C39_primitives_3d.
Example C39_hypotheses_hold_3d : let q := (MS 1 1 2 3 4 5 6 7)%R in let p := plasma3 RIEMANN_HLLD in
  (0 < mD q)%R /\ (gamma0 (mh p) <> 1)%R /\ mhd_admissible p q /\ (cIso p <= 0)%R.
Proof. unfold mhd_admissible. cbn. lra. Qed.

(** ** C26: slope types *)
(** Variants 0 and 1 never use uninitialised slopes: types 1 and 2 give limited slopes, any
    other type gives zero slopes. *)
Theorem C26_mhd_other_types_zero_3d : forall (p : mparams R) q qp qm d,
  (slope_type (mh p) <> 1 -> slope_type (mh p) <> 2 -> slope_hydro3 p q qp qm d = MS 0 0 0 0 0 0 0 0)%R.
Proof.
  intros p q qp qm d H1 H2. unfold slope_hydro3, slope12. cbn.
  destruct (Req_EM_T (slope_type (mh p)) 1), (Req_EM_T (slope_type (mh p)) 2); congruence || reflexivity.
Qed.
Print Assumptions C26_mhd_other_types_zero_3d.
Theorem C26_mhd_step_defined_3d : forall (p : mparams R) g dt junk junk' impl aIn aOut (s s1 s2 : store R),
  impl = 0 \/ impl = 1 \/ (impl = 2 /\ mslope_ok p) -> arr_ok aIn aOut -> mhd_grid3 g -> mriemann_ok p ->
  run_kernels (mgodunov3 p g dt junk impl aIn aOut) s s1 -> run_kernels (mgodunov3 p g dt junk' impl aIn aOut) s s2 ->
  forall i j k v, inside3 g i j k -> 0 <= v < 8 -> s1 (Loc aOut i j k v) = s2 (Loc aOut i j k v).
Proof. intros p g dt junk junk' impl aIn aOut s s1 s2 H. apply C37_deterministic_3d; auto. Qed.
Print Assumptions C26_mhd_step_defined_3d.

(** ** C56: the MHD time step *)
Theorem C56_mhd_cfl_3d : forall (p : mparams R) g lowest (m : store R) a dt,
  mhd_params_ok p -> (0 < dx (mh p))%R -> (0 < dy (mh p))%R -> (0 < dz (mh p))%R -> (0 < cfl (mh p))%R -> (lowest <= 0)%R ->
  mhd_grid3 g -> mhd_dt3 p g lowest a m dt ->
  let U c := mfill3 g m a (cx c) (cy c) (cz c) in
  let rate i j k := mhd_rate3 p (prim3 p U (i, j, k)) in
  (0 < dt)%R /\ (forall i j k, inside3 g i j k -> dt * rate i j k <= cfl (mh p))%R /\
  (exists i j k, inside3 g i j k /\ (dt * rate i j k = cfl (mh p))%R).
Proof. intros p g lowest. exact (mdt_cfl3 p g lowest). Qed.
Print Assumptions C56_mhd_cfl_3d.

(** ** C57: uniform states *)
Theorem C57_mhd_uniform_3d : forall (p : mparams R) g impl dt junk aIn aOut (s s' : store R) (K : Z -> R),
  variant_ok3 p impl -> arr_ok aIn aOut -> mhd_grid3 g -> mriemann_ok p -> no_rotation p ->
  (forall f, In f [FACE_XMIN; FACE_XMAX; FACE_YMIN; FACE_YMAX; FACE_ZMIN; FACE_ZMAX] -> kind_of_code (bc g f) <> Reflecting) ->
  (forall i j k v, inside3 g i j k -> 0 <= v < 8 -> s (Loc aIn i j k v) = K v) ->
  run_kernels (mgodunov3 p g dt junk impl aIn aOut) s s' ->
  forall i j k v, inside3 g i j k -> 0 <= v < 8 -> s' (Loc aOut i j k v) = K v.
Proof. intros p g impl. exact (muniform3 p g impl). Qed.
Print Assumptions C57_mhd_uniform_3d.
