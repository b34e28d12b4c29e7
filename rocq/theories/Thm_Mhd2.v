(** Theorems about the 2D MHD solver: C36-C39 (2D part), the MHD parts of C26, C32 and
    C35, and C56-C59.  Specifications: MhdSpec.v ([div2], [mfill2], [variant_ok2],
    [mslope_ok], [mriemann_ok], [cell_centred2]), MhdPhysics.v, HydroSpec.v ([total2],
    [inside2], [all_periodic]).  [m2 s a i j] is the state stored in array [a], cell (i,j). *)
From Coq Require Import ZArith List Bool Lia Reals Lra String Floats.SpecFloat.
From Verif Require Import Arith Par ParProofs GridModel BoundaryModel BoundarySpec HydroState HydroKernels HydroSpec
  RiemannSelect LoopModel
  MhdState MhdRiemann MhdPoint MhdKernels2 MhdSpec MhdField2 MhdProofs2 MhdStep2 MhdConserve2 MhdPhysics MhdFlux MhdLoop2 MhdRun2 SpecF.
Import ListNotations.
Open Scope Z_scope.

(** Example settings. *)
Definition plasma (r : Z) : mparams R := MParams (HParams R (5/3) 1 (1/100) (1/100) (1/100) 1 1 (1/2) 1 1 1 r)%R 0%R 0%R 0%R.
Definition pgrid : grid := Grid 4 5 1 3 8 (fun _ => 3).
Example mhd_settings_exist : mhd_grid2 pgrid /\ all_periodic pgrid /\ mslope_ok (plasma RIEMANN_HLLD) /\ mriemann_ok (plasma RIEMANN_HLLD) /\
  variant_ok2 (plasma RIEMANN_HLLD) 2 /\ mhd_params_ok (plasma RIEMANN_HLLD) /\ arr_ok aU aU2 /\ inside2 pgrid 3 3 /\ inside2 pgrid 4 3 /\ inside2 pgrid 3 4.
Proof.
  assert (S : mslope_ok (plasma RIEMANN_HLLD)) by (left; cbn; destruct Req_EM_T; auto; lra).
  assert (Q : mriemann_ok (plasma RIEMANN_HLLD)) by (cbn; auto).
  split; [unfold mhd_grid2; cbn; lia|]. split; [intros f; reflexivity|]. split; [exact S|]. split; [exact Q|].
  split; [right; right; auto|]. split; [unfold mhd_params_ok; cbn; lra|]. split; [left; auto|]. unfold inside2; cbn; lia.
Qed.
(** Every step and every time step exists. *)
Example mhd_steps_exist : forall (p : mparams R) g impl dt (s : store R), exists s', mhd_step2 p g impl aU aU2 dt s s'.
Proof. intros. eexists. exists (fun _ _ => ms_zero). apply run_kernels_seq. Qed.

(** ** C36: the divergence of the magnetic field *)
Theorem C36_divB_interior_2d : forall (p : mparams R) g dt junk impl aIn aOut (s s' : store R) i j,
  variant_ok2 p impl -> arr_ok aIn aOut -> mhd_grid2 g -> run_kernels (mgodunov2 p g dt junk impl aIn aOut) s s' ->
  inside2 g i j -> inside2 g (i + 1) j -> inside2 g i (j + 1) ->
  div2 (mh p) (m2 s' aOut) i j = div2 (mh p) (m2 s aIn) i j.
Proof. intros p g dt junk. exact (div_interior2 p g dt junk). Qed.
Print Assumptions C36_divB_interior_2d.
Theorem C36_divB_interior_run_2d : forall (p : mparams R) g lowest impl c (s s' : sim R R) i j,
  variant_ok2 p impl -> mhd_grid2 g -> 0 <= m_iteration s -> inside2 g i j -> inside2 g (i + 1) j -> inside2 g i (j + 1) ->
  run c (mhd_dt2 p g lowest) (mhd_step2 p g impl) s s' ->
  div2 (mh p) (m2 (mem s') (current (m_iteration s'))) i j = div2 (mh p) (m2 (mem s) (current (m_iteration s))) i j.
Proof. intros p g lowest impl c. exact (mdiv_interior_run2 p g lowest impl c). Qed.
Print Assumptions C36_divB_interior_run_2d.
Theorem C36_divB_periodic_2d : forall (p : mparams R) g dt junk impl aIn aOut (s s' : store R) i j,
  variant_ok2 p impl -> arr_ok aIn aOut -> mhd_grid2 g -> all_periodic g -> mslope_ok p -> mriemann_ok p ->
  run_kernels (mgodunov2 p g dt junk impl aIn aOut) s s' -> inside2 g i j ->
  div2 (mh p) (mfill2 g s' aOut) i j = div2 (mh p) (mfill2 g s aIn) i j.
Proof. intros p g dt junk. exact (div_periodic2 p g dt junk). Qed.
Print Assumptions C36_divB_periodic_2d.
Theorem C36_divB_periodic_run_2d : forall (p : mparams R) g lowest impl c (s s' : sim R R) i j,
  variant_ok2 p impl -> mhd_grid2 g -> all_periodic g -> mslope_ok p -> mriemann_ok p -> 0 <= m_iteration s -> inside2 g i j ->
  run c (mhd_dt2 p g lowest) (mhd_step2 p g impl) s s' ->
  div2 (mh p) (mfill2 g (mem s') (current (m_iteration s'))) i j = div2 (mh p) (mfill2 g (mem s) (current (m_iteration s))) i j.
Proof. intros p g lowest impl c. exact (mdiv_run2 p g lowest impl c). Qed.
Print Assumptions C36_divB_periodic_run_2d.

(** The last layer next to an outflow boundary, in double precision: the divergence is zero
    everywhere before the step and larger than 1/100 in a cell of that layer after it. *)
Local Notation f n d := (@lit _ F64 n d).
Definition fplasma (r : Z) : mparams spec_float :=
  MParams (HParams _ (f 3 2) (f 1 1) (f 1 100000) (f 1 100000) (f 1 100000) (f 1 100000) (f 1 1) (f 1 2) (f 1 1) (f 1 1) (f 1 1) r)
    (f 0 1) (f 0 1) (f 0 1).
Definition ogrid : grid := Grid 3 3 1 3 8 (fun _ => 2).
(** Uniform field along y, gas at rest except in cell (5,4). *)
Definition bump : store spec_float := fun l =>
  if lv l =? ID then f 1 1 else if lv l =? IP then f 4 1 else if lv l =? IB then f 1 1
  else if (lv l =? IU) && (li l =? 5) && (lj l =? 4) then f 1 1 else f 0 1.
Definition fjunk : Z * Z * Z -> Z -> ms spec_float := fun _ _ => ms_zero (AT := F64).

Lemma mstep2_AB (T : Type) (AT : Arith T) p dt junk U i j :
  mA (mstep2 p dt junk U i j) = (mA (U i j) + (emf2f p dt junk (prim2 p U) U i (j + 1) - emf2f p dt junk (prim2 p U) U i j) * dtdy (mh p) dt)%A /\
  mB (mstep2 p dt junk U i j) = (mB (U i j) - (emf2f p dt junk (prim2 p U) U (i + 1) j - emf2f p dt junk (prim2 p U) U i j) * dtdx (mh p) dt)%A.
Proof. split; reflexivity. Qed.
Lemma mstep2_AB_at (T : Type) (AT : Arith T) p dt junk U i j i1 j1 c : i1 = i + 1 -> j1 = j + 1 ->
  c = mstep2 p dt junk U i j ->
  mA c = (mA (U i j) + (emf2f p dt junk (prim2 p U) U i j1 - emf2f p dt junk (prim2 p U) U i j) * dtdy (mh p) dt)%A /\
  mB c = (mB (U i j) - (emf2f p dt junk (prim2 p U) U i1 j - emf2f p dt junk (prim2 p U) U i j) * dtdx (mh p) dt)%A.
Proof. intros -> -> ->. apply mstep2_AB. Qed.
Lemma bump_initial i j : inside2 ogrid i j -> div2 (AT := F64) (mh (fplasma RIEMANN_HLLD)) (mfill2 (AT := F64) ogrid bump aU) i j = f 0 1.
Proof.
  intros [Hi Hj]. cbn [gw nx ny ogrid] in *.
  assert (Ci : i = 3 \/ i = 4 \/ i = 5) by lia. assert (Cj : j = 3 \/ j = 4 \/ j = 5) by lia.
  destruct Ci as [->|[->| ->]], Cj as [->|[->| ->]]; vm_compute; reflexivity.
Qed.
(** The divergence in cell (5,3) next to the outflow side, from the stored face values. *)
Lemma div_53 (s' : store spec_float) : div2 (AT := F64) (mh (fplasma RIEMANN_HLLD)) (mfill2 (AT := F64) ogrid s' aU2) 5 3 =
  @add _ F64 (@div _ F64 (@sub _ F64 (@mul _ F64 (s' (Loc aU2 5 3 0 IA)) (@one _ F64)) (s' (Loc aU2 5 3 0 IA))) (f 1 1))
    (@div _ F64 (@sub _ F64 (s' (Loc aU2 5 4 0 IB)) (s' (Loc aU2 5 3 0 IB))) (f 1 1)).
Proof. reflexivity. Qed.
Lemma bump_value : let p := fplasma RIEMANN_HLLD in let U := mfill2 (AT := F64) ogrid bump aU in
  let e i j := emf2f (AT := F64) p (f 1 8) fjunk (prim2 (AT := F64) p U) U i j in
  let a53 := @add _ F64 (mA (U 5 3)) (@mul _ F64 (@sub _ F64 (e 5 4) (e 5 3)) (dtdy (A := F64) (mh p) (f 1 8))) in
  let b53 := @sub _ F64 (mB (U 5 3)) (@mul _ F64 (@sub _ F64 (e 6 3) (e 5 3)) (dtdx (A := F64) (mh p) (f 1 8))) in
  let b54 := @sub _ F64 (mB (U 5 4)) (@mul _ F64 (@sub _ F64 (e 6 4) (e 5 4)) (dtdx (A := F64) (mh p) (f 1 8))) in
  SFltb (f 1 100) (SFabs (@add _ F64 (@div _ F64 (@sub _ F64 (@mul _ F64 a53 (@one _ F64)) a53) (f 1 1)) (@div _ F64 (@sub _ F64 b54 b53) (f 1 1)))) = true.
Proof. vm_compute. reflexivity. Qed.
Lemma bump_final s' : m2 s' aU2 5 3 = mstep2 (AT := F64) (fplasma RIEMANN_HLLD) (f 1 8) fjunk (mfill2 (AT := F64) ogrid bump aU) 5 3 ->
  m2 s' aU2 5 4 = mstep2 (AT := F64) (fplasma RIEMANN_HLLD) (f 1 8) fjunk (mfill2 (AT := F64) ogrid bump aU) 5 4 ->
  SFltb (f 1 100) (SFabs (div2 (AT := F64) (mh (fplasma RIEMANN_HLLD)) (mfill2 (AT := F64) ogrid s' aU2) 5 3)) = true.
Proof.
  intros K53 K54. rewrite div_53.
  change (s' (Loc aU2 5 3 0 IA)) with (mA (m2 s' aU2 5 3)). change (s' (Loc aU2 5 3 0 IB)) with (mB (m2 s' aU2 5 3)).
  change (s' (Loc aU2 5 4 0 IB)) with (mB (m2 s' aU2 5 4)).
  rewrite (proj1 (mstep2_AB_at _ F64 _ _ _ _ 5 3 6 4 _ eq_refl eq_refl K53)).
  rewrite (proj2 (mstep2_AB_at _ F64 _ _ _ _ 5 3 6 4 _ eq_refl eq_refl K53)).
  rewrite (proj2 (mstep2_AB_at _ F64 _ _ _ _ 5 4 6 5 _ eq_refl eq_refl K54)).
  exact bump_value.
Qed.
Theorem C36_divB_boundary_layer_refuted : exists (p : mparams spec_float) g dt (s s' : store spec_float),
  mhd_grid2 g /\ kind_of_code (bc g FACE_XMAX) = Outflow /\ mslope_ok (AT := F64) p /\ mriemann_ok p /\
  run_kernels (mgodunov2 (AT := F64) p g dt fjunk 0 aU aU2) s s' /\
  (forall i j, inside2 g i j -> div2 (AT := F64) (mh p) (mfill2 (AT := F64) g s aU) i j = f 0 1) /\
  exists i j, inside2 g i j /\
    SFltb (f 1 100) (SFabs (div2 (AT := F64) (mh p) (mfill2 (AT := F64) g s' aU2) i j)) = true.
Proof.
  exists (fplasma RIEMANN_HLLD), ogrid, (f 1 8), bump. eexists.
  assert (G : mhd_grid2 ogrid) by (unfold mhd_grid2; cbn; lia).
  split; [exact G|]. split; [reflexivity|]. split; [left; reflexivity|]. split; [cbn; auto|].
  split; [apply run_kernels_seq|]. split.
  - exact bump_initial.
  - match goal with |- context [mfill2 ogrid ?x aU2] => set (s' := x) end.
    assert (Hk : run_kernels (mgodunov2 (AT := F64) (fplasma RIEMANN_HLLD) ogrid (f 1 8) fjunk 0 aU aU2) bump s') by apply run_kernels_seq.
    clearbody s'. exists 5, 3. split; [unfold inside2; cbn; lia|].
    destruct (mgodunov2_gen (AT := F64) (fplasma RIEMANN_HLLD) ogrid (f 1 8) fjunk 0 aU aU2 bump s') as (K & _); auto; [left; auto| |].
    { intros s0 s1 H01. destruct (mscheme2_0 (AT := F64) (fplasma RIEMANN_HLLD) ogrid (f 1 8) fjunk aU aU2 s0 s1) as (A1 & _ & A3); auto; [left; auto|cbn; lia]. }
    apply bump_final; apply K; unfold inside2; cbn; lia.
Qed.
Print Assumptions C36_divB_boundary_layer_refuted.

(** ** C37: the implementation variants agree, for every schedule *)
Theorem C37_variants_agree_2d : forall (p : mparams R) g dt junk junk' impl impl' aIn aOut (s s1 s2 : store R),
  impl = 0 \/ impl = 1 \/ impl = 2 -> impl' = 0 \/ impl' = 1 \/ impl' = 2 ->
  arr_ok aIn aOut -> mhd_grid2 g -> mslope_ok p -> mriemann_ok p ->
  run_kernels (mgodunov2 p g dt junk impl aIn aOut) s s1 ->
  run_kernels (mgodunov2 p g dt junk' impl' aIn aOut) s s2 ->
  forall i j v, inside2 g i j -> 0 <= v < 8 -> s1 (Loc aOut i j 0 v) = s2 (Loc aOut i j 0 v).
Proof.
  intros p g dt junk junk' impl impl' aIn aOut s s1 s2 H1 H2 Ha Hg Hs Hr R1 R2 i j v Hi Hv.
  assert (V1 : variant_ok2 p impl) by (unfold variant_ok2; intuition). assert (V2 : variant_ok2 p impl') by (unfold variant_ok2; intuition).
  destruct (mgodunov2_spec p g dt junk impl aIn aOut s s1 V1 Ha Hg R1) as (K1 & _).
  destruct (mgodunov2_spec p g dt junk' impl' aIn aOut s s2 V2 Ha Hg R2) as (K2 & _).
  rewrite (MhdExec.mst_get s1 aOut i j 0 v Hv), (MhdExec.mst_get s2 aOut i j 0 v Hv). f_equal.
  change (m2 s1 aOut i j = m2 s2 aOut i j). rewrite K1, K2 by auto. apply mstep2_junk; auto. apply mslope_ok_12; auto.
Qed.
Print Assumptions C37_variants_agree_2d.
(** Variants 0 and 1 agree for every setting (with the same uninitialised contents). *)
Theorem C37_stored_atomic_agree_2d : forall (p : mparams R) g dt junk aIn aOut (s s1 s2 : store R),
  arr_ok aIn aOut -> mhd_grid2 g ->
  run_kernels (mgodunov2 p g dt junk 0 aIn aOut) s s1 ->
  run_kernels (mgodunov2 p g dt junk 1 aIn aOut) s s2 ->
  forall i j v, inside2 g i j -> 0 <= v < 8 -> s1 (Loc aOut i j 0 v) = s2 (Loc aOut i j 0 v).
Proof.
  intros p g dt junk aIn aOut s s1 s2 Ha Hg R1 R2 i j v Hi Hv.
  destruct (mgodunov2_spec p g dt junk 0 aIn aOut s s1) as (K1 & _); [left; auto|auto..|].
  destruct (mgodunov2_spec p g dt junk 1 aIn aOut s s2) as (K2 & _); [right; left; auto|auto..|].
  rewrite (MhdExec.mst_get s1 aOut i j 0 v Hv), (MhdExec.mst_get s2 aOut i j 0 v Hv). f_equal.
  change (m2 s1 aOut i j = m2 s2 aOut i j). rewrite K1, K2 by auto. reflexivity.
Qed.
Print Assumptions C37_stored_atomic_agree_2d.

(** ** C38: conservation *)
(** Fluxes through the four sides: [fluxX2f] and [fluxY2f] (the latter in the rotated
    frame, [mswapY] rotates back) are the Riemann fluxes of the reconstructed states. *)
Theorem C38_balance_2d : forall (p : mparams R) g dt junk impl aIn aOut (s s' : store R) v,
  variant_ok2 p impl -> arr_ok aIn aOut -> mhd_grid2 g -> cell_centred2 v ->
  run_kernels (mgodunov2 p g dt junk impl aIn aOut) s s' ->
  let U := mfill2 g s aIn in
  let FX i j := mget (fluxX2f p dt junk (prim2 p U) U i j) v in
  let FY i j := mget (mswapY (fluxY2f p dt junk (prim2 p U) U i j)) v in
  (total2 g s' aOut v = total2 g s aIn v
    + sumZ (gw g) (gw g + ny g) (fun j => (FX (gw g) j - FX (gw g + nx g)%Z j) * (dt / dx (mh p)))
    + sumZ (gw g) (gw g + nx g) (fun i => (FY i (gw g) - FY i (gw g + ny g)%Z) * (dt / dy (mh p))))%R.
Proof.
  intros p g dt junk impl aIn aOut s s' v H1 H2 H3 H4 H5 U FX FY. rewrite Rplus_assoc.
  exact (mbalance2 p g dt junk impl aIn aOut s s' v H1 H2 H3 H4 H5).
Qed.
Print Assumptions C38_balance_2d.
Theorem C38_conserved_2d : forall (p : mparams R) g dt junk impl aIn aOut (s s' : store R) v,
  variant_ok2 p impl -> arr_ok aIn aOut -> mhd_grid2 g -> all_periodic g -> mslope_ok p -> mriemann_ok p -> cell_centred2 v ->
  run_kernels (mgodunov2 p g dt junk impl aIn aOut) s s' -> total2 g s' aOut v = total2 g s aIn v.
Proof. intros p g dt junk. exact (mconserve2 p g dt junk). Qed.
Print Assumptions C38_conserved_2d.
Theorem C38_conserved_run_2d : forall (p : mparams R) g lowest impl c (s s' : sim R R) v,
  variant_ok2 p impl -> mhd_grid2 g -> all_periodic g -> mslope_ok p -> mriemann_ok p -> 0 <= m_iteration s -> cell_centred2 v ->
  run c (mhd_dt2 p g lowest) (mhd_step2 p g impl) s s' ->
  total2 g (mem s') (current (m_iteration s')) v = total2 g (mem s) (current (m_iteration s)) v.
Proof. intros p g lowest impl c. exact (mconserve_run2 p g lowest impl c). Qed.
Print Assumptions C38_conserved_run_2d.

(** ** C39: conversion to primitive variables *)
Definition uniform_gas (p : mparams R) (q : ms R) : Prop :=
  (0 < mD q)%R /\ (gamma0 (mh p) <> 1)%R /\ mhd_admissible p q /\ (cIso p <= 0)%R.
(** A uniform gas with an in-plane field is converted back to its primitive variables. *)
Theorem C39_primitives_2d_partial : forall (p : mparams R) q i j, uniform_gas p q -> mC q = 0%R ->
  prim2 p (fun _ _ => mhd_conservative (gamma0 (mh p)) q) i j = q.
Proof.
  intros p q i j (H1 & H2 & H3 & H4) Hc. unfold prim2.
  rewrite <- (constoprim_equal p q H1 H2 H3 H4) at 4. cbv zeta. f_equal. cbn. rewrite Hc. reflexivity.
Qed.
Print Assumptions C39_primitives_2d_partial.
(** With a field component Bz, half of it is returned. *)
Theorem C39_primitives_2d_refuted : forall (p : mparams R) q i j,
  mC (prim2 p (fun _ _ => mhd_conservative (gamma0 (mh p)) q) i j) = (mC q / 2)%R.
Proof. intros. unfold prim2, constoprim_mhd. cbn. lra. Qed.
Print Assumptions C39_primitives_2d_refuted.
(** ... and the pressure is too high. *)
Theorem C39_pressure_2d_refuted : forall (p : mparams R) q i j, uniform_gas p q -> (1 < gamma0 (mh p))%R ->
  mP (prim2 p (fun _ _ => mhd_conservative (gamma0 (mh p)) q) i j) = (mP q + (gamma0 (mh p) - 1) * (3 / 8) * (mC q * mC q))%R.
Proof.
  intros p q i j (H1 & H2 & [H3 H3'] & H4) Hg. unfold prim2, constoprim_mhd, mhd_conservative, mhd_energy, speed2, field2. cbn.
  rewrite (Rmax_left (mD q)) by auto. destruct (Rlt_dec 0 (cIso p)) as [|_]; [lra|].
  match goal with |- Rmax ?x _ = _ => replace x with (mP q + (gamma0 (mh p) - 1) * (3 / 8) * (mC q * mC q))%R by (field; lra) end.
  apply Rmax_left. assert (0 <= mC q * mC q)%R by apply Rle_0_sqr.
  assert (0 <= (gamma0 (mh p) - 1) * (3 / 8) * (mC q * mC q))%R by (apply Rmult_le_pos; [lra|auto]). lra.
Qed.
Print Assumptions C39_pressure_2d_refuted.
Example C39_hypotheses_hold : uniform_gas (plasma RIEMANN_HLLD) (MS 1 1 2 3 4 5 6 0)%R.
Proof. unfold uniform_gas, mhd_admissible. cbn. lra. Qed.

(** ** C26: slope types *)
Theorem C26_mhd_types_1_2_defined_2d : forall (T : Type) (AT : Arith T) (p : mparams T), mslope_ok p ->
  forall q qp qm junk junk', slope_mhd p q qp qm junk = slope_mhd p q qp qm junk'.
Proof. intros T AT p H q qp qm j j'. apply slope_junk, mslope_ok_12, H. Qed.
Print Assumptions C26_mhd_types_1_2_defined_2d.
Theorem C26_mhd_other_types_refuted : forall (p : mparams R), (slope_type (mh p) <> 1 -> slope_type (mh p) <> 2 ->
  forall q qp qm junk, slope_mhd p q qp qm junk = junk)%R.
Proof.
  intros p H1 H2 q qp qm junk. unfold slope_mhd, slope12. cbn.
  destruct (Req_EM_T (slope_type (mh p)) 1), (Req_EM_T (slope_type (mh p)) 2); congruence || reflexivity.
Qed.
Print Assumptions C26_mhd_other_types_refuted.
(** With a supported slope type and solver the whole step does not depend on
    uninitialised memory. *)
Theorem C26_mhd_step_defined_2d : forall (p : mparams R) g dt junk junk' impl aIn aOut (s s1 s2 : store R),
  impl = 0 \/ impl = 1 \/ impl = 2 -> arr_ok aIn aOut -> mhd_grid2 g -> mslope_ok p -> mriemann_ok p ->
  run_kernels (mgodunov2 p g dt junk impl aIn aOut) s s1 -> run_kernels (mgodunov2 p g dt junk' impl aIn aOut) s s2 ->
  forall i j v, inside2 g i j -> 0 <= v < 8 -> s1 (Loc aOut i j 0 v) = s2 (Loc aOut i j 0 v).
Proof. intros p g dt junk junk' impl aIn aOut s s1 s2 H. apply C37_variants_agree_2d; auto. Qed.
Print Assumptions C26_mhd_step_defined_2d.

(** ** C32: equal states *)
Theorem C32_mhd_consistent : forall (p : mparams R) q junk, mriemann_ok p -> (0 < mD q)%R -> (0 < gamma0 (mh p))%R -> (0 < mP q)%R ->
  (0 < mP (gas_state (cIso p) q))%R ->
  (riemann_type (mh p) = RIEMANN_HLLD -> mB q <> 0 \/ mC q <> 0 \/ mA q * mA q < gamma0 (mh p) * mP (gas_state (cIso p) q))%R ->
  riemann_mhd p q q junk = mhd_flux (gamma0 (mh p)) (gas_state (cIso p) q).
Proof. exact mhd_consistent. Qed.
Print Assumptions C32_mhd_consistent.
Example C32_mhd_hypotheses_hold : let p := plasma RIEMANN_HLLD in let q := (MS 1 1 2 3 4 5 6 7)%R in
  mriemann_ok p /\ (0 < mD q)%R /\ (0 < gamma0 (mh p))%R /\ (0 < mP q)%R /\ (0 < mP (gas_state (cIso p) q))%R /\
  (riemann_type (mh p) = RIEMANN_HLLD -> mB q <> 0 \/ mC q <> 0 \/ mA q * mA q < gamma0 (mh p) * mP (gas_state (cIso p) q))%R.
Proof.
  cbv zeta. unfold gas_state. cbn. destruct (Rlt_dec 0 0); [lra|]. cbn. repeat split; try lra; auto; intros _; left; lra.
Qed.
(** HLLD, double precision: two equal states with a purely normal, strong field give NaN. *)
Definition normal_field : ms spec_float := MS (f 1 1) (f 1 4) (f 0 1) (f 0 1) (f 0 1) (f 1 1) (f 0 1) (f 0 1).
Theorem C32_hlld_normal_field_refuted : exists (p : mparams spec_float) q, mriemann_ok p /\
  mD q = f 1 1 /\ mP q = f 1 4 /\ mA q = f 1 1 /\ mB q = f 0 1 /\ mC q = f 0 1 /\ mU q = f 0 1 /\ mV q = f 0 1 /\ mW q = f 0 1 /\
  forall junk, let fl := riemann_mhd (AT := F64) p q q junk in
   mP fl = S754_nan /\ mV fl = S754_nan /\ mW fl = S754_nan /\ mB fl = S754_nan /\ mC fl = S754_nan.
Proof.
  exists (fplasma RIEMANN_HLLD), normal_field. split; [cbn; auto|]. do 8 (split; [reflexivity|]).
  intros junk. cbv zeta. assert (E : riemann_mhd (AT := F64) (fplasma RIEMANN_HLLD) normal_field normal_field junk
    = riemann_hlld (AT := F64) (fplasma RIEMANN_HLLD) normal_field normal_field) by reflexivity.
  rewrite E. clear. vm_compute. repeat split; reflexivity.
Qed.
Print Assumptions C32_hlld_normal_field_refuted.

(** ** C35: solver names in the MHD solver *)
Definition mdefined (p : mparams R) := forall ql qr junk junk', riemann_mhd p ql qr junk = riemann_mhd p ql qr junk'.
Theorem C35_names_mhd : forall (p : mparams R) name, riemann_type (mh p) = riemann_of_name name ->
  (mdefined p <-> name = "llf"%string \/ name = "hll"%string \/ name = "hlld"%string).
Proof.
  intros p name E. unfold mdefined, riemann_mhd. rewrite E. unfold riemann_of_name.
  assert (N : ~ (forall ql qr junk junk' : ms R, junk = junk')).
  { intros H. specialize (H (MS 0 0 0 0 0 0 0 0) (MS 0 0 0 0 0 0 0 0) (MS 0 0 0 0 0 0 0 0) (MS 1 0 0 0 0 0 0 0))%R. injection H. lra. }
  destruct (String.eqb_spec name "approx"). { subst. cbn. split; [intros H; exfalso; apply N; exact H|intros [H|[H|H]]; discriminate]. }
  destruct (String.eqb_spec name "llf"); [subst; cbn; split; auto|].
  destruct (String.eqb_spec name "hll"); [subst; cbn; split; auto|].
  destruct (String.eqb_spec name "hllc"). { subst. cbn. split; [intros H; exfalso; apply N; exact H|intros [H|[H|H]]; discriminate]. }
  destruct (String.eqb_spec name "hlld"); [subst; cbn; split; auto|].
  cbn. split; [intros H; exfalso; apply N; exact H|intros [H|[H|H]]; congruence].
Qed.
Print Assumptions C35_names_mhd.

(** ** C56: the MHD time step *)
Theorem C56_mhd_cfl_2d : forall (p : mparams R) g lowest (m : store R) a dt,
  mhd_params_ok p -> (0 < dx (mh p))%R -> (0 < dy (mh p))%R -> (0 < cfl (mh p))%R -> (lowest <= 0)%R ->
  mhd_grid2 g -> mhd_dt2 p g lowest a m dt ->
  let rate i j := mhd_rate2 p (prim2 p (mfill2 g m a) i j) in
  (0 < dt)%R /\ (forall i j, inside2 g i j -> dt * rate i j <= cfl (mh p))%R /\
  (exists i j, inside2 g i j /\ (dt * rate i j = cfl (mh p))%R).
Proof. intros p g lowest. exact (mdt_cfl2 p g lowest). Qed.
Print Assumptions C56_mhd_cfl_2d.
(** The fast speed is the larger root of the dispersion relation; both square roots have
    non-negative arguments. *)
Theorem C56_fast_speed : forall (p : mparams R) dir q, (0 < mD q)%R -> (0 < gamma0 (mh p) * mP q)%R ->
  let c := find_speed_fast p dir q in
  let x := match dir with CX => mA q | CY => mB q | CZ => mC q end in
  let cs2 := (gamma0 (mh p) * mP q / mD q)%R in
  (0 < c /\ (c * c) * (c * c) - (cs2 + field2 q / mD q) * (c * c) + cs2 * (x * x / mD q) = 0 /\
  x * x / mD q <= c * c /\ cs2 <= c * c)%R.
Proof.
  intros p dir q H1 H2 c x cs2. unfold c. rewrite fast_speed_spec by auto.
  exact (fast_speed_root p q (bcomp dir q) H1 H2 (bcomp_le dir q)).
Qed.
Print Assumptions C56_fast_speed.

(** ** C57: uniform states *)
Theorem C57_mhd_uniform_2d : forall (p : mparams R) g impl dt junk aIn aOut (s s' : store R) (K : Z -> R),
  impl = 0 \/ impl = 1 \/ impl = 2 -> arr_ok aIn aOut -> mhd_grid2 g -> mslope_ok p -> mriemann_ok p ->
  (forall f, In f [FACE_XMIN; FACE_XMAX; FACE_YMIN; FACE_YMAX] -> kind_of_code (bc g f) <> Reflecting) ->
  (forall i j v, inside2 g i j -> 0 <= v < 8 -> s (Loc aIn i j 0 v) = K v) ->
  run_kernels (mgodunov2 p g dt junk impl aIn aOut) s s' ->
  forall i j v, inside2 g i j -> 0 <= v < 8 -> s' (Loc aOut i j 0 v) = K v.
Proof. intros p g impl. exact (muniform2 p g impl). Qed.
Print Assumptions C57_mhd_uniform_2d.

(** ** C58: the electromotive force *)
Theorem C58_emf_consistent : forall (p : mparams R) q, (0 < mD q)%R -> (0 < gamma0 (mh p))%R ->
  (0 < mP (gas_state (cIso p) q))%R -> (0 < smallc (mh p))%R ->
  compute_emf p EMFZ q q q q = (mU q * mB q - mV q * mA q)%R /\
  compute_emf p EMFX q q q q = (mV q * mC q - mW q * mB q)%R /\
  compute_emf p EMFY q q q q = (mW q * mA q - mU q * mC q)%R.
Proof. intros p q H1 H2 H3 H4. rewrite !(emf_equal p) by auto. unfold minus_vxB. cbn. auto. Qed.
Print Assumptions C58_emf_consistent.
(** The branch-free formula selects the value prescribed by the signs of the wave speeds. *)
Theorem C58_emf_branches : forall (p : mparams R) qLL qRL qLR qRR ELL ERL ELR ERR,
  let m := mag_middle p qLL qRL qLR qRR in
  (wSB m <> 0 -> wSL m <> 0 ->
  mag_riemann2d_hlld p qLL qRL qLR qRR ELL ERL ELR ERR =
  if Rlt_dec 0 (wSB m) then
    if Rlt_dec 0 (wSL m) then ELL else if Rlt_dec (wSR m) 0 then ERL else mag_bottom m (mB qLL) (mB qRL)
  else if Rlt_dec (wST m) 0 then
    if Rlt_dec 0 (wSL m) then ELR else if Rlt_dec (wSR m) 0 then ERR else mag_top m (mB qLR) (mB qRR)
  else if Rlt_dec 0 (wSL m) then mag_left m (mA qLL) (mA qLR)
  else if Rlt_dec (wSR m) 0 then mag_right m (mA qRL) (mA qRR)
  else mag_center m)%R.
Proof. exact emf_select. Qed.
Print Assumptions C58_emf_branches.
Example C58_hypotheses_hold : let q := (MS 1 1 2 3 4 5 6 7)%R in (0 < mD q)%R /\ (0 < mP (gas_state 0 q))%R.
Proof. cbv zeta. unfold gas_state. destruct (Rlt_dec 0 0); [lra|]. cbn. lra. Qed.
