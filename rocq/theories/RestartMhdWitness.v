(** MHD runs exist, restarted MHD solvers exist, and a run that reaches its end time. *)
From Coq Require Import ZArith List Bool Reals Lia Lra Permutation.
From Verif Require Import Arith Par ParProofs GridModel BoundaryModel BoundarySpec BoundaryProofs HydroState HydroPoint HydroKernels HydroField
  HydroSpec HydroProofs2 HydroStep2 HydroConserve HydroUniform HydroExec ReduceModel DtProofs IoModel LoopModel LoopSpec LoopProofs LoopHydro RestartModel RestartProofs RestartWitness
  MhdState MhdRiemann MhdPoint MhdKernels2 MhdKernels3 MhdSpec MhdSpec3 MhdExec MhdField2 MhdField3 MhdProofs2 MhdProofs3 MhdStep2 MhdStep3
  MhdConserve2 MhdConserve3 MhdPhysics MhdLoop2 MhdLoop3 MhdRun2 MhdRun3 RestartMhd RestartMhdProofs.
Import ListNotations.
Open Scope Z_scope.

Section Total.
Context {TT T : Type} {AT : Arith TT}.
Variables (c : lconf TT) (dtl : Z -> store T -> TT -> Prop) (god : Z -> Z -> TT -> store T -> store T -> Prop).
Lemma loop_total_current (Hn : l_nlog c <> 0)
  (Hd : forall it m, exists d, dtl (current it) m d) (Hg : forall a b d m, exists m', god a b d m m') s :
  exists s', run c dtl god s s'.
Proof.
  destruct (loop_total c (fun a m d => dtl (if a =? aU then aU else aU2) m d) god Hn) with (s := edge_save c s) as (n & s' & H1 & H2).
  { intros a m. destruct (a =? aU); [apply (Hd 0)|apply (Hd 1)]. }
  { exact Hg. }
  assert (E : forall n s s', loop c (fun a m d => dtl (if a =? aU then aU else aU2) m d) god n s s' -> loop c dtl god n s s').
  { induction 1 as [z|k z z1 z2 L IH F N]; [constructor|]. econstructor; eauto. destruct N as [d m' L1 D G]. constructor; auto.
    revert D. unfold current. destruct (Z.rem _ 2 =? 0); auto. }
  eexists. econstructor; eauto.
Qed.
End Total.

Section M.
Context {T : Type} {AT : Arith T}.
Variables (p : mparams T) (g : grid) (lowest : T).
Lemma mhd_dt2_total it m : exists d, mhd_dt2 p g lowest (current it) m d.
Proof.
  eexists. exists (other it). eexists. split; [unfold current; destruct (Z.rem _ 2 =? 0); unfold aU, aU2; lia|].
  split; [unfold current, other; destruct (Z.rem _ 2 =? 0); reflexivity|]. split; [apply run_kernels_seq|].
  eexists. split; [eexists; split; [apply Permutation_refl|apply partial_seq]|reflexivity].
Qed.
Lemma mhd_dt3_total it m : exists d, mhd_dt3 p g lowest (current it) m d.
Proof.
  eexists. exists (other it). eexists. split; [unfold current; destruct (Z.rem _ 2 =? 0); unfold aU, aU2; lia|].
  split; [unfold current, other; destruct (Z.rem _ 2 =? 0); reflexivity|]. split; [apply run_kernels_seq|].
  eexists. split; [eexists; split; [apply Permutation_refl|apply partial_seq]|reflexivity].
Qed.
Lemma mhd_step2_total impl a b d m : exists m', mhd_step2 p g impl a b d m m'.
Proof. eexists. exists (fun _ _ => ms_zero). apply run_kernels_seq. Qed.
Lemma mhd_step3_total impl a b d m : exists m', mhd_step3 p g impl a b d m m'.
Proof. eexists. exists (fun _ _ => ms_zero). apply run_kernels_seq. Qed.
End M.

Section Exists.
Context {TT T : Type} {AT : Arith TT} {A : Arith T}.
Variables (b3 : bool) (p : mparams T) (g : grid) (io : ioconf).
Lemma restart_mhd_exists ly reset (f : h5file TT T) : exists r, restarted_mhd b3 p g io ly reset f r.
Proof.
  pose (r := IoModel.load b3 true io ly g f (fun _ => zero) (fun _ => zero)).
  pose (m1 := fun l => if la l =? aU then fst (fst r) (voff b3 ly g (li l) (lj l) (lk l) (lv l)) else zero).
  pose proof (run_kernels_seq (if b3 then make_boundaries_serial3d true g aU else make_boundaries_serial2d true g aU) m1) as Hm.
  set (m2 := fold_left _ _ _) in Hm.
  pose proof (run_kernels_seq [if b3 then mconvert3 p g aU else mconvert2 p g aU]
    (fun l => if la l =? aU2 then m2 (Loc aU (li l) (lj l) (lk l) (lv l)) else m2 l)) as Hc.
  eexists. eapply (RestartedMhd b3 p g io ly reset f (fun _ => zero) m1 m2 _ zero r); eauto.
  - intros l H. unfold m1. apply Z.eqb_neq in H. rewrite H. reflexivity.
Qed.
End Exists.

Open Scope R_scope.
Lemma one_step_run (dtl : Z -> store R -> R -> Prop) (god : Z -> Z -> R -> store R -> store R -> Prop) (m0 : store R) d : dtl aU m0 d -> / 10 <= d -> (forall a b d m, exists m', god a b d m m') ->
  exists s', run rconf dtl god (Sim 0 0 0 0 m0 []) s' /\ m_t s' = l_tEnd rconf /\ In (Snap 0 0 aU m0) (written s').
Proof.
  intros Hd Hd' Hgod. set (rst := Sim 0 0 0 0 m0 []).
  assert (Hc : clip_dt rconf 0 d = 1/10).
  { unfold clip_dt. cbn [ltb add sub l_tEnd rconf RArith]. destruct Rlt_dec; lra. }
  destruct (Hgod aU aU2 (1/10) m0) as (m' & Hm).
  set (s0 := edge_save rconf rst).
  assert (E0 : s0 = save_solution rst) by reflexivity.
  assert (N : next_iteration rconf dtl god s0
     (Sim (add (m_t s0) (clip_dt rconf (m_t s0) d)) (clip_dt rconf (m_t s0) d) (m_iteration s0 + 1)
           (m_times_saved (maybe_save rconf s0)) m' (written (maybe_save rconf s0)))).
  { apply NextIteration; [discriminate|exact Hd|]. rewrite E0. cbn [m_t save_solution rst m_iteration mem]. rewrite Hc. exact Hm. }
  set (s1 := Sim _ _ _ _ _ _) in N.
  assert (T1 : m_t s1 = 1/10).
  { unfold s1. rewrite E0. cbn [m_t save_solution rst]. rewrite Hc. cbn [add RArith]. lra. }
  exists (edge_save rconf s1). split; [|split].
  - apply (Run _ _ _ _ _ 1 s1); [|unfold finished; rewrite T1; cbn [leb sub lit l_tEnd rconf RArith]; destruct Rle_dec; [reflexivity|exfalso; lra]|reflexivity].
    apply (LoopMore _ _ _ 0 _ s0); [constructor| |exact N].
    unfold finished. rewrite E0. cbn [m_t save_solution rst leb sub lit l_tEnd rconf RArith m_iteration l_nStepmax].
    destruct Rle_dec; [exfalso; lra|reflexivity].
  - destruct (edge_same rconf s1) as (-> & _). rewrite T1. reflexivity.
  - unfold edge_save. change (l_nOutput rconf =? 0)%Z with false. cbv iota. unfold save_solution at 1. cbn [written]. right. unfold s1. cbn [written].
    destruct (maybe_cases rconf s0) as [->| ->]; rewrite E0; cbn; auto.
Qed.

(** Stripes of two densities at rest in a uniform oblique field. *)
Definition mstripes : store R := fun l =>
  if (lv l =? ID)%Z then (if Z.even (li l) then 2 else 4) else if (lv l =? IP)%Z then 4
  else if (lv l =? IA)%Z then 1 else if (lv l =? IB)%Z then 1 else 0.
Definition mplasma : mparams R := MParams (HParams R (5/3) 1 (1/100) (1/100) (1/100) 1 1 (1/2) 1 1 1 RIEMANN_HLLD)%R 0 0 0.
Definition mbox : grid := Grid 4 5 3 3 8 (fun _ => 3%Z).
Definition striped (u : ms R) : Prop := exists d, (d = 2 \/ d = 4) /\ u = MS d 4 0 0 0 1 1 0.

Lemma along_p dir n q v (x : R) : along (A := RArith) true dir (kind_of_code 3) (kind_of_code 3) n q v x = x.
Proof. apply along_periodic_m. Qed.
Lemma mstripes2 i j : striped (mfill2 mbox mstripes aU i j).
Proof.
  unfold mfill2, filled2d. cbv zeta. unfold kx0, kx1, ky0, ky1, bc, mbox. rewrite !along_p. unfold mstripes. cbn [lv li].
  eexists. split; [|reflexivity]. destruct (Z.even _); auto.
Qed.
Lemma mstripes3 i j k : striped (mfill3 mbox mstripes aU i j k).
Proof.
  unfold mfill3, filled3d. cbv zeta. unfold kx0, kx1, ky0, ky1, kz0, kz1, bc, mbox. rewrite !along_p. unfold mstripes. cbn [lv li].
  eexists. split; [|reflexivity]. destruct (Z.even _); auto.
Qed.
Lemma fast_bound gam q x : 0 < mD q -> 0 <= gam * mP q -> 0 <= field2 q -> 0 <= x * x -> gam * mP q / mD q + field2 q / mD q <= 8/3 -> fast_speed gam q x <= 5/3.
Proof.
  intros H1 H2 H3 Hx H4. unfold fast_speed. cbv zeta. set (cs2 := gam * mP q / mD q) in *. set (ca2 := field2 q / mD q) in *.
  assert (0 <= cs2) by (apply Rmult_le_pos; [|apply Rlt_le, Rinv_0_lt_compat]; auto).
  assert (0 <= ca2) by (apply Rmult_le_pos; [|apply Rlt_le, Rinv_0_lt_compat]; auto).
  assert (0 <= x * x / mD q) by (apply Rmult_le_pos; [|apply Rlt_le, Rinv_0_lt_compat]; auto).
  assert (R_sqrt.sqrt ((cs2 + ca2) * (cs2 + ca2) - 4 * cs2 * (x * x / mD q)) <= cs2 + ca2).
  { rewrite <- (R_sqrt.sqrt_square (cs2 + ca2)) at 3 by lra. apply R_sqrt.sqrt_le_1_alt. pose proof (Rmult_le_pos cs2 (x * x / mD q)). lra. }
  rewrite <- (R_sqrt.sqrt_square (5/3)) by lra. apply R_sqrt.sqrt_le_1_alt. lra.
Qed.
Lemma striped_prim u nA nB nC : striped u -> nA = 1 -> nB = 1 -> nC = 0 ->
  exists d, (d = 2 \/ d = 4) /\ constoprim_mhd mplasma u nA nB nC = MS d 2 0 0 0 1 1 0.
Proof.
  intros (d & Hd & ->) -> -> ->. exists d. split; auto. unfold constoprim_mhd, mplasma.
  cbn [mD mP mU mV mW mA mB mC mh cIso smallr smallp gamma0 maxv mul div add sub half one zero ltb RArith].
  rewrite (Rmax_left d (1/100)) by lra. destruct Rlt_dec; [exfalso; lra|].
  replace (0 / d) with 0 by (field; lra).
  replace ((5 / 3 - 1) * d * _) with 2 by (field; lra). rewrite Rmax_left by lra. f_equal; lra.
Qed.
Lemma striped_speed d x : d = 2 \/ d = 4 -> 0 <= x * x -> fast_speed (5/3) (MS d 2 0 0 0 1 1 0) x <= 5/3.
Proof.
  intros Hd Hx. apply fast_bound; unfold field2; cbn; auto; try lra. destruct Hd as [->| ->]; lra.
Qed.

Lemma mstripes_dt2 d : mhd_dt2 mplasma mbox (-1000) aU mstripes d -> / 10 <= d.
Proof.
  intros Hd. destruct (mdt_cfl2 mplasma mbox (-1000) mstripes aU d) as (D1 & _ & i & j & Hi & D3); auto;
    try (unfold mhd_params_ok, mplasma; cbn; lra); try (unfold mhd_grid2; cbn; lia).
  revert D3. unfold prim2. set (q := constoprim_mhd _ _ _ _ _).
  assert (Q : exists d, (d = 2 \/ d = 4) /\ q = MS d 2 0 0 0 1 1 0).
  { apply striped_prim; auto using mstripes2.
    - destruct (mstripes2 (i + 1) j) as (? & _ & ->). reflexivity. - destruct (mstripes2 i (j + 1)) as (? & _ & ->). reflexivity. }
  destruct Q as (r & Hr & ->). unfold mhd_rate2. cbn [mU mV mA mB mh mplasma gamma0 dx dy cfl]. rewrite !Rabs_R0.
  pose proof (striped_speed r 1 Hr ltac:(lra)). set (f := fast_speed _ _ _) in *. intros D3.
  apply Rnot_lt_le. intros C. assert (d * (10/3) < 1/2) by lra. assert (d * ((0 + f) / 1 + (0 + f) / 1) <= d * (10/3)) by (apply Rmult_le_compat_l; lra). lra.
Qed.
Lemma mstripes_dt3 d : mhd_dt3 mplasma mbox (-1000) aU mstripes d -> / 10 <= d.
Proof.
  intros Hd. destruct (mdt_cfl3 mplasma mbox (-1000) mstripes aU d) as (D1 & _ & i & j & k & Hi & D3); auto;
    try (unfold mhd_params_ok, mplasma; cbn; lra); try (unfold mhd_grid3, mhd_grid2; cbn; lia).
  revert D3. unfold prim3, mfil. set (q := constoprim_mhd _ _ _ _ _).
  assert (Q : exists d, (d = 2 \/ d = 4) /\ q = MS d 2 0 0 0 1 1 0).
  { apply striped_prim; auto using mstripes3; match goal with |- _ (mfill3 _ _ _ ?a ?b ?c) = _ => destruct (mstripes3 a b c) as (? & _ & ->); reflexivity end. }
  destruct Q as (r & Hr & ->). unfold mhd_rate3. cbn [mU mV mW mA mB mC mh mplasma gamma0 dx dy dz cfl]. rewrite !Rabs_R0.
  pose proof (striped_speed r 1 Hr ltac:(lra)). pose proof (striped_speed r 0 Hr ltac:(lra)).
  set (f := fast_speed _ _ 1) in *. set (f0 := fast_speed _ _ 0) in *. intros D3.
  apply Rnot_lt_le. intros C. assert (d * 5 < 1/2) by lra. assert (d * ((0 + f) / 1 + (0 + f) / 1 + (0 + f0) / 1) <= d * 5) by (apply Rmult_le_compat_l; lra). lra.
Qed.
