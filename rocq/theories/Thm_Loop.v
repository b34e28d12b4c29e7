(** Theorems about the main loop (properties C16-C19), with whole-run versions
    of C20 and C55. *)
From Coq Require Import ZArith QArith List Bool Reals Lia Lra.
From Verif Require Import Arith Par ParProofs GridModel BoundarySpec HydroState RiemannModel HydroPoint HydroKernels
  HydroSpec Physics ReduceModel SymmetrySpec LoopModel LoopSpec LoopProofs LoopHydro Float64 Thm_Riemann Thm_Symmetry.
Import ListNotations.
Open Scope Z_scope.

(** ** C16: the simulated time *)
Theorem C16_time : forall (T : Type) (c : lconf R) (dt_local : Z -> store T -> R -> Prop) godunov,
  (forall a m d, dt_local a m d -> 0 < d)%R ->
  forall n (s s' : sim R T), (m_t s <= l_tEnd c)%R -> loop c dt_local godunov n s s' ->
  (m_t s <= m_t s' <= l_tEnd c)%R /\ ((0 < n)%nat -> (m_t s < m_t s')%R).
Proof. intros T c dl gd H n s s' H0 Hl. exact (time_bounds c dl gd H n s s' H0 Hl). Qed.
Print Assumptions C16_time.

Theorem C16_stops : forall (T : Type) (c : lconf R) (s : sim R T), finished c s = true ->
  (l_tEnd c - / 100000000000000 <= m_t s)%R \/ l_nStepmax c <= m_iteration s.
Proof. intros T c s. apply finished_true. Qed.
Print Assumptions C16_stops.

(** If the time steps stay above [dmin] and enough steps are allowed, the end
    time is reached. *)
Theorem C16_reaches_end : forall (T : Type) (c : lconf R) (dt_local : Z -> store T -> R -> Prop) godunov dmin,
  (0 < dmin)%R -> (forall a m d, dt_local a m d -> dmin <= d)%R ->
  forall n (s s' : sim R T), (m_t s <= l_tEnd c)%R -> 0 <= l_nStepmax c - m_iteration s ->
  (l_tEnd c - m_t s <= dmin * IZR (l_nStepmax c - m_iteration s))%R ->
  loop c dt_local godunov n s s' -> finished c s' = true ->
  (l_tEnd c - / 100000000000000 <= m_t s' <= l_tEnd c)%R.
Proof.
  intros T c dl gd dmin Hd Hm n s s' H1 H2 H3 Hl Hf.
  refine (time_reached c dl gd _ dmin n s s' Hd Hm H1 H2 H3 Hl Hf). intros a m d H. specialize (Hm a m d H). lra.
Qed.
Print Assumptions C16_reaches_end.

(** The hydrodynamics solver satisfies the hypothesis on the time step. *)
Theorem C16_time_hydro_2d : forall (p : hparams R) g lowest ge impl c,
  params_ok p -> (0 < dx p)%R -> (0 < dy p)%R -> (0 < cfl p)%R -> (lowest <= 0)%R -> hydro_grid2 g ->
  forall n (s s' : sim R R), (m_t s <= l_tEnd c)%R ->
  loop c (hydro_dt2 p g lowest ge) (hydro_step2 p g ge impl) n s s' ->
  (m_t s <= m_t s' <= l_tEnd c)%R /\ ((0 < n)%nat -> (m_t s < m_t s')%R).
Proof.
  intros p g lowest ge impl c H1 H2 H3 H4 H5 H6 n s s'. apply C16_time. intros a m d. eapply positive2; eauto.
Qed.
Print Assumptions C16_time_hydro_2d.
Theorem C16_time_hydro_3d : forall (p : hparams R) g lowest ge impl c,
  params_ok p -> (0 < dx p)%R -> (0 < dy p)%R -> (0 < dz p)%R -> (0 < cfl p)%R -> (lowest <= 0)%R -> hydro_grid3 g ->
  forall n (s s' : sim R R), (m_t s <= l_tEnd c)%R ->
  loop c (hydro_dt3 p g lowest ge) (hydro_step3 p g ge impl) n s s' ->
  (m_t s <= m_t s' <= l_tEnd c)%R /\ ((0 < n)%nat -> (m_t s < m_t s')%R).
Proof.
  intros p g lowest ge impl c H1 H2 H3 H3' H4 H5 H6 n s s'. apply C16_time. intros a m d. eapply positive3; eauto.
Qed.
Print Assumptions C16_time_hydro_3d.

(** In double precision with rounding.  The end time is read with getFloat, so
    it is a single-precision number. *)
Theorem C16_time_double : forall (T : Type) (c : lconf R) (dt_local : Z -> store T -> R -> Prop) godunov,
  (forall a m d, dt_local a m d -> 0 < d)%R -> single (l_tEnd c) ->
  forall n (s s' : sim R T), double (m_t s) -> (0 <= m_t s <= l_tEnd c)%R ->
  loop (AT := B64) c dt_local godunov n s s' ->
  double (m_t s') /\ (m_t s <= m_t s' <= l_tEnd c)%R.
Proof. intros T c dl gd H1 H2. exact (time_bounds64 c dl gd H1 H2). Qed.
Print Assumptions C16_time_double.
(** For an arbitrary double as end time this fails. *)
Theorem C16_time_double_any_end_refuted : exists (c : lconf R) (dt_local : Z -> store R -> R -> Prop) godunov (s s' : sim R R),
  (forall a m d, dt_local a m d -> 0 < d)%R /\ double (l_tEnd c) /\ double (m_t s) /\ (0 <= m_t s <= l_tEnd c)%R /\
  loop (AT := B64) c dt_local godunov 1 s s' /\ (l_tEnd c < m_t s')%R.
Proof.
  destruct overshoot as (D1 & D2 & D3).
  assert (B : double 9007199254740991) by (apply double_big; lia).
  assert (P : (4503599627370501 < rnd (3 / 2 + 9007199254740991))%R).
  { apply Rlt_le_trans with 9007199254740991%R; [lra|]. rewrite <- (rnd_id _ B) at 1. apply rnd_le. lra. }
  set (c := LConf 4503599627370501%R 10 0 1).
  set (s := Sim (3 / 2)%R 0%R 0 0 (fun _ : loc => 0%R) []).
  exists c, (fun _ _ d => d = 9007199254740991%R), (fun _ _ _ m m' => m' = m), s.
  eexists. split; [intros a m d ->; lra|]. split; [exact D1|]. split; [exact D2|]. split; [cbn; lra|]. split.
  - eapply LoopMore; [apply LoopZero| |].
    + unfold finished. cbn [s c m_t l_tEnd m_iteration l_nStepmax leb sub lit B64]. apply orb_false_iff. split; [|reflexivity].
      destruct Rle_dec as [L|L]; auto. exfalso. 
      assert (X : (rnd 4503599627370500 <= rnd (4503599627370501 - rnd (1 / 100000000000000)))%R).
      { apply rnd_le. assert (rnd (1 / 100000000000000) <= rnd 1)%R by (apply rnd_le; lra).
        assert (D : double 1).
        { unfold double, fexp64. apply (FLT.generic_format_FLT Zaux.radix2). exists (Defs.Float Zaux.radix2 1 0); [unfold Defs.F2R; cbn; lra|cbn; lia|cbn; lia]. }
        rewrite (rnd_id 1 D) in H. lra. }
      rewrite rnd_id in X by (apply double_big; lia). lra.
    + econstructor; [discriminate|reflexivity|reflexivity].
  - cbn [m_t s]. unfold clip_dt. cbn [c l_tEnd ltb add sub B64 m_t]. destruct Rlt_dec; [exact D3|contradiction].
Qed.
Print Assumptions C16_time_double_any_end_refuted.

(** ** C17: termination *)
Theorem C17_bounded : forall (TT T : Type) (AT : Arith TT) (c : lconf TT) dt_local godunov n (s s' : sim TT T),
  loop c dt_local godunov n s s' -> n = 0%nat \/ Z.of_nat n <= l_nStepmax c - m_iteration s.
Proof. intros TT T AT c dl gd n s s'. apply loop_bound. Qed.
Print Assumptions C17_bounded.
(** From any reachable state the loop can be completed. *)
Theorem C17_terminates : forall (TT T : Type) (AT : Arith TT) (c : lconf TT) dt_local godunov, l_nlog c <> 0 ->
  (forall a (m : store T), exists d, dt_local a m d) -> (forall a b d m, exists m', godunov a b d m m') ->
  forall k s s1, loop c dt_local godunov k s s1 ->
  exists n s', loop c dt_local godunov (k + n) s s' /\ finished c s' = true.
Proof.
  intros TT T AT c dl gd Hn Hd Hg k s s1 Hl. destruct (loop_total c dl gd Hn Hd Hg s1) as (n & s' & H1 & H2).
  exists n, s'. split; auto. eapply loop_app; eauto.
Qed.
Print Assumptions C17_terminates.
Theorem C17_terminates_hydro_2d : forall (T : Type) (A : Arith T) (p : hparams T) g lowest ge impl (c : lconf T),
  l_nlog c <> 0 -> forall s, exists s', run c (hydro_dt2 p g lowest ge) (hydro_step2 p g ge impl) s s'.
Proof.
  intros T A p g lowest ge impl c Hn s.
  destruct (loop_total c (hydro_dt2 p g lowest ge) (hydro_step2 p g ge impl) Hn) with (s := edge_save c s) as (n & s' & H1 & H2).
  - apply hydro_dt2_total. - apply hydro_step2_total. - eexists. econstructor; eauto.
Qed.
Print Assumptions C17_terminates_hydro_2d.
Theorem C17_terminates_hydro_3d : forall (T : Type) (A : Arith T) (p : hparams T) g lowest ge impl (c : lconf T),
  l_nlog c <> 0 -> forall s, exists s', run c (hydro_dt3 p g lowest ge) (hydro_step3 p g ge impl) s s'.
Proof.
  intros T A p g lowest ge impl c Hn s.
  destruct (loop_total c (hydro_dt3 p g lowest ge) (hydro_step3 p g ge impl) Hn) with (s := edge_save c s) as (n & s' & H1 & H2).
  - apply hydro_dt3_total. - apply hydro_step3_total. - eexists. econstructor; eauto.
Qed.
Print Assumptions C17_terminates_hydro_3d.

(** ** C18: snapshots *)
Theorem C18_numbering : forall (TT T : Type) (AT : Arith TT) (c : lconf TT) dt_local godunov (s s' : sim TT T),
  written s = [] -> run c dt_local godunov s s' ->
  map sn_num (rev (written s')) = numbers (m_times_saved s) (length (written s')).
Proof. intros TT T AT c dl gd. exact (files_numbered c dl gd). Qed.
Print Assumptions C18_numbering.
Theorem C18_no_output : forall (TT T : Type) (AT : Arith TT) (c : lconf TT) dt_local godunov (s s' : sim TT T),
  l_nOutput c = 0 -> run c dt_local godunov s s' -> written s' = written s.
Proof. intros TT T AT c dl gd. exact (files_none c dl gd). Qed.
Print Assumptions C18_no_output.
Theorem C18_initial_and_final_saved : forall (TT T : Type) (AT : Arith TT) (c : lconf TT) dt_local godunov (s s' : sim TT T),
  l_nOutput c <> 0 -> written s = [] -> run c dt_local godunov s s' ->
  exists middle,
    rev (written s') = Snap (m_times_saved s) (m_t s) (current (m_iteration s)) (mem s) :: middle ++
      [Snap (m_times_saved s' - 1) (m_t s') (current (m_iteration s')) (mem s')].
Proof. intros TT T AT c dl gd. exact (files_first_last c dl gd). Qed.
Print Assumptions C18_initial_and_final_saved.
(** Exact arithmetic; a run started from snapshot number 0.  With
    I = tEnd / nOutput, snapshot number k other than the first and last is taken
    at a time later than k I, 0 < k < nOutput, and not later than (k+1) I if no
    time step exceeds I.  (The exception: times within 1e-12 of tEnd.) *)
Theorem C18_cadence : forall (T : Type) (c : lconf R) (dt_local : Z -> store T -> R -> Prop) godunov (s s' : sim R T) sn,
  0 < l_nOutput c -> (0 < l_tEnd c)%R -> m_times_saved s = 0 -> written s = [] -> (m_t s <= l_tEnd c)%R ->
  run c dt_local godunov s s' -> In sn (written s') ->
  let I := (l_tEnd c / IZR (l_nOutput c))%R in
  (sn_num sn = 0 /\ sn_time sn = m_t s) \/ (sn_time sn = m_t s' /\ sn_num sn = m_times_saved s' - 1) \/
  (Rabs (sn_time sn - l_tEnd c) < / 1000000000000)%R \/
  ((IZR (sn_num sn) * I < sn_time sn)%R /\ 0 < sn_num sn < l_nOutput c /\
   ((forall a m d, dt_local a m d -> (d <= I)%R) -> (m_t s <= I)%R -> (sn_time sn <= (IZR (sn_num sn) + 1) * I)%R)).
Proof. intros T c dl gd s s' sn H1 H2 H3 H4 H5 H6 H7 I. exact (cadence_run c dl gd s s' sn H1 H2 H3 H4 H5 H6 H7). Qed.
Print Assumptions C18_cadence.
Theorem C18_every_step : forall (TT T : Type) (AT : Arith TT) (c : lconf TT) dt_local godunov (s s' : sim TT T),
  l_nOutput c < 0 -> written s = [] -> 0 <= m_iteration s -> run c dt_local godunov s s' ->
  Z.of_nat (length (written s')) = m_iteration s' - m_iteration s + 2.
Proof. intros TT T AT c dl gd. exact (files_every_step c dl gd). Qed.
Print Assumptions C18_every_step.
(** With nOutput < 0 the initial state is written twice. *)
Theorem C18_initial_written_twice : forall (TT T : Type) (AT : Arith TT) (c : lconf TT) dt_local godunov (s s' : sim TT T),
  l_nOutput c < 0 -> written s = [] -> 0 <= m_iteration s -> m_iteration s < m_iteration s' ->
  run c dt_local godunov s s' ->
  exists s0 s1 rest, rev (written s') = s0 :: s1 :: rest /\ sn_num s0 = m_times_saved s /\ sn_num s1 = m_times_saved s + 1 /\
    sn_time s1 = sn_time s0 /\ sn_array s1 = sn_array s0 /\ sn_mem s1 = sn_mem s0.
Proof. intros TT T AT c dl gd. exact (files_duplicate c dl gd). Qed.
Print Assumptions C18_initial_written_twice.

(** ** C19: the buffers *)
(** Any arithmetic.  The run of the memory-level program is a trajectory of the
    scheme [adv2] on fields; the final buffer holds its last field and every
    snapshot holds the field of its time, whatever the other buffer and the
    ghost cells contain. *)
Theorem C19_run_is_trajectory_2d : forall (T : Type) (A : Arith T) (p : hparams T) g lowest ge impl,
  impl = 0 \/ impl = 1 -> slope_ok p -> forall (c : lconf T) (s s' : sim T T),
  hydro_grid2 g -> riemann_ok2 p -> 0 <= m_iteration s -> written s = [] ->
  run c (hydro_dt2 p g lowest ge) (hydro_step2 p g ge impl) s s' ->
  let u := fun i j v => mem s (Loc (current (m_iteration s)) i j 0 v) in
  let G := fun i j d => mem s (Loc aG i j 0 d) in
  let traj := trajectory (l_tEnd c) (cfl2 p g lowest ge G) (adv2 p g ge G) in
  exists n u', traj n (m_t s, u) (m_t s', u') /\
    holds2 g u' (current (m_iteration s')) (mem s') /\
    forall sn, In sn (written s') ->
      exists k u1, (k <= n)%nat /\ traj k (m_t s, u) (sn_time sn, u1) /\ traj (n - k)%nat (sn_time sn, u1) (m_t s', u') /\
        holds2 g u1 (sn_array sn) (sn_mem sn).
Proof. intros T A p g lowest ge impl Hi Hs. exact (hydro_run2 p g lowest ge impl Hi Hs). Qed.
Print Assumptions C19_run_is_trajectory_2d.
Theorem C19_run_is_trajectory_3d : forall (T : Type) (A : Arith T) (p : hparams T) g lowest ge impl,
  impl = 0 \/ impl = 1 -> slope_ok p -> forall (c : lconf T) (s s' : sim T T),
  hydro_grid3 g -> riemann_ok3 p -> 0 <= m_iteration s -> written s = [] ->
  run c (hydro_dt3 p g lowest ge) (hydro_step3 p g ge impl) s s' ->
  let u := fun i j k v => mem s (Loc (current (m_iteration s)) i j k v) in
  let G := fun i j k d => mem s (Loc aG i j k d) in
  let traj := trajectory (l_tEnd c) (cfl3 p g lowest ge G) (adv3 p g ge impl G) in
  exists n u', traj n (m_t s, u) (m_t s', u') /\
    holds3 g u' (current (m_iteration s')) (mem s') /\
    forall sn, In sn (written s') ->
      exists k u1, (k <= n)%nat /\ traj k (m_t s, u) (sn_time sn, u1) /\ traj (n - k)%nat (sn_time sn, u1) (m_t s', u') /\
        holds3 g u1 (sn_array sn) (sn_mem sn).
Proof. intros T A p g lowest ge impl Hi Hs. exact (hydro_run3 p g lowest ge impl Hi Hs). Qed.
Print Assumptions C19_run_is_trajectory_3d.
(** Any scheme with a two-buffer step. *)
Theorem C19_two_buffers : forall (TT T X : Type) (AT : Arith TT) (c : lconf TT) (dt_local : Z -> store T -> TT -> Prop) (godunov : Z -> Z -> TT -> store T -> store T -> Prop)
  (holds : X -> Z -> store T -> Prop) (cfl_dt : X -> TT -> Prop) (adv : TT -> X -> X),
  (forall x a m d, holds x a m -> dt_local a m d -> cfl_dt x d) ->
  (forall x a b d m m', arr_ok a b -> holds x a m -> godunov a b d m m' -> holds (adv d x) b m') ->
  forall n (s s' : sim TT T) x, 0 <= m_iteration s -> holds x (current (m_iteration s)) (mem s) ->
  loop c dt_local godunov n s s' ->
  exists x', trajectory (l_tEnd c) cfl_dt adv n (m_t s, x) (m_t s', x') /\
    holds x' (current (m_iteration s')) (mem s').
Proof.
  intros TT T X AT c dl gd holds cd adv H1 H2 n s s' x H3 H4 Hl.
  destruct (refine c dl gd holds cd adv H1 H2 n s s' x H3 H4 Hl) as (x' & K1 & K2 & _). eauto.
Qed.
Print Assumptions C19_two_buffers.

(** ** C20, C55 for whole runs *)
Theorem C20_run_conserves_2d : forall (p : hparams R) g lowest impl c, impl = 0 \/ impl = 1 -> slope_ok p ->
  forall (s s' : sim R R) v, hydro_grid2 g -> all_periodic g -> riemann_ok2 p -> 0 <= m_iteration s -> 0 <= v < 4 ->
  run c (hydro_dt2 p g lowest false) (hydro_step2 p g false impl) s s' ->
  total2 g (mem s') (current (m_iteration s')) v = total2 g (mem s) (current (m_iteration s)) v.
Proof. exact conserve_run2. Qed.
Print Assumptions C20_run_conserves_2d.
Theorem C20_run_conserves_3d : forall (p : hparams R) g lowest impl c, impl = 0 \/ impl = 1 -> slope_ok p ->
  forall (s s' : sim R R) v, hydro_grid3 g -> all_periodic g -> riemann_ok3 p -> 0 <= m_iteration s -> 0 <= v < 5 ->
  run c (hydro_dt3 p g lowest false) (hydro_step3 p g false impl) s s' ->
  total3 g (mem s') (current (m_iteration s')) v = total3 g (mem s) (current (m_iteration s)) v.
Proof. exact conserve_run3. Qed.
Print Assumptions C20_run_conserves_3d.
Theorem C55_run_closed_2d : forall (p : hparams R) g lowest impl c, impl = 0 \/ impl = 1 -> slope_ok p ->
  forall (s s' : sim R R) v, hydro_grid2 g -> params_ok p -> symmetric_solver2 p -> 0 <= m_iteration s ->
  closed_dir (kx0 g) (kx1 g) -> closed_dir (ky0 g) (ky1 g) ->
  v = 0 \/ v = 1 \/ (v = 2 /\ periodic_dir (kx0 g) (kx1 g)) \/ (v = 3 /\ periodic_dir (ky0 g) (ky1 g)) ->
  run c (hydro_dt2 p g lowest false) (hydro_step2 p g false impl) s s' ->
  total2 g (mem s') (current (m_iteration s')) v = total2 g (mem s) (current (m_iteration s)) v.
Proof. exact closed_run2. Qed.
Print Assumptions C55_run_closed_2d.
Theorem C55_run_closed_3d : forall (p : hparams R) g lowest impl c, impl = 0 \/ impl = 1 -> slope_ok p ->
  forall (s s' : sim R R) v, hydro_grid3 g -> params_ok p -> symmetric_solver3 p -> 0 <= m_iteration s ->
  closed_dir (kx0 g) (kx1 g) -> closed_dir (ky0 g) (ky1 g) -> closed_dir (kz0 g) (kz1 g) ->
  v = 0 \/ v = 1 \/ (v = 2 /\ periodic_dir (kx0 g) (kx1 g)) \/ (v = 3 /\ periodic_dir (ky0 g) (ky1 g))
    \/ (v = 4 /\ periodic_dir (kz0 g) (kz1 g)) ->
  run c (hydro_dt3 p g lowest false) (hydro_step3 p g false impl) s s' ->
  total3 g (mem s') (current (m_iteration s')) v = total3 g (mem s) (current (m_iteration s)) v.
Proof. exact closed_run3. Qed.
Print Assumptions C55_run_closed_3d.

(** ** Cases meeting the hypotheses *)
(** A run of the hydrodynamics solver in a periodic box. *)
Definition conf : lconf R := LConf 1%R 1000 10 100.
Definition periodic2 : grid := Grid 4 5 1 2 4 (fun _ => 3).
Definition start : sim R R := Sim 0%R 0%R 0 0 shear [].
Example C16_C19_hypotheses_hold : exists s' : sim R R,
  run conf (hydro_dt2 (gas RIEMANN_HLLC) periodic2 (-1000)%R true) (hydro_step2 (gas RIEMANN_HLLC) periodic2 true 1) start s' /\
  params_ok (gas RIEMANN_HLLC) /\ (0 < dx (gas RIEMANN_HLLC) /\ 0 < dy (gas RIEMANN_HLLC) /\ 0 < dz (gas RIEMANN_HLLC) /\ 0 < cfl (gas RIEMANN_HLLC))%R /\
  hydro_grid2 periodic2 /\ all_periodic periodic2 /\ slope_ok (gas RIEMANN_HLLC) /\ riemann_ok2 (gas RIEMANN_HLLC) /\
  0 <= m_iteration start /\ written start = [] /\ (m_t start <= l_tEnd conf)%R /\ 0 < l_nOutput conf /\ (0 < l_tEnd conf)%R /\
  m_times_saved start = 0.
Proof.
  destruct (C17_terminates_hydro_2d R RArith (gas RIEMANN_HLLC) periodic2 (-1000)%R true 1 conf) with (s := start) as (s' & H); [discriminate|].
  exists s'. split; [exact H|]. unfold params_ok, gas. cbn [gamma0 smallr smallp smallc dx dy dz cfl].
  split; [lra|]. split; [lra|]. split; [unfold hydro_grid2; cbn; lia|]. split; [intros f; reflexivity|]. split; [apply gas_slope|].
  split; [cbn; auto|]. cbn. repeat split; try lia; lra.
Qed.
(** Time steps of constant size 3/10 up to time 1: three snapshots are due in
    the loop when nOutput = 3, and the last step is shortened. *)
Definition steps_conf : lconf Q := LConf 1%Q 1000 3 10.
Definition steps_dt (_ : Z) (_ : store Q) (d : Q) : Prop := d = (3 # 10)%Q.
Definition steps_god (_ _ : Z) (_ : Q) (m m' : store Q) : Prop := m' = fun l => add (m l) one.
Definition steps_start : sim Q Q := Sim 0%Q 0%Q 0 0 (fun _ => 0%Q) [].
Definition steps_next (s : sim Q Q) : sim Q Q :=
  let d := clip_dt steps_conf (m_t s) (3 # 10)%Q in let z := maybe_save steps_conf s in
  Sim (add (m_t s) d) d (m_iteration s + 1) (m_times_saved z) (fun l => add (mem s l) one) (written z).
Lemma steps_forward n s s1 : loop steps_conf steps_dt steps_god n s s1 -> finished steps_conf s1 = false ->
  loop steps_conf steps_dt steps_god (S n) s (steps_next s1).
Proof. intros H F. eapply LoopMore; eauto. apply NextIteration; [discriminate|reflexivity|reflexivity]. Qed.
Example C16_C18_constant_steps : exists s' : sim Q Q,
  run steps_conf steps_dt steps_god steps_start s' /\ m_t s' = 1%Q /\ m_iteration s' = 4 /\
  rev (map sn_num (written s')) = [0; 1; 2; 3] /\ rev (map sn_time (written s')) = [0; 3 # 5; 9 # 10; 1]%Q /\
  rev (map sn_array (written s')) = [aU; aU; aU2; aU].
Proof.
  exists (edge_save steps_conf (steps_next (steps_next (steps_next (steps_next (edge_save steps_conf steps_start)))))). split.
  - apply (Run _ _ _ _ _ 4 (steps_next (steps_next (steps_next (steps_next (edge_save steps_conf steps_start)))))); [|vm_compute; reflexivity|reflexivity].
    do 4 (apply steps_forward; [|vm_compute; reflexivity]). apply LoopZero.
  - split; [vm_compute; reflexivity|]. split; [vm_compute; reflexivity|]. split; [vm_compute; reflexivity|].
    split; vm_compute; reflexivity.
Qed.
