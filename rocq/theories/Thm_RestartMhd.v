(** Theorems about restarting an MHD run from a result file (property C73), and
    completion of MHD runs (property C17). *)
From Coq Require Import ZArith List Bool Reals Lia Lra.
From Verif Require Import Arith Par GridModel HydroState HydroKernels HydroSpec ReduceModel IoModel LoopModel LoopSpec LoopProofs
  MhdState MhdRiemann MhdPoint MhdSpec MhdSpec3 MhdPhysics MhdLoop2 MhdLoop3 RestartModel RestartMhd RestartMhdProofs RestartWitness RestartMhdWitness.
Import ListNotations.
Open Scope R_scope.

(** A run [s0 -> s'] that reached its end time, a snapshot [sn] it wrote, the
    result file [f] of that snapshot, a solver [r] restarted from [f] and any
    complete run [r -> r'] of it: same final time, same final data, and the
    restarted run writes exactly the files the first run wrote from [sn] on
    (numbers, times, data; lists are most recent first).  [mholds2 g u a m]: the
    eight variables of the interior cells of array [a] in memory [m] are [u]. *)
Theorem C73_continue_mhd_2d : forall (p : mparams R) g lowest impl (c : lconf R) io ly1 ly2,
  mriemann_ok p -> mhd_params_ok p -> 0 < dx (mh p) -> 0 < dy (mh p) -> 0 < cfl (mh p) -> lowest <= 0 -> halfResolution io = false ->
  forall (s0 s' r r' : sim R R) sn f, mhd_grid2 g -> mslope_ok p -> variant_ok2 p impl -> (0 < l_nOutput c)%Z ->
  (0 <= m_iteration s0)%Z -> written s0 = [] ->
  run c (mhd_dt2 p g lowest) (mhd_step2 p g impl) s0 s' -> l_tEnd c - / 100000000000000 <= m_t s' ->
  In sn (written s') ->
  sn_time sn <= IZR (sn_num sn + 1) * (l_tEnd c / IZR (l_nOutput c)) -> sn_time sn <= l_tEnd c - / 1000000000000 ->
  snapshot_file false true g io ly1 sn f -> restarted_mhd false p g io ly2 false f r ->
  run c (mhd_dt2 p g lowest) (mhd_step2 p g impl) r r' ->
  m_t r' = m_t s' /\ m_times_saved r' = m_times_saved s' /\
  (exists u, mholds2 g u (current (m_iteration s')) (mem s') /\ mholds2 g u (current (m_iteration r')) (mem r')) /\
  exists l rest, written s' = l ++ rest /\ last l sn = sn /\ l <> [] /\
    Forall2 (fun a b => sn_num a = sn_num b /\ sn_time a = sn_time b /\
               exists u, mholds2 g u (sn_array a) (sn_mem a) /\ mholds2 g u (sn_array b) (sn_mem b)) l (written r').
Proof. exact restart_mhd2. Qed.
Print Assumptions C73_continue_mhd_2d.

Theorem C73_continue_mhd_3d : forall (p : mparams R) g lowest impl (c : lconf R) io ly1 ly2,
  mriemann_ok p -> mhd_params_ok p -> 0 < dx (mh p) -> 0 < dy (mh p) -> 0 < cfl (mh p) -> lowest <= 0 -> halfResolution io = false -> 0 < dz (mh p) ->
  forall (s0 s' r r' : sim R R) sn f, mhd_grid3 g -> variant_ok3 p impl -> (0 < l_nOutput c)%Z ->
  (0 <= m_iteration s0)%Z -> written s0 = [] ->
  run c (mhd_dt3 p g lowest) (mhd_step3 p g impl) s0 s' -> l_tEnd c - / 100000000000000 <= m_t s' ->
  In sn (written s') ->
  sn_time sn <= IZR (sn_num sn + 1) * (l_tEnd c / IZR (l_nOutput c)) -> sn_time sn <= l_tEnd c - / 1000000000000 ->
  snapshot_file true true g io ly1 sn f -> restarted_mhd true p g io ly2 false f r ->
  run c (mhd_dt3 p g lowest) (mhd_step3 p g impl) r r' ->
  m_t r' = m_t s' /\ m_times_saved r' = m_times_saved s' /\
  (exists u, mholds3 g u (current (m_iteration s')) (mem s') /\ mholds3 g u (current (m_iteration r')) (mem r')) /\
  exists l rest, written s' = l ++ rest /\ last l sn = sn /\ l <> [] /\
    Forall2 (fun a b => sn_num a = sn_num b /\ sn_time a = sn_time b /\
               exists u, mholds3 g u (sn_array a) (sn_mem a) /\ mholds3 g u (sn_array b) (sn_mem b)) l (written r').
Proof. exact restart_mhd3. Qed.
Print Assumptions C73_continue_mhd_3d.

(** Every MHD run can be completed, for any arithmetic and any settings. *)
Theorem C17_terminates_mhd_2d : forall (T : Type) (A : Arith T) (p : mparams T) g lowest impl (c : lconf T),
  l_nlog c <> 0%Z -> forall s, exists s', run c (mhd_dt2 p g lowest) (mhd_step2 p g impl) s s'.
Proof. intros. apply loop_total_current; auto. - apply mhd_dt2_total. - apply mhd_step2_total. Qed.
Print Assumptions C17_terminates_mhd_2d.
Theorem C17_terminates_mhd_3d : forall (T : Type) (A : Arith T) (p : mparams T) g lowest impl (c : lconf T),
  l_nlog c <> 0%Z -> forall s, exists s', run c (mhd_dt3 p g lowest) (mhd_step3 p g impl) s s'.
Proof. intros. apply loop_total_current; auto. - apply mhd_dt3_total. - apply mhd_step3_total. Qed.
Print Assumptions C17_terminates_mhd_3d.

(** ** Cases meeting the hypotheses: stripes of two densities in an oblique field, in a periodic box,
    written with ghost cells from one memory layout and read into the other. *)
Example C73_mhd_settings : mriemann_ok mplasma /\ mhd_params_ok mplasma /\ mhd_grid3 mbox /\ mslope_ok mplasma /\
  variant_ok2 mplasma 2 /\ variant_ok3 mplasma 2.
Proof.
  assert (S : mslope_ok mplasma) by (left; cbn; destruct Req_EM_T; auto; lra).
  assert (Q : mriemann_ok mplasma) by (cbn; auto).
  split; [exact Q|]. split; [unfold mhd_params_ok; cbn; lra|]. split; [unfold mhd_grid3, mhd_grid2; cbn; lia|].
  split; [exact S|]. split; right; right; auto.
Qed.
Example C73_mhd_hypotheses_hold_2d : let io := IoConf true false false false in
  exists s' r r' f, let sn := Snap 0 0 aU mstripes in
  run rconf (mhd_dt2 mplasma mbox (-1000)) (mhd_step2 mplasma mbox 2) (Sim 0 0 0 0 mstripes []) s' /\ l_tEnd rconf - / 100000000000000 <= m_t s' /\
  In sn (written s') /\ sn_time sn <= IZR (sn_num sn + 1) * (l_tEnd rconf / IZR (l_nOutput rconf)) /\ sn_time sn <= l_tEnd rconf - / 1000000000000 /\
  snapshot_file false true mbox io LayoutLeft sn f /\ restarted_mhd false mplasma mbox io LayoutRight false f r /\
  run rconf (mhd_dt2 mplasma mbox (-1000)) (mhd_step2 mplasma mbox 2) r r'.
Proof.
  intros io. destruct (mhd_dt2_total mplasma mbox (-1000) 0 mstripes) as (d & Hd).
  destruct (one_step_run (mhd_dt2 mplasma mbox (-1000)) (mhd_step2 mplasma mbox 2) mstripes d Hd (mstripes_dt2 d Hd)) as (s' & H1 & H2 & H3); [apply mhd_step2_total|].
  destruct (file_exists false true mbox io LayoutLeft (Snap 0%Z 0 aU mstripes)) as (f & Hf).
  destruct (restart_mhd_exists false mplasma mbox io LayoutRight false f) as (r & Hr).
  destruct (C17_terminates_mhd_2d R RArith mplasma mbox (-1000) 2 rconf ltac:(discriminate) r) as (r' & H').
  exists s', r, r', f. cbn [sn_time sn_num]. split; [exact H1|]. split; [rewrite H2; lra|]. split; [exact H3|].
  split; [cbn; lra|]. split; [cbn; lra|]. auto.
Qed.
Example C73_mhd_hypotheses_hold_3d : let io := IoConf true false false false in
  exists s' r r' f, let sn := Snap 0 0 aU mstripes in
  run rconf (mhd_dt3 mplasma mbox (-1000)) (mhd_step3 mplasma mbox 2) (Sim 0 0 0 0 mstripes []) s' /\ l_tEnd rconf - / 100000000000000 <= m_t s' /\
  In sn (written s') /\ sn_time sn <= IZR (sn_num sn + 1) * (l_tEnd rconf / IZR (l_nOutput rconf)) /\ sn_time sn <= l_tEnd rconf - / 1000000000000 /\
  snapshot_file true true mbox io LayoutLeft sn f /\ restarted_mhd true mplasma mbox io LayoutRight false f r /\
  run rconf (mhd_dt3 mplasma mbox (-1000)) (mhd_step3 mplasma mbox 2) r r'.
Proof.
  intros io. destruct (mhd_dt3_total mplasma mbox (-1000) 0 mstripes) as (d & Hd).
  destruct (one_step_run (mhd_dt3 mplasma mbox (-1000)) (mhd_step3 mplasma mbox 2) mstripes d Hd (mstripes_dt3 d Hd)) as (s' & H1 & H2 & H3); [apply mhd_step3_total|].
  destruct (file_exists true true mbox io LayoutLeft (Snap 0%Z 0 aU mstripes)) as (f & Hf).
  destruct (restart_mhd_exists true mplasma mbox io LayoutRight false f) as (r & Hr).
  destruct (C17_terminates_mhd_3d R RArith mplasma mbox (-1000) 2 rconf ltac:(discriminate) r) as (r' & H').
  exists s', r, r', f. cbn [sn_time sn_num]. split; [exact H1|]. split; [rewrite H2; lra|]. split; [exact H3|].
  split; [cbn; lra|]. split; [cbn; lra|]. auto.
Qed.
