(** Restarting a run from a result file in double precision (property C73). *)
From Coq Require Import ZArith List Bool Reals Lia Lra.
From Verif Require Import Arith Par GridModel HydroState HydroKernels HydroSpec ReduceModel IoModel LoopModel LoopSpec LoopProofs LoopHydro RestartModel RestartProofs RestartWitness
  MhdState MhdRiemann MhdPoint MhdSpec MhdSpec3 MhdLoop2 MhdLoop3 RestartMhd RestartMhdProofs RestartMhdWitness Float64
  RestartRound RestartRoundWitness RestartRoundWitnessMhd Thm_Loop Thm_Mpi Thm_RestartMhd.
Import ListNotations.
Open Scope R_scope.

(** As in C73_continue_2d, for exact reals and for IEEE double precision without
    overflow, and for every setting: a run [s0 -> s'] that reached its end time, a
    snapshot [sn] it wrote before the end, the result file [f] of that snapshot,
    a solver [r] restarted from [f] and any complete run [r -> r'] of it have the
    same final time and the same final data, bit for bit, and the restarted run
    writes exactly the files the first run wrote from [sn] on.  The condition on
    [should_save_solution]: at the time of the snapshot, with one more file
    counted as written, the output schedule asks for no further file. *)
Theorem C73_rounded_2d : forall (A : Arith R), exact_or_double A ->
  forall (p : hparams R) g lowest ge impl (c : lconf R) io ly1 ly2,
  impl = 0%Z \/ impl = 1%Z -> slope_ok p -> halfResolution io = false ->
  forall (s0 s' r r' : sim R R) sn f, hydro_grid2 g -> riemann_ok2 p -> (0 <= m_iteration s0)%Z -> written s0 = [] ->
  run c (hydro_dt2 p g lowest ge) (hydro_step2 p g ge impl) s0 s' -> leb (sub (l_tEnd c) (lit 1 100000000000000)) (m_t s') = true ->
  In sn (written s') -> (ge = true -> gravity_is2 (fun _ _ _ => zero) (sn_mem sn)) ->
  leb (sub (l_tEnd c) (lit 1 100000000000000)) (sn_time sn) = false ->
  (forall z : sim R R, m_times_saved z = (sn_num sn + 1)%Z -> m_t z = sn_time sn -> should_save_solution c z = false) ->
  snapshot_file false false g io ly1 sn f -> restarted false g io ly2 false f r ->
  run c (hydro_dt2 p g lowest ge) (hydro_step2 p g ge impl) r r' ->
  m_t r' = m_t s' /\ m_times_saved r' = m_times_saved s' /\
  (exists u, holds2 g u (current (m_iteration s')) (mem s') /\ holds2 g u (current (m_iteration r')) (mem r')) /\
  exists l rest, written s' = l ++ rest /\ last l sn = sn /\ l <> [] /\
    Forall2 (fun a b => sn_num a = sn_num b /\ sn_time a = sn_time b /\
               exists u, holds2 g u (sn_array a) (sn_mem a) /\ holds2 g u (sn_array b) (sn_mem b)) l (written r').
Proof. intros A HA p g lowest ge impl c io ly1 ly2 Hi Hs Hres. exact (round_restart2 (eod_max A HA) p g lowest ge impl Hi Hs c io ly1 ly2 Hres). Qed.
Print Assumptions C73_rounded_2d.

Theorem C73_rounded_3d : forall (A : Arith R), exact_or_double A ->
  forall (p : hparams R) g lowest ge impl (c : lconf R) io ly1 ly2,
  impl = 0%Z \/ impl = 1%Z -> slope_ok p -> halfResolution io = false ->
  forall (s0 s' r r' : sim R R) sn f, hydro_grid3 g -> riemann_ok3 p -> (0 <= m_iteration s0)%Z -> written s0 = [] ->
  run c (hydro_dt3 p g lowest ge) (hydro_step3 p g ge impl) s0 s' -> leb (sub (l_tEnd c) (lit 1 100000000000000)) (m_t s') = true ->
  In sn (written s') -> (ge = true -> gravity_is3 (fun _ _ _ _ => zero) (sn_mem sn)) ->
  leb (sub (l_tEnd c) (lit 1 100000000000000)) (sn_time sn) = false ->
  (forall z : sim R R, m_times_saved z = (sn_num sn + 1)%Z -> m_t z = sn_time sn -> should_save_solution c z = false) ->
  snapshot_file true false g io ly1 sn f -> restarted true g io ly2 false f r ->
  run c (hydro_dt3 p g lowest ge) (hydro_step3 p g ge impl) r r' ->
  m_t r' = m_t s' /\ m_times_saved r' = m_times_saved s' /\
  (exists u, holds3 g u (current (m_iteration s')) (mem s') /\ holds3 g u (current (m_iteration r')) (mem r')) /\
  exists l rest, written s' = l ++ rest /\ last l sn = sn /\ l <> [] /\
    Forall2 (fun a b => sn_num a = sn_num b /\ sn_time a = sn_time b /\
               exists u, holds3 g u (sn_array a) (sn_mem a) /\ holds3 g u (sn_array b) (sn_mem b)) l (written r').
Proof. intros A HA p g lowest ge impl c io ly1 ly2 Hi Hs Hres. exact (round_restart3 (eod_max A HA) p g lowest ge impl Hi Hs c io ly1 ly2 Hres). Qed.
Print Assumptions C73_rounded_3d.

(** MHD, variant 0 of the scheme (fluxes stored in arrays). *)
Theorem C73_rounded_mhd_2d : forall (A : Arith R), exact_or_double A ->
  forall (p : mparams R) g lowest (c : lconf R) io ly1 ly2, mriemann_ok p -> halfResolution io = false ->
  forall (s0 s' r r' : sim R R) sn f, mhd_grid2 g -> mslope_ok p -> (0 <= m_iteration s0)%Z -> written s0 = [] ->
  run c (mhd_dt2 p g lowest) (mhd_step2 p g 0) s0 s' -> leb (sub (l_tEnd c) (lit 1 100000000000000)) (m_t s') = true ->
  In sn (written s') -> leb (sub (l_tEnd c) (lit 1 100000000000000)) (sn_time sn) = false ->
  (forall z : sim R R, m_times_saved z = (sn_num sn + 1)%Z -> m_t z = sn_time sn -> should_save_solution c z = false) ->
  snapshot_file false true g io ly1 sn f -> restarted_mhd false p g io ly2 false f r ->
  run c (mhd_dt2 p g lowest) (mhd_step2 p g 0) r r' ->
  m_t r' = m_t s' /\ m_times_saved r' = m_times_saved s' /\
  (exists u, mholds2 g u (current (m_iteration s')) (mem s') /\ mholds2 g u (current (m_iteration r')) (mem r')) /\
  exists l rest, written s' = l ++ rest /\ last l sn = sn /\ l <> [] /\
    Forall2 (fun a b => sn_num a = sn_num b /\ sn_time a = sn_time b /\
               exists u, mholds2 g u (sn_array a) (sn_mem a) /\ mholds2 g u (sn_array b) (sn_mem b)) l (written r').
Proof. intros A HA p g lowest c io ly1 ly2 Hr Hres. exact (round_restart_mhd2 (eod_max A HA) p g lowest Hr c io ly1 ly2 Hres). Qed.
Print Assumptions C73_rounded_mhd_2d.

Theorem C73_rounded_mhd_3d : forall (A : Arith R), exact_or_double A ->
  forall (p : mparams R) g lowest (c : lconf R) io ly1 ly2, mriemann_ok p -> halfResolution io = false ->
  forall (s0 s' r r' : sim R R) sn f, mhd_grid3 g -> (0 <= m_iteration s0)%Z -> written s0 = [] ->
  run c (mhd_dt3 p g lowest) (mhd_step3 p g 0) s0 s' -> leb (sub (l_tEnd c) (lit 1 100000000000000)) (m_t s') = true ->
  In sn (written s') -> leb (sub (l_tEnd c) (lit 1 100000000000000)) (sn_time sn) = false ->
  (forall z : sim R R, m_times_saved z = (sn_num sn + 1)%Z -> m_t z = sn_time sn -> should_save_solution c z = false) ->
  snapshot_file true true g io ly1 sn f -> restarted_mhd true p g io ly2 false f r ->
  run c (mhd_dt3 p g lowest) (mhd_step3 p g 0) r r' ->
  m_t r' = m_t s' /\ m_times_saved r' = m_times_saved s' /\
  (exists u, mholds3 g u (current (m_iteration s')) (mem s') /\ mholds3 g u (current (m_iteration r')) (mem r')) /\
  exists l rest, written s' = l ++ rest /\ last l sn = sn /\ l <> [] /\
    Forall2 (fun a b => sn_num a = sn_num b /\ sn_time a = sn_time b /\
               exists u, mholds3 g u (sn_array a) (sn_mem a) /\ mholds3 g u (sn_array b) (sn_mem b)) l (written r').
Proof. intros A HA p g lowest c io ly1 ly2 Hr Hres. exact (round_restart_mhd3 (eod_max A HA) p g lowest Hr c io ly1 ly2 Hres). Qed.
Print Assumptions C73_rounded_mhd_3d.

(** ** Cases meeting the hypotheses, in double precision: stripes of two densities
    at rest in a periodic box, written with ghost cells from one memory layout and
    read into the other, without and with a magnetic field. *)
#[local] Existing Instance B64.
Example C73_rounded_settings :
  @slope_ok R B64 dgas /\ @slope_ok R B64 dgas3 /\ riemann_ok2 dgas /\ riemann_ok3 dgas3 /\ hydro_grid2 dbox2 /\ hydro_grid3 dbox /\
  mriemann_ok dplasma /\ @mslope_ok R B64 dplasma /\ mhd_grid2 dmbox /\ mhd_grid3 dmbox.
Proof.
  assert (E : @eqb R B64 1 one = true) by (cbn; destruct Req_EM_T; auto; exfalso; lra).
  split; [right; left; exact E|]. split; [right; left; exact E|]. split; [cbn; auto|]. split; [cbn; auto|].
  split; [unfold hydro_grid2; cbn; lia|]. split; [unfold hydro_grid3, hydro_grid2; cbn; lia|].
  split; [cbn; auto|]. split; [left; exact E|]. split; [unfold mhd_grid2; cbn; lia|unfold mhd_grid3, mhd_grid2; cbn; lia].
Qed.
Example C73_rounded_hypotheses_hold_2d : let io := IoConf true false false false in
  exists s' r r' f, let sn := Snap 0 0 aU dstripes in
  run (AT := B64) dconf (hydro_dt2 (A := B64) dgas dbox2 (-1000) false) (hydro_step2 (A := B64) dgas dbox2 false 1) (dstart dstripes) s' /\
  leb (sub (l_tEnd dconf) (lit 1 100000000000000)) (m_t s') = true /\ In sn (written s') /\
  leb (sub (l_tEnd dconf) (lit 1 100000000000000)) (sn_time sn) = false /\
  (forall z : sim R R, m_times_saved z = (sn_num sn + 1)%Z -> m_t z = sn_time sn -> should_save_solution (AT := B64) dconf z = false) /\
  snapshot_file false false dbox2 io LayoutLeft sn f /\ restarted (AT := B64) (A := B64) false dbox2 io LayoutRight false f r /\
  run (AT := B64) dconf (hydro_dt2 (A := B64) dgas dbox2 (-1000) false) (hydro_step2 (A := B64) dgas dbox2 false 1) r r'.
Proof.
  intros io. destruct (hydro_dt2_total (A := B64) dgas dbox2 (-1000) false aU dstripes) as (d & Hd).
  destruct (one_step_run (hydro_dt2 (A := B64) dgas dbox2 (-1000) false) (hydro_step2 (A := B64) dgas dbox2 false 1) dstripes d Hd (dt2_quarter d Hd))
    as (s' & H1 & H2 & H3); [intros; apply hydro_step2_total|].
  destruct (file_exists false false dbox2 io LayoutLeft (Snap 0%Z 0 aU dstripes)) as (f & Hf).
  destruct (restart_exists (AT := B64) (A := B64) false dbox2 io LayoutRight false f) as (r & Hr).
  destruct (C17_terminates_hydro_2d R B64 dgas dbox2 (-1000) false 1 dconf ltac:(discriminate) r) as (r' & H').
  exists s', r, r', f. cbn [sn_time sn_num]. split; [exact H1|]. split; [rewrite H2; exact at_end|]. split; [exact H3|].
  split; [exact before_end|]. split; [exact not_due_again|]. auto.
Qed.
Example C73_rounded_hypotheses_hold_3d : let io := IoConf true false false false in
  exists s' r r' f, let sn := Snap 0 0 aU dstripes in
  run (AT := B64) dconf (hydro_dt3 (A := B64) dgas3 dbox (-1000) false) (hydro_step3 (A := B64) dgas3 dbox false 1) (dstart dstripes) s' /\
  leb (sub (l_tEnd dconf) (lit 1 100000000000000)) (m_t s') = true /\ In sn (written s') /\
  leb (sub (l_tEnd dconf) (lit 1 100000000000000)) (sn_time sn) = false /\
  (forall z : sim R R, m_times_saved z = (sn_num sn + 1)%Z -> m_t z = sn_time sn -> should_save_solution (AT := B64) dconf z = false) /\
  snapshot_file true false dbox io LayoutLeft sn f /\ restarted (AT := B64) (A := B64) true dbox io LayoutRight false f r /\
  run (AT := B64) dconf (hydro_dt3 (A := B64) dgas3 dbox (-1000) false) (hydro_step3 (A := B64) dgas3 dbox false 1) r r'.
Proof.
  intros io. destruct (hydro_dt3_total (A := B64) dgas3 dbox (-1000) false aU dstripes) as (d & Hd).
  destruct (one_step_run (hydro_dt3 (A := B64) dgas3 dbox (-1000) false) (hydro_step3 (A := B64) dgas3 dbox false 1) dstripes d Hd (dt3_quarter d Hd))
    as (s' & H1 & H2 & H3); [intros; apply hydro_step3_total|].
  destruct (file_exists true false dbox io LayoutLeft (Snap 0%Z 0 aU dstripes)) as (f & Hf).
  destruct (restart_exists (AT := B64) (A := B64) true dbox io LayoutRight false f) as (r & Hr).
  destruct (C17_terminates_hydro_3d R B64 dgas3 dbox (-1000) false 1 dconf ltac:(discriminate) r) as (r' & H').
  exists s', r, r', f. cbn [sn_time sn_num]. split; [exact H1|]. split; [rewrite H2; exact at_end|]. split; [exact H3|].
  split; [exact before_end|]. split; [exact not_due_again|]. auto.
Qed.
Example C73_rounded_mhd_hypotheses_hold_2d : let io := IoConf true false false false in
  exists s' r r' f, let sn := Snap 0 0 aU (dmstripes 2) in
  run (AT := B64) dconf (mhd_dt2 dplasma dmbox (-1000)) (mhd_step2 dplasma dmbox 0) (dstart (dmstripes 2)) s' /\
  leb (sub (l_tEnd dconf) (lit 1 100000000000000)) (m_t s') = true /\ In sn (written s') /\
  leb (sub (l_tEnd dconf) (lit 1 100000000000000)) (sn_time sn) = false /\
  (forall z : sim R R, m_times_saved z = (sn_num sn + 1)%Z -> m_t z = sn_time sn -> should_save_solution (AT := B64) dconf z = false) /\
  snapshot_file false true dmbox io LayoutLeft sn f /\ restarted_mhd (AT := B64) (A := B64) false dplasma dmbox io LayoutRight false f r /\
  run (AT := B64) dconf (mhd_dt2 dplasma dmbox (-1000)) (mhd_step2 dplasma dmbox 0) r r'.
Proof.
  intros io. destruct (mhd_dt2_total (AT := B64) dplasma dmbox (-1000) 0 (dmstripes 2)) as (d & Hd).
  destruct (RestartRoundWitness.one_step_run (mhd_dt2 dplasma dmbox (-1000)) (mhd_step2 dplasma dmbox 0) (dmstripes 2) d Hd (dmdt2 d Hd))
    as (s' & H1 & H2 & H3); [apply mhd_step2_total|].
  destruct (file_exists false true dmbox io LayoutLeft (Snap 0%Z 0 aU (dmstripes 2))) as (f & Hf).
  destruct (restart_mhd_exists (AT := B64) (A := B64) false dplasma dmbox io LayoutRight false f) as (r & Hr).
  destruct (C17_terminates_mhd_2d R B64 dplasma dmbox (-1000) 0 dconf ltac:(discriminate) r) as (r' & H').
  exists s', r, r', f. cbn [sn_time sn_num]. split; [exact H1|]. split; [rewrite H2; exact at_end|]. split; [exact H3|].
  split; [exact before_end|]. split; [exact not_due_again|]. auto.
Qed.
Example C73_rounded_mhd_hypotheses_hold_3d : let io := IoConf true false false false in
  exists s' r r' f, let sn := Snap 0 0 aU (dmstripes 1) in
  run (AT := B64) dconf (mhd_dt3 dplasma dmbox (-1000)) (mhd_step3 dplasma dmbox 0) (dstart (dmstripes 1)) s' /\
  leb (sub (l_tEnd dconf) (lit 1 100000000000000)) (m_t s') = true /\ In sn (written s') /\
  leb (sub (l_tEnd dconf) (lit 1 100000000000000)) (sn_time sn) = false /\
  (forall z : sim R R, m_times_saved z = (sn_num sn + 1)%Z -> m_t z = sn_time sn -> should_save_solution (AT := B64) dconf z = false) /\
  snapshot_file true true dmbox io LayoutLeft sn f /\ restarted_mhd (AT := B64) (A := B64) true dplasma dmbox io LayoutRight false f r /\
  run (AT := B64) dconf (mhd_dt3 dplasma dmbox (-1000)) (mhd_step3 dplasma dmbox 0) r r'.
Proof.
  intros io. destruct (mhd_dt3_total (AT := B64) dplasma dmbox (-1000) 0 (dmstripes 1)) as (d & Hd).
  destruct (RestartRoundWitness.one_step_run (mhd_dt3 dplasma dmbox (-1000)) (mhd_step3 dplasma dmbox 0) (dmstripes 1) d Hd (dmdt3 d Hd))
    as (s' & H1 & H2 & H3); [apply mhd_step3_total|].
  destruct (file_exists true true dmbox io LayoutLeft (Snap 0%Z 0 aU (dmstripes 1))) as (f & Hf).
  destruct (restart_mhd_exists (AT := B64) (A := B64) true dplasma dmbox io LayoutRight false f) as (r & Hr).
  destruct (C17_terminates_mhd_3d R B64 dplasma dmbox (-1000) 0 dconf ltac:(discriminate) r) as (r' & H').
  exists s', r, r', f. cbn [sn_time sn_num]. split; [exact H1|]. split; [rewrite H2; exact at_end|]. split; [exact H3|].
  split; [exact before_end|]. split; [exact not_due_again|]. auto.
Qed.
