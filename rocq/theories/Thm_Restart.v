(** Theorems about restarting a run from a result file (property C73). *)
From Coq Require Import ZArith List Bool Reals Lia Lra.
From Verif Require Import Arith Par GridModel HydroState HydroKernels HydroSpec Physics ReduceModel IoModel LoopModel LoopSpec LoopProofs LoopHydro
  RestartModel RestartProofs RestartWitness Thm_Loop.
Import ListNotations.
Open Scope R_scope.

(** A run [s0 -> s'] that reached its end time, a snapshot [sn] it wrote, the
    result file [f] of that snapshot, a solver [r] restarted from [f] and any
    complete run [r -> r'] of it: same final time, same final data, and the
    restarted run writes exactly the files the first run wrote from [sn] on
    (numbers, times, data; lists are most recent first).
    The conditions on [sn]: before the end, and no second output due at the same
    time.  Gravity is disabled or the gravity field is zero. *)
Theorem C73_continue_2d : forall (p : hparams R) g lowest ge impl (c : lconf R) io ly1 ly2,
  impl = 0%Z \/ impl = 1%Z -> slope_ok p -> params_ok p -> 0 < dx p -> 0 < dy p -> lowest <= 0 -> halfResolution io = false ->
  forall (s0 s' r r' : sim R R) sn f, hydro_grid2 g -> riemann_ok2 p -> (0 < l_nOutput c)%Z ->
  (0 <= m_iteration s0)%Z -> written s0 = [] ->
  run c (hydro_dt2 p g lowest ge) (hydro_step2 p g ge impl) s0 s' -> l_tEnd c - / 100000000000000 <= m_t s' ->
  In sn (written s') -> (ge = true -> forall i j d, sn_mem sn (Loc aG i j 0 d) = 0) ->
  sn_time sn <= IZR (sn_num sn + 1) * (l_tEnd c / IZR (l_nOutput c)) -> sn_time sn <= l_tEnd c - / 1000000000000 ->
  snapshot_file false false g io ly1 sn f -> restarted false g io ly2 false f r ->
  run c (hydro_dt2 p g lowest ge) (hydro_step2 p g ge impl) r r' ->
  m_t r' = m_t s' /\ m_times_saved r' = m_times_saved s' /\
  (exists u, holds2 g u (current (m_iteration s')) (mem s') /\ holds2 g u (current (m_iteration r')) (mem r')) /\
  exists l rest, written s' = l ++ rest /\ last l sn = sn /\ l <> [] /\
    Forall2 (fun a b => sn_num a = sn_num b /\ sn_time a = sn_time b /\
               exists u, holds2 g u (sn_array a) (sn_mem a) /\ holds2 g u (sn_array b) (sn_mem b)) l (written r').
Proof. exact restart2. Qed.
Print Assumptions C73_continue_2d.

Theorem C73_continue_3d : forall (p : hparams R) g lowest ge impl (c : lconf R) io ly1 ly2,
  impl = 0%Z \/ impl = 1%Z -> slope_ok p -> params_ok p -> 0 < dx p -> 0 < dy p -> lowest <= 0 -> halfResolution io = false -> 0 < dz p ->
  forall (s0 s' r r' : sim R R) sn f, hydro_grid3 g -> riemann_ok3 p -> (0 < l_nOutput c)%Z ->
  (0 <= m_iteration s0)%Z -> written s0 = [] ->
  run c (hydro_dt3 p g lowest ge) (hydro_step3 p g ge impl) s0 s' -> l_tEnd c - / 100000000000000 <= m_t s' ->
  In sn (written s') -> (ge = true -> forall i j k d, sn_mem sn (Loc aG i j k d) = 0) ->
  sn_time sn <= IZR (sn_num sn + 1) * (l_tEnd c / IZR (l_nOutput c)) -> sn_time sn <= l_tEnd c - / 1000000000000 ->
  snapshot_file true false g io ly1 sn f -> restarted true g io ly2 false f r ->
  run c (hydro_dt3 p g lowest ge) (hydro_step3 p g ge impl) r r' ->
  m_t r' = m_t s' /\ m_times_saved r' = m_times_saved s' /\
  (exists u, holds3 g u (current (m_iteration s')) (mem s') /\ holds3 g u (current (m_iteration r')) (mem r')) /\
  exists l rest, written s' = l ++ rest /\ last l sn = sn /\ l <> [] /\
    Forall2 (fun a b => sn_num a = sn_num b /\ sn_time a = sn_time b /\
               exists u, holds3 g u (sn_array a) (sn_mem a) /\ holds3 g u (sn_array b) (sn_mem b)) l (written r').
Proof. exact restart3. Qed.
Print Assumptions C73_continue_3d.

(** Without the restriction on gravity the claim is false of the code: the
    restarted solver computes with no gravity, whatever field the first run had. *)
Theorem C73_gravity_lost_refuted : forall (p : hparams R) g io ly1 ly2 reset lowest sn f (r : sim R R) dt,
  halfResolution io = false -> params_ok p -> 0 < dx p -> 0 < dy p -> lowest <= 0 ->
  hydro_grid2 g -> snapshot_file false false g io ly1 sn f -> restarted false g io ly2 reset f r ->
  (forall i j d, mem r (Loc aG i j 0 d) = 0) /\
  (* the first run and the restarted run then take different time steps, e.g. for a strong field *)
  (forall i j, inside2 g i j -> hydro_dt2 p g lowest true aU (mem r) dt -> 0 < cfl p ->
     2 * Rmin (dx p) (dy p) * cfl p < Rabs (sn_mem sn (Loc aG i j 0 IX)) * (dt * dt) ->
     ~ hydro_dt2 p g lowest true (sn_array sn) (sn_mem sn) dt).
Proof.
  intros p g io ly1 ly2 reset lowest sn f r dt Hh Hp Hdx Hdy Hl Hg Hf Hr.
  destruct (restarted2 g io ly1 ly2 Hh reset sn f r Hg Hf Hr) as (_ & _ & _ & _ & _ & Z). split; [intros; apply Z|].
  intros i j Hi _ Hc Hb Hd. destruct (DtProofs.dt_gravity2 p g lowest Hp Hdx Hdy Hc Hl (sn_mem sn) (sn_array sn) dt Hg Hd) as (P & Q).
  specialize (Q i j Hi). assert (Hm : 0 < Rmin (dx p) (dy p)) by (unfold Rmin; destruct Rle_dec; lra).
  set (w := DtProofs.wave2 _ _) in Q. assert (0 <= w * dt / Rmin (dx p) (dy p)).
  { pose proof (DtProofs.wave2_pos p Hp (load_hs2 (sn_mem sn) (sn_array sn) i j)). fold w in H. apply Rlt_le, Rdiv_lt_0_compat; nra. }
  set (a := Rabs (sn_mem sn (Loc aG i j 0 IX))) in *. set (b := Rabs (sn_mem sn (Loc aG i j 0 IY))) in *.
  assert (0 <= b) by apply Rabs_pos.
  assert (cfl p < (a + b) * (dt * dt) / (2 * Rmin (dx p) (dy p))).
  { apply Rmult_lt_reg_r with (2 * Rmin (dx p) (dy p)); [lra|]. unfold Rdiv. rewrite Rmult_assoc, Rinv_l by lra. nra. }
  lra.
Qed.
Print Assumptions C73_gravity_lost_refuted.

(** When every step is written (nOutput < 0), the claim is false of the code for
    every snapshot taken inside the loop: the restarted run writes its starting
    point twice, so its next file number [n+1] holds the time of file [n], while
    the first run's file [n+1] holds the next step. *)
Theorem C73_every_step_refuted : forall (p : hparams R) g lowest ge impl (c : lconf R) io ly1 ly2,
  params_ok p -> 0 < dx p -> 0 < dy p -> 0 < cfl p -> lowest <= 0 -> halfResolution io = false -> hydro_grid2 g -> (l_nOutput c < 0)%Z ->
  let dtl := hydro_dt2 p g lowest ge in let god := hydro_step2 p g ge impl in
  forall n n' (s0 z s1 s2 s' r r' : sim R R) f,
  loop c dtl god n (edge_save c s0) z -> finished c z = false -> next_iteration c dtl god z s1 -> loop c dtl god n' s1 s2 -> finished c s2 = true ->
  s' = edge_save c s2 ->
  snapshot_file false false g io ly1 (Snap (m_times_saved z) (m_t z) (current (m_iteration z)) (mem z)) f -> restarted false g io ly2 false f r ->
  run c dtl god r r' -> finished c r = false ->
  exists a b, In a (written s') /\ In b (written r') /\ sn_num a = sn_num b /\ sn_time b < sn_time a.
Proof.
  intros p g lowest ge impl c io ly1 ly2 Hp Hdx Hdy Hc Hl Hh Hg Hn dtl god n n' s0 z s1 s2 s' r r' f L1 Fz N L2 F2 -> Hf Hr Hrun Fr.
  destruct (restarted2 g io ly1 ly2 Hh false _ f r Hg Hf Hr) as (R1 & R2 & _). cbn [sn_time sn_num] in R1, R2.
  assert (Es : forall x : sim R R, edge_save c x = save_solution x).
  { intros x. unfold edge_save. destruct (Z.eqb_spec (l_nOutput c) 0); [lia|reflexivity]. }
  assert (MS : forall x : sim R R, maybe_save c x = save_solution x).
  { intros x. unfold maybe_save, enableOutput, should_save_solution. destruct (Z.eqb_spec (l_nOutput c) 0); [lia|].
    destruct (Z.ltb_spec (l_nOutput c) 0); [reflexivity|lia]. }
  assert (Hpos : forall a m d, dtl a m d -> 0 < d) by (intros; eapply positive2; eauto).
  assert (T1 : m_t z < m_t s1 /\ m_times_saved s1 = (m_times_saved z + 1)%Z).
  { destruct (finished_false c z Fz) as (B & _). destruct N as [d m' _ D _]. cbn [m_t m_times_saved]. rewrite MS. cbn [save_solution m_times_saved]. split; auto.
    pose proof (Hpos _ _ _ D). cbn [add RArith]. destruct (clip_cases c (m_t z) d) as [(_ & ->)|(_ & ->)]; lra. }
  exists (Snap (m_times_saved s1) (m_t s1) (current (m_iteration s1)) (mem s1)), (Snap (m_times_saved r + 1) (m_t r) (current (m_iteration r)) (mem r)).
  split; [|split; [|split]].
  - rewrite Es. cbn [save_solution written]. destruct n' as [|n'].
    + inversion L2; subst. left. reflexivity.
    + right. destruct (first_again c dtl god (S n') s1 s2 Hn L2) as (l & E); [lia|]. rewrite E. apply in_or_app. right. left. reflexivity.
  - destruct Hrun as [k r1 L F ->]. rewrite Es in L |- *. destruct k as [|k].
    + inversion L; subst. unfold finished, save_solution in F, Fr. cbn in F, Fr. congruence.
    + destruct (first_again c dtl god (S k) (save_solution r) r1 Hn L) as (l & E); [lia|]. cbn [save_solution written]. rewrite E. right.
      apply in_or_app. right. left. reflexivity.
  - cbn [sn_num]. rewrite R2. apply T1.
  - cbn [sn_time]. rewrite R1. apply T1.
Qed.
Print Assumptions C73_every_step_refuted.

(** ** Cases meeting the hypotheses *)
(** Every snapshot has a file, every file restarts a solver, and every restarted solver runs to its end; here: a two-density field in
    a periodic box, written with ghost cells from one memory layout and read into the other. *)
Example C73_hypotheses_hold : let io := IoConf true false false false in
  (0 = 0 \/ 0 = 1)%Z /\ slope_ok rgas /\ params_ok rgas /\ hydro_grid2 rbox /\ riemann_ok2 rgas /\
  exists s' r r' f, let sn := Snap 0 0 aU stripes in
  run rconf (hydro_dt2 rgas rbox (-1000) false) (hydro_step2 rgas rbox false 0) rstart s' /\ l_tEnd rconf - / 100000000000000 <= m_t s' /\
  In sn (written s') /\ sn_time sn <= IZR (sn_num sn + 1) * (l_tEnd rconf / IZR (l_nOutput rconf)) /\ sn_time sn <= l_tEnd rconf - / 1000000000000 /\
  snapshot_file false false rbox io LayoutLeft sn f /\ restarted false rbox io LayoutRight false f r /\
  run rconf (hydro_dt2 rgas rbox (-1000) false) (hydro_step2 rgas rbox false 0) r r'.
Proof.
  intros io. split; [left; reflexivity|]. split; [exact (Thm_Symmetry.gas_slope RIEMANN_HLLC)|]. split; [unfold params_ok, rgas; cbn; lra|].
  split; [unfold hydro_grid2; cbn; lia|]. split; [cbn; auto|].
  destruct stripes_run as (s' & H1 & H2 & H3).
  destruct (file_exists false false rbox io LayoutLeft (Snap 0%Z 0 aU stripes)) as (f & Hf).
  destruct (restart_exists false rbox io LayoutRight false f) as (r & Hr).
  destruct (C17_terminates_hydro_2d R RArith rgas rbox (-1000) false 0 rconf ltac:(discriminate) r) as (r' & H').
  exists s', r, r', f. cbn [sn_time sn_num]. split; [exact H1|]. split; [rewrite H2; lra|]. split; [exact H3|].
  split; [cbn; lra|]. split; [cbn; lra|]. auto.
Qed.
