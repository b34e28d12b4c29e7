(** C92: the timing report. *)
From Coq Require Import Reals List Bool ZArith Lra Lia.
From Verif Require Import FactoryModel TimerModel.
Import ListNotations.
Open Scope R_scope.

Definition mhd (s : solver) : bool := match s with SolverMHDMuscl _ => true | _ => false end.

Lemma exec_app a b : forall m t m' t', exec m t (a ++ b) m' t' ->
  exists m1 t1, exec m t a m1 t1 /\ exec m1 t1 b m' t'.
Proof.
  induction a as [|e a IH]; cbn [app]; intros m t m' t' H.
  - exists m, t. split; [constructor|exact H].
  - inversion H as [|? ? ? ? ? ? now L X]; subst. destruct (IH _ _ _ _ X) as (m1 & t1 & A & B).
    exists m1, t1. split; [econstructor; eassumption|exact B].
Qed.
Ltac unroll := repeat match goal with
  | H : exec _ _ (_ :: _) _ _ |- _ => inversion H; subst; clear H
  | H : exec _ _ [] _ _ |- _ => inversion H; subst; clear H
  end.
(** What a part of the program leaves behind, [t] to [t'] being the time it takes. *)
Definition passes (s : solver) (m : timers) (t : R) (m' : timers) (t' : R) : Prop :=
  t <= t' /\ m' TIMER_TOTAL = m TIMER_TOTAL /\
  (forall i, total_time (m i) <= total_time (m' i)) /\
  (let d i := total_time (m' i) - total_time (m i) in
   (if mhd s then 0 else d TIMER_DT) + d TIMER_BOUNDARIES + d TIMER_NUM_SCHEME + d TIMER_IO <= t' - t /\
   (mhd s = true -> d TIMER_DT <= d TIMER_NUM_SCHEME)).
Ltac crunch := cbn [act upd t_start t_stop tid_eqb total_time start_time] in *.
Lemma passes_refl s m t : passes s m t m t.
Proof.
  split; [lra|]. split; [reflexivity|]. split; [intros; lra|]. destruct (mhd s); cbn zeta; split; intros; lra.
Qed.
Lemma passes_trans s m t m1 t1 m2 t2 : passes s m t m1 t1 -> passes s m1 t1 m2 t2 -> passes s m t m2 t2.
Proof.
  intros (A1 & A2 & A3 & A4 & A5) (B1 & B2 & B3 & B4 & B5). cbn zeta in *.
  split; [lra|]. split; [congruence|]. split; [intros i; specialize (A3 i); specialize (B3 i); lra|].
  cbn zeta. destruct (mhd s); split; try intros E; try specialize (A5 eq_refl); try specialize (B5 eq_refl); try discriminate; lra.
Qed.
Lemma save_passes s m t m' t' : exec m t save_events m' t' -> passes s m t m' t'.
Proof.
  intros H. unfold save_events in H. unroll. unfold passes. crunch.
  split; [lra|]. split; [reflexivity|]. split; [intros []; crunch; lra|]. cbn zeta. crunch.
  destruct (mhd s); split; intros; lra.
Qed.
Lemma step_passes s m t m' t' : exec m t (step_events s) m' t' -> passes s m t m' t'.
Proof.
  intros H. destruct s; cbn [step_events] in H; unroll; unfold passes; crunch;
    (split; [lra|]; split; [reflexivity|]; split; [intros []; crunch; lra|]; cbn zeta; crunch; cbn [mhd];
     split; [lra|intros E; first [discriminate E|lra]]).
Qed.
Lemma opt_save_passes s (o : bool) m t m' t' :
  exec m t (if o then save_events else []) m' t' -> passes s m t m' t'.
Proof. destruct o; [apply save_passes|]. intros H. inversion H; subst. apply passes_refl. Qed.
Lemma steps_pass s edge outs : forall m t m' t',
  exec m t (flat_map (fun o => iteration_events s (edge && o)) outs) m' t' -> passes s m t m' t'.
Proof.
  induction outs as [|o outs IH]; cbn [flat_map]; intros m t m' t' H.
  - inversion H; subst. apply passes_refl.
  - apply exec_app in H. destruct H as (m1 & t1 & A & B). unfold iteration_events in A.
    apply exec_app in A. destruct A as (m2 & t2 & A1 & A2).
    eapply passes_trans; [eapply opt_save_passes; exact A1|].
    eapply passes_trans; [apply step_passes; exact A2|]. now apply IH.
Qed.


(** ** Specification *)
(** Time intervals one after the other between [t] and [t']. *)
Fixpoint ordered (t : R) (l : list (R * R)) (t' : R) : Prop :=
  match l with [] => t <= t' | (a, b) :: r => t <= a /\ a <= b /\ ordered b r t' end.
Definition duration (l : list (R * R)) : R := fold_right (fun ab acc => (snd ab - fst ab) + acc) 0 l.
(** How often a run of [length outs] steps measures a part; [outs] tells the steps
    with an output, [edge] whether there is any output. *)
Definition measurements (i : tid) (edge : bool) (outs : list bool) : nat :=
  match i with
  | TIMER_TOTAL => 1
  | TIMER_IO => if edge then 2 + length (filter (fun o => o) outs) else 0
  | _ => length outs
  end.

Lemma ordered_le l : forall t t', ordered t l t' -> t <= t'.
Proof. induction l as [|[a b] l IH]; cbn [ordered]; intros t t' H; [exact H|]. destruct H as (A & B & C). apply IH in C. lra. Qed.
Lemma ordered_app l2 : forall l t t1 t', ordered t l t1 -> ordered t1 l2 t' -> ordered t (l ++ l2) t'.
Proof.
  induction l as [|[a b] l IH]; cbn [ordered app]; intros t t1 t' H H2.
  - destruct l2 as [|[a b] l2]; cbn [ordered] in *; [lra|]. destruct H2 as (A & B & C). repeat split; try assumption; lra.
  - destruct H as (A & B & C). repeat split; try assumption. now apply IH with (t1 := t1).
Qed.
Lemma duration_app l2 : forall l, duration (l ++ l2) = duration l + duration l2.
Proof. induction l as [|x l IH]; cbn [app duration fold_right]; [unfold duration; cbn; lra|]. fold (duration (l ++ l2)). rewrite IH. unfold duration. lra. Qed.

(** [n] measurements of timer [i]. *)
Definition meas (i : tid) (n : nat) (m : timers) (t : R) (m' : timers) (t' : R) : Prop :=
  exists ivs, ordered t ivs t' /\ length ivs = n /\ total_time (m' i) = total_time (m i) + duration ivs.
Lemma meas_trans i n1 n2 m t m1 t1 m2 t2 : meas i n1 m t m1 t1 -> meas i n2 m1 t1 m2 t2 -> meas i (n1 + n2) m t m2 t2.
Proof.
  intros (v & A & B & C) (w & A' & B' & C'). exists (v ++ w). split; [eapply ordered_app; eassumption|].
  rewrite app_length, duration_app. split; [lia|lra].
Qed.
Lemma meas_none i m t m' t' : t <= t' -> total_time (m' i) = total_time (m i) -> meas i 0 m t m' t'.
Proof. intros L E. exists []. cbn. split; [exact L|]. split; [reflexivity|]. lra. Qed.
Lemma meas_one i m t m' t' a b : t <= a -> a <= b -> b <= t' -> total_time (m' i) = total_time (m i) + (b - a) -> meas i 1 m t m' t'.
Proof. intros A B C E. exists [(a, b)]. cbn. repeat split; try assumption. lra. Qed.
Lemma save_meas i (o : bool) m t m' t' : exec m t (if o then save_events else []) m' t' ->
  meas i (match i with TIMER_IO => if o then 1 else 0 | _ => 0 end)%nat m t m' t'.
Proof.
  destruct o; intros H; unfold save_events in H; unroll.
  - destruct i; first [apply meas_none; crunch; lra | eapply meas_one; crunch; cycle 3; [reflexivity|lra..]].
  - destruct i; apply meas_none; lra.
Qed.
Lemma step_meas i s m t m' t' : i <> TIMER_TOTAL -> exec m t (step_events s) m' t' ->
  meas i (match i with TIMER_IO => 0 | _ => 1 end)%nat m t m' t'.
Proof.
  intros N H. destruct s; cbn [step_events] in H; unroll; (destruct i; [congruence|..]);
    first [apply meas_none; crunch; lra | eapply meas_one; crunch; cycle 3; [reflexivity|lra..]].
Qed.
Lemma steps_meas i s edge outs : i <> TIMER_TOTAL -> forall m t m' t',
  exec m t (flat_map (fun o => iteration_events s (edge && o)) outs) m' t' ->
  meas i (match i with TIMER_IO => if edge then length (filter (fun o => o) outs) else 0 | _ => length outs end)%nat m t m' t'.
Proof.
  intros N. induction outs as [|o outs IH]; cbn [flat_map]; intros m t m' t' H.
  - inversion H; subst. destruct i, edge; apply meas_none; lra.
  - apply exec_app in H. destruct H as (m1 & t1 & A & B). unfold iteration_events in A.
    apply exec_app in A. destruct A as (m2 & t2 & A1 & A2).
    pose proof (meas_trans _ _ _ _ _ _ _ _ _ (save_meas i _ _ _ _ _ A1)
      (meas_trans _ _ _ _ _ _ _ _ _ (step_meas i _ _ _ _ _ N A2) (IH _ _ _ _ B))) as M.
    destruct i; [congruence|..]; try exact M. destruct edge, o; exact M.
Qed.

(** Every timer adds up exactly its measurements: one per step for the three parts
    of a step, one for the whole loop, one per output. *)
Theorem C92_exact : forall s edge outs c t m' t', exec (fresh c) t (main_events s edge outs) m' t' ->
  forall i, exists ivs, ordered t ivs t' /\ length ivs = measurements i edge outs /\ elapsed (m' i) = duration ivs.
Proof.
  intros s edge outs c t m' t' H i. unfold main_events in H. apply exec_app in H. destruct H as (m1 & t1 & P & H).
  apply exec_app in H. destruct H as (ma & ta & St & H). apply exec_app in H. destruct H as (mb & tb & L & H).
  apply exec_app in H. destruct H as (mc & tc & En & Q).
  pose proof (save_meas i _ _ _ _ _ P) as MP. pose proof (save_meas i _ _ _ _ _ Q) as MQ.
  pose proof (steps_pass _ _ _ _ _ _ _ L) as (L1 & L2 & _).
  assert (X : meas i (measurements i edge outs) (fresh c) t m' t').
  { destruct i.
    - assert (M : meas TIMER_TOTAL 1 m1 t1 mc tc).
      { unroll. eapply meas_one with (a := ta) (b := tc); try lra. crunch. rewrite L2. crunch. lra. }
      pose proof (meas_trans _ _ _ _ _ _ _ _ _ MP (meas_trans _ _ _ _ _ _ _ _ _ M MQ)) as F. exact F.
    - assert (NT : TIMER_IO <> TIMER_TOTAL) by discriminate.
      pose proof (steps_meas TIMER_IO s edge outs NT _ _ _ _ L) as M.
      assert (M' : meas TIMER_IO (if edge then length (filter (fun o => o) outs) else 0)%nat m1 t1 mc tc).
      { change (meas TIMER_IO (0 + ((if edge then length (filter (fun o => o) outs) else 0)))%nat m1 t1 mc tc).
        eapply meas_trans; [apply (meas_none TIMER_IO m1 t1 ma ta); unroll; crunch; lra|].
        rewrite <- (Nat.add_0_r (if edge then _ else _)).
        eapply meas_trans; [exact M|]. apply meas_none; unroll; crunch; lra. }
      pose proof (meas_trans _ _ _ _ _ _ _ _ _ MP (meas_trans _ _ _ _ _ _ _ _ _ M' MQ)) as F.
      destruct edge; [|exact F]. unfold measurements.
      replace (2 + length (filter (fun o => o) outs))%nat with (1 + (length (filter (fun o => o) outs) + 1))%nat by lia. exact F.
    - assert (NT : TIMER_DT <> TIMER_TOTAL) by discriminate.
      pose proof (steps_meas TIMER_DT s edge outs NT _ _ _ _ L) as M. cbn iota in M.
      assert (A : meas TIMER_DT 0 m1 t1 ma ta) by (apply meas_none; unroll; crunch; lra).
      assert (B : meas TIMER_DT 0 mb tb mc tc) by (apply meas_none; unroll; crunch; lra).
      pose proof (meas_trans _ _ _ _ _ _ _ _ _ MP (meas_trans _ _ _ _ _ _ _ _ _ A
        (meas_trans _ _ _ _ _ _ _ _ _ M (meas_trans _ _ _ _ _ _ _ _ _ B MQ)))) as F.
      cbn [Nat.add measurements] in *. rewrite Nat.add_0_r in F. exact F.
    - assert (NT : TIMER_BOUNDARIES <> TIMER_TOTAL) by discriminate.
      pose proof (steps_meas TIMER_BOUNDARIES s edge outs NT _ _ _ _ L) as M. cbn iota in M.
      assert (A : meas TIMER_BOUNDARIES 0 m1 t1 ma ta) by (apply meas_none; unroll; crunch; lra).
      assert (B : meas TIMER_BOUNDARIES 0 mb tb mc tc) by (apply meas_none; unroll; crunch; lra).
      pose proof (meas_trans _ _ _ _ _ _ _ _ _ MP (meas_trans _ _ _ _ _ _ _ _ _ A
        (meas_trans _ _ _ _ _ _ _ _ _ M (meas_trans _ _ _ _ _ _ _ _ _ B MQ)))) as F.
      cbn [Nat.add measurements] in *. rewrite Nat.add_0_r in F. exact F.
    - assert (NT : TIMER_NUM_SCHEME <> TIMER_TOTAL) by discriminate.
      pose proof (steps_meas TIMER_NUM_SCHEME s edge outs NT _ _ _ _ L) as M. cbn iota in M.
      assert (A : meas TIMER_NUM_SCHEME 0 m1 t1 ma ta) by (apply meas_none; unroll; crunch; lra).
      assert (B : meas TIMER_NUM_SCHEME 0 mb tb mc tc) by (apply meas_none; unroll; crunch; lra).
      pose proof (meas_trans _ _ _ _ _ _ _ _ _ MP (meas_trans _ _ _ _ _ _ _ _ _ A
        (meas_trans _ _ _ _ _ _ _ _ _ M (meas_trans _ _ _ _ _ _ _ _ _ B MQ)))) as F.
      cbn [Nat.add measurements] in *. rewrite Nat.add_0_r in F. exact F. }
  destruct X as (v & X1 & X2 & X3). exists v. split; [exact X1|]. split; [exact X2|].
  unfold elapsed. rewrite X3. cbn [fresh total_time]. lra.
Qed.
Print Assumptions C92_exact.

(** The parts of the steps fit into the total, so their percentages do not exceed
    100 together; with the outputs they fit into the duration of the run.  In the
    MHD solver the time step is a part of the scheme. *)
Theorem C92_parts : forall s edge outs c t m' t', exec (fresh c) t (main_events s edge outs) m' t' ->
  (let e i := elapsed (m' i) in
   (if mhd s then e TIMER_DT <= e TIMER_NUM_SCHEME /\ e TIMER_BOUNDARIES + e TIMER_NUM_SCHEME <= e TIMER_TOTAL
    else e TIMER_DT + e TIMER_BOUNDARIES + e TIMER_NUM_SCHEME <= e TIMER_TOTAL) /\
   (if mhd s then 0 else e TIMER_DT) + e TIMER_BOUNDARIES + e TIMER_NUM_SCHEME + e TIMER_IO <= t' - t /\
   e TIMER_TOTAL <= t' - t /\ (forall i, 0 <= e i)) /\
  (0 < elapsed (m' TIMER_TOTAL) ->
   (if mhd s then 0 else percent m' TIMER_DT) + percent m' TIMER_BOUNDARIES + percent m' TIMER_NUM_SCHEME <= 100).
Proof.
  intros s edge outs c t m' t' H. unfold main_events in H. apply exec_app in H. destruct H as (m1 & t1 & P & H).
  apply exec_app in H. destruct H as (ma & ta & St & H). apply exec_app in H. destruct H as (mb & tb & L & H).
  apply exec_app in H. destruct H as (mc & tc & En & Q).
  assert (NIO : forall i, i <> TIMER_IO -> total_time (m1 i) = 0 /\ total_time (m' i) = total_time (mc i)).
  { intros i Hi. destruct (save_meas i _ _ _ _ _ P) as (v & _ & V2 & V3). destruct (save_meas i _ _ _ _ _ Q) as (w & _ & W2 & W3).
    rewrite V3, W3. destruct i; [|congruence|..]; destruct v; try discriminate V2; destruct w; try discriminate W2;
      cbn [duration fold_right fresh total_time]; split; lra. }
  apply (opt_save_passes s) in P, Q. apply steps_pass in L.
  destruct P as (P1 & P2 & P3 & P4 & P5), Q as (Q1 & Q2 & Q3 & Q4 & Q5), L as (L1 & L2 & L3 & L4 & L5). cbn zeta in *.
  unroll. crunch. rewrite L2 in *. crunch.
  pose proof (NIO TIMER_TOTAL ltac:(discriminate)) as [T1 T2]. pose proof (NIO TIMER_DT ltac:(discriminate)) as [D1 D2].
  pose proof (NIO TIMER_BOUNDARIES ltac:(discriminate)) as [B1 B2]. pose proof (NIO TIMER_NUM_SCHEME ltac:(discriminate)) as [S1 S2].
  crunch. pose proof (L3 TIMER_IO) as LI. pose proof (P3 TIMER_IO) as PI. pose proof (Q3 TIMER_IO) as QI.
  pose proof (L3 TIMER_DT) as LD. pose proof (L3 TIMER_BOUNDARIES) as LB. pose proof (L3 TIMER_NUM_SCHEME) as LS.
  crunch. cbn [fresh total_time] in *. unfold elapsed.
  rewrite ?T1 in *. rewrite ?L2 in *. crunch.
  assert (G : (if mhd s then total_time (m' TIMER_DT) <= total_time (m' TIMER_NUM_SCHEME) /\
      total_time (m' TIMER_BOUNDARIES) + total_time (m' TIMER_NUM_SCHEME) <= total_time (m' TIMER_TOTAL)
    else total_time (m' TIMER_DT) + total_time (m' TIMER_BOUNDARIES) + total_time (m' TIMER_NUM_SCHEME) <= total_time (m' TIMER_TOTAL))).
  { destruct (mhd s); [specialize (L5 eq_refl); split|]; lra. }
  split; [split; [exact G|split; [|split]]|].
  - destruct (mhd s); lra.
  - lra.
  - intros []; lra.
  - intros Pos. unfold percent, elapsed in *.
    assert (forall a b d T, 0 < T -> a + b + d <= T -> 100 * a / T + 100 * b / T + 100 * d / T <= 100) as K.
    { intros a b d T HT HS. replace (100 * a / T + 100 * b / T + 100 * d / T) with (100 * ((a + b + d) / T)) by (field; lra).
      assert ((a + b + d) / T <= 1); [|lra]. apply Rmult_le_reg_r with T; [lra|]. unfold Rdiv. rewrite Rmult_assoc, Rinv_l; lra. }
    destruct (mhd s).
    + destruct G as [G1 G2]. pose proof (K 0 _ _ _ Pos ltac:(rewrite Rplus_0_l; exact G2)) as K'.
      unfold Rdiv in K' at 1. rewrite Rmult_0_r, Rmult_0_l in K'. lra.
    + apply K; assumption.
Qed.
Print Assumptions C92_parts.

(** The performance figure counts the ghost cells: with [gw] layers it exceeds the
    rate at which cells of the domain are updated, on every grid. *)
Theorem C92_perf_refuted : forall m it nx ny nz gw nProcs, 0 < elapsed (m TIMER_TOTAL) ->
  (0 < it -> 0 < nx -> 0 < ny -> 0 < nz -> 0 < gw -> 0 < nProcs ->
   (IZR (it * (nx * ny) * nProcs) / elapsed (m TIMER_TOTAL) / 1000000 < perf m it (m_nCells 2 (nx + 2 * gw) (ny + 2 * gw) 1) nProcs)%R /\
   (IZR (it * (nx * ny * nz) * nProcs) / elapsed (m TIMER_TOTAL) / 1000000 <
    perf m it (m_nCells 3 (nx + 2 * gw) (ny + 2 * gw) (nz + 2 * gw)) nProcs)%R)%Z.
Proof.
  intros m it nx ny nz gw nProcs T Hi Hx Hy Hz Hg Hp. unfold perf, m_nCells, Rdiv. cbn [Z.eqb Pos.eqb].
  assert (I : 0 < / elapsed (m TIMER_TOTAL)) by (apply Rinv_0_lt_compat; exact T).
  assert (E2 : (nx * ny < (nx + 2 * gw) * (ny + 2 * gw))%Z) by nia.
  split; (apply Rmult_lt_compat_r; [lra|]; apply Rmult_lt_compat_r; [exact I|]; apply IZR_lt;
    apply Z.mul_lt_mono_pos_r; [lia|]; apply Z.mul_lt_mono_pos_l; [lia|]).
  - exact E2.
  - assert (0 < nx * ny)%Z by nia. nia.
Qed.
Print Assumptions C92_perf_refuted.
(** Apart from that it is the number of updates of all processes over the time of
    the loop, in millions. *)
Theorem C92_perf : forall m it cells nProcs, 0 < elapsed (m TIMER_TOTAL) ->
  perf m it cells nProcs * 1000000 * elapsed (m TIMER_TOTAL) = IZR it * IZR cells * IZR nProcs.
Proof. intros m it cells nProcs H. unfold perf. rewrite !mult_IZR. field. lra. Qed.
Print Assumptions C92_perf.

Ltac tick x := apply ex_cons with (now := x); [lra|].
(** The first and the last output lie outside of the total: a run with slow output
    reports more than 100 % for it. *)
Theorem C92_io_refuted : exists c m', exec (fresh c) 0 (main_events (SolverHydroMuscl 2) true [false]) m' 27 /\
  0 < elapsed (m' TIMER_TOTAL) /\ percent m' TIMER_IO > 100.
Proof.
  exists (fun _ => 0). eexists. split; [|split].
  - cbn [main_events save_events app flat_map iteration_events step_events andb].
    tick 0. tick 10. tick 10. tick 11. tick 12. tick 13. tick 14. tick 15. tick 16. tick 17. tick 17. tick 27. apply ex_nil.
  - unfold elapsed. crunch. cbn [fresh total_time]. lra.
  - unfold percent, elapsed. crunch. cbn [fresh total_time]. lra.
Qed.
Print Assumptions C92_io_refuted.
(** In the MHD solver the three parts together can exceed 100 %. *)
Theorem C92_mhd_refuted : exists c m', exec (fresh c) 0 (main_events (SolverMHDMuscl 3) false [true; true]) m' 10 /\
  0 < elapsed (m' TIMER_TOTAL) /\
  percent m' TIMER_DT + percent m' TIMER_BOUNDARIES + percent m' TIMER_NUM_SCHEME > 100.
Proof.
  exists (fun _ => 0). eexists. split; [|split].
  - cbn [main_events save_events app flat_map iteration_events step_events andb].
    tick 0. tick 0. tick 1. tick 1. tick 2. tick 4. tick 5. tick 5. tick 6. tick 6. tick 7. tick 9. tick 10. tick 10. apply ex_nil.
  - unfold elapsed. crunch. cbn [fresh total_time]. lra.
  - unfold percent, elapsed. crunch. cbn [fresh total_time]. lra.
Qed.
Print Assumptions C92_mhd_refuted.

(** A run of two steps, the second with an output. *)
Example C92_case : exists m', exec (fresh (fun _ => 0)) 0 (main_events (SolverHydroSDM 2 3) true [false; true]) m' 16 /\
  elapsed (m' TIMER_TOTAL) = 14 /\ elapsed (m' TIMER_IO) = 3 /\ elapsed (m' TIMER_DT) = 2 /\
  elapsed (m' TIMER_BOUNDARIES) = 3 /\ elapsed (m' TIMER_NUM_SCHEME) = 6.
Proof.
  eexists. split; [|repeat split].
  - cbn [main_events save_events app flat_map iteration_events step_events andb].
    tick 0. tick 1. tick 1. tick 2. tick 3. tick 3. tick 4. tick 4. tick 7. tick 7. tick 8. tick 8. tick 9. tick 9.
    tick 11. tick 11. tick 14. tick 15. tick 15. tick 16. apply ex_nil.
  - unfold elapsed. crunch. cbn [fresh total_time]. lra.
  - unfold elapsed. crunch. cbn [fresh total_time]. lra.
  - unfold elapsed. crunch. cbn [fresh total_time]. lra.
  - unfold elapsed. crunch. cbn [fresh total_time]. lra.
  - unfold elapsed. crunch. cbn [fresh total_time]. lra.
Qed.
Example C92_case_perf : perf (fun _ => Timer 0 2) 10 (m_nCells 2 104 104 1) 4 * 1000000 = 10 * 104 * 104 * 4 / 2.
Proof. unfold perf, elapsed. cbn [total_time]. change (10 * m_nCells 2 104 104 1 * 4)%Z with 432640%Z. lra. Qed.
