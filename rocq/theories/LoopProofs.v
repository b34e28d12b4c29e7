(** Proofs about the main loop. *)
From Coq Require Import ZArith List Bool Reals Lia Lra.
From Verif Require Import Arith Par HydroKernels HydroSpec LoopModel LoopSpec.
Import ListNotations.
Open Scope Z_scope.

Section Gen.
Context {TT T : Type} {AT : Arith TT}.
Variable c : lconf TT.
Variable dt_local : Z -> store T -> TT -> Prop.
Variable godunov : Z -> Z -> TT -> store T -> store T -> Prop.
Notation next := (next_iteration c dt_local godunov).
Notation loop := (loop c dt_local godunov).

Lemma loop_iter n s s' : loop n s s' -> m_iteration s' = m_iteration s + Z.of_nat n.
Proof.
  induction 1; [lia|]. inversion H1; subst; cbn [m_iteration]. lia.
Qed.

(** ** Termination *)
Lemma loop_bound n s s' : loop n s s' -> n = 0%nat \/ Z.of_nat n <= l_nStepmax c - m_iteration s.
Proof.
  destruct 1; [auto|]. right. apply loop_iter in H. unfold finished in H0. apply orb_false_iff in H0.
  destruct H0 as [_ H0]. apply Z.leb_gt in H0. lia.
Qed.
Lemma loop_total (Hn : l_nlog c <> 0)
  (Hd : forall a m, exists d, dt_local a m d) (Hg : forall a b d m, exists m', godunov a b d m m') s :
  exists n s', loop n s s' /\ finished c s' = true.
Proof.
  assert (H : forall k n s', loop n s s' -> l_nStepmax c - m_iteration s' <= Z.of_nat k ->
     exists n s', loop n s s' /\ finished c s' = true).
  { induction k as [|k IH]; intros n s' Hl Hk.
    - exists n, s'. split; auto. unfold finished. apply orb_true_iff. right. apply Z.leb_le. lia.
    - destruct (finished c s') eqn:E; [eauto|].
      destruct (Hd (current (m_iteration s')) (mem s')) as [d D].
      destruct (Hg (current (m_iteration s')) (other (m_iteration s')) (clip_dt c (m_t s') d) (mem s')) as [m' M].
      eapply (IH (S n)).
      + econstructor; [exact Hl|exact E|]. econstructor; eauto.
      + cbn [m_iteration]. lia. }
  apply (H (Z.to_nat (l_nStepmax c - m_iteration s)) 0%nat s); [constructor|]. lia.
Qed.

Lemma loop_app n s s1 : loop n s s1 -> forall k s2, loop k s1 s2 -> loop (n + k) s s2.
Proof.
  intros H k s2 H2. revert H. induction H2; intros H'.
  - rewrite Nat.add_0_r. exact H'.
  - rewrite Nat.add_succ_r. econstructor; eauto.
Qed.

(** ** Snapshots *)
Lemma save_shape (s : sim TT T) : m_times_saved (save_solution s) = m_times_saved s + 1 /\
  written (save_solution s) = Snap (m_times_saved s) (m_t s) (current (m_iteration s)) (mem s) :: written s.
Proof. auto. Qed.
Lemma maybe_cases (s : sim TT T) : maybe_save c s = s \/ maybe_save c s = save_solution s.
Proof. unfold maybe_save. destruct (enableOutput c); auto. destruct (should_save_solution c s); auto. Qed.
Lemma edge_cases (s : sim TT T) : (l_nOutput c = 0 /\ edge_save c s = s) \/ (l_nOutput c <> 0 /\ edge_save c s = save_solution s).
Proof. unfold edge_save. destruct (Z.eqb_spec (l_nOutput c) 0); auto. Qed.

(** The snapshots written since [s0]: numbers consecutive from [k0]. *)
Definition numbered (k0 : Z) (s0 s : sim TT T) : Prop :=
  exists l, written s = l ++ written s0 /\ m_times_saved s = k0 + Z.of_nat (length l) /\
    map sn_num (rev l) = numbers k0 (length l).
Lemma numbers_S k n : numbers k (S n) = numbers k n ++ [k + Z.of_nat n].
Proof. unfold numbers. rewrite seq_S, map_app. reflexivity. Qed.
Lemma numbered_refl s : numbered (m_times_saved s) s s.
Proof. exists []. cbn. split; auto. split; [lia|reflexivity]. Qed.
Lemma numbered_save k0 s0 s : numbered k0 s0 s -> numbered k0 s0 (save_solution s).
Proof.
  intros (l & H1 & H2 & H3). exists (Snap (m_times_saved s) (m_t s) (current (m_iteration s)) (mem s) :: l).
  cbn [save_solution written m_times_saved length rev]. split; [rewrite H1; reflexivity|]. split; [lia|].
  rewrite map_app, H3, numbers_S. cbn. rewrite H2. reflexivity.
Qed.
Lemma numbered_maybe k0 s0 s : numbered k0 s0 s -> numbered k0 s0 (maybe_save c s).
Proof. intros H. destruct (maybe_cases s) as [->| ->]; auto using numbered_save. Qed.
Lemma numbered_edge k0 s0 s : numbered k0 s0 s -> numbered k0 s0 (edge_save c s).
Proof. intros H. destruct (edge_cases s) as [[_ ->]|[_ ->]]; auto using numbered_save. Qed.
Lemma numbered_loop k0 s0 n s s' : numbered k0 s0 s -> loop n s s' -> numbered k0 s0 s'.
Proof.
  intros H Hl. induction Hl; auto. specialize (IHHl H). inversion H1; subst. apply numbered_maybe in IHHl.
  destruct IHHl as (l & A & B & C). exists l. cbn [written m_times_saved]. auto.
Qed.

Lemma no_output n s s' : l_nOutput c = 0 -> loop n s s' -> written s' = written s /\ m_times_saved s' = m_times_saved s.
Proof.
  intros E Hl. induction Hl; auto. destruct IHHl as [I1 I2]. inversion H0; subst. cbn [written m_times_saved].
  unfold maybe_save, enableOutput. rewrite E. cbn. auto.
Qed.

(** Every snapshot is of a state the run went through. *)
Lemma snaps_loop n s s' : loop n s s' ->
  forall sn, In sn (written s') -> In sn (written s) \/
  exists k s1, loop k s s1 /\ (k < n)%nat /\ finished c s1 = false /\
    sn = Snap (m_times_saved s1) (m_t s1) (current (m_iteration s1)) (mem s1) /\
    should_save_solution c s1 = true.
Proof.
  induction 1 as [|n s s1 s2 Hl IH Hf Hn]; intros sn Hin; auto.
  assert (IH' : In sn (written s1) -> In sn (written s) \/
    exists k s1, loop k s s1 /\ (k < S n)%nat /\ finished c s1 = false /\
    sn = Snap (m_times_saved s1) (m_t s1) (current (m_iteration s1)) (mem s1) /\ should_save_solution c s1 = true).
  { intros Hin'. destruct (IH sn Hin') as [|(k & s3 & K1 & K2 & K3)]; auto. right. exists k, s3. auto. }
  inversion Hn; subst. cbn [written] in Hin. unfold maybe_save in Hin.
  destruct (enableOutput c); auto. destruct (should_save_solution c s1) eqn:E; auto.
  cbn [save_solution written In] in Hin. destruct Hin as [<-|Hin]; auto.
  right. exists n, s1. auto 10.
Qed.

Lemma every_step n s s' : l_nOutput c < 0 -> loop n s s' ->
  m_times_saved s' = m_times_saved s + Z.of_nat n.
Proof.
  intros E Hl. induction Hl; [lia|]. inversion H0; subst. cbn [m_times_saved].
  unfold maybe_save, enableOutput, should_save_solution. destruct (Z.eqb_spec (l_nOutput c) 0); [lia|].
  destruct (Z.ltb_spec (l_nOutput c) 0); [|lia]. cbn. lia.
Qed.
End Gen.

(** ** Parity of the buffers and refinement *)
Lemma arr_ok_current it : arr_ok (current it) (other it).
Proof. unfold arr_ok, current, other. destruct (Z.rem it 2 =? 0); auto. Qed.
Lemma current_next it : 0 <= it -> current (it + 1) = other it.
Proof.
  intros H. unfold current, other. rewrite !Z.rem_mod_nonneg by lia.
  destruct (Z.eqb_spec (it mod 2) 0), (Z.eqb_spec ((it + 1) mod 2) 0); auto; exfalso; Z.div_mod_to_equations; lia.
Qed.

Section Refine.
Context {TT T X : Type} {AT : Arith TT}.
Variable c : lconf TT.
Variable dt_local : Z -> store T -> TT -> Prop.
Variable godunov : Z -> Z -> TT -> store T -> store T -> Prop.
Variable holds : X -> Z -> store T -> Prop.
Variable cfl_dt : X -> TT -> Prop.
Variable adv : TT -> X -> X.
Hypothesis Hdt : forall x a m d, holds x a m -> dt_local a m d -> cfl_dt x d.
Hypothesis Hstep : forall x a b d m m', arr_ok a b -> holds x a m -> godunov a b d m m' -> holds (adv d x) b m'.

Notation traj := (trajectory (l_tEnd c) cfl_dt adv).
Lemma traj_app n z z1 : traj n z z1 -> forall k z2, traj k z1 z2 -> traj (n + k) z z2.
Proof.
  intros H k z2 H2. revert H. induction H2; intros H'.
  - rewrite Nat.add_0_r. exact H'.
  - rewrite Nat.add_succ_r. constructor; auto.
Qed.

Theorem refine n s s' x : 0 <= m_iteration s -> holds x (current (m_iteration s)) (mem s) ->
  loop c dt_local godunov n s s' ->
  exists x', traj n (m_t s, x) (m_t s', x') /\ holds x' (current (m_iteration s')) (mem s') /\
    (forall sn, In sn (written s') -> In sn (written s) \/
       exists k x1, (k < n)%nat /\ traj k (m_t s, x) (sn_time sn, x1) /\ traj (n - k) (sn_time sn, x1) (m_t s', x') /\
         holds x1 (sn_array sn) (sn_mem sn)).
Proof.
  intros H0 Hx Hl. induction Hl as [s|n s s1 s2 Hl IH Hf Hn].
  - exists x. split; [constructor|]. auto.
  - destruct IH as (x1 & T1 & H1 & S1); auto.
    pose proof (loop_iter c dt_local godunov n s s1 Hl) as Hit.
    inversion Hn as [dtl m' Hlog Hd Hg]; subst s2. cbn [m_t m_iteration mem written].
    assert (C : cfl_dt x1 dtl) by (eapply Hdt; eauto).
    exists (adv (clip_dt c (m_t s1) dtl) x1). split; [|split].
    + change (clip_dt c (m_t s1) dtl) with (shortened (l_tEnd c) (m_t s1) dtl). constructor; auto.
    + rewrite current_next by lia. eapply Hstep; eauto. apply arr_ok_current.
    + assert (LAST : traj 1 (m_t s1, x1) (add (m_t s1) (clip_dt c (m_t s1) dtl), adv (clip_dt c (m_t s1) dtl) x1)).
      { change (clip_dt c (m_t s1) dtl) with (shortened (l_tEnd c) (m_t s1) dtl). constructor; [constructor|auto]. }
      assert (OLD : forall sn, In sn (written s1) -> In sn (written s) \/
        exists k x2, (k < S n)%nat /\ traj k (m_t s, x) (sn_time sn, x2) /\
          traj (S n - k) (sn_time sn, x2) (add (m_t s1) (clip_dt c (m_t s1) dtl), adv (clip_dt c (m_t s1) dtl) x1) /\
          holds x2 (sn_array sn) (sn_mem sn)).
      { intros sn Hin. destruct (S1 sn Hin) as [|(k & x2 & K1 & K2 & K3 & K4)]; auto. right. exists k, x2.
        split; [lia|]. split; auto. split; auto. replace (S n - k)%nat with ((n - k) + 1)%nat by lia.
        eapply traj_app; eauto. }
      intros sn Hin. destruct (maybe_cases c s1) as [E|E]; rewrite E in Hin; auto.
      cbn [save_solution written In] in Hin. destruct Hin as [<-|Hin]; auto.
      right. exists n, x1. cbn [sn_time sn_array sn_mem]. split; [lia|]. split; auto.
      replace (S n - n)%nat with 1%nat by lia. auto.
Qed.

(** The whole run. *)
Theorem refine_run s s' x : 0 <= m_iteration s -> holds x (current (m_iteration s)) (mem s) -> written s = [] ->
  run c dt_local godunov s s' ->
  exists n x', traj n (m_t s, x) (m_t s', x') /\ holds x' (current (m_iteration s')) (mem s') /\
    (forall sn, In sn (written s') ->
       exists k x1, (k <= n)%nat /\ traj k (m_t s, x) (sn_time sn, x1) /\ traj (n - k) (sn_time sn, x1) (m_t s', x') /\
         holds x1 (sn_array sn) (sn_mem sn)).
Proof.
  intros H0 Hx Hw [n s1 Hl Hf E].
  assert (EM : forall s : sim TT T, m_t (edge_save c s) = m_t s /\ m_iteration (edge_save c s) = m_iteration s /\ mem (edge_save c s) = mem s).
  { intros z. destruct (edge_cases c z) as [[_ ->]|[_ ->]]; auto. }
  destruct (EM s) as (E1 & E2 & E3). destruct (EM s1) as (E4 & E5 & E6).
  destruct (refine n (edge_save c s) s1 x) as (x' & T1 & H1 & S1); auto.
  { rewrite E2. auto. } { rewrite E2, E3. auto. }
  exists n, x'. subst s'. rewrite E4, E5, E6. rewrite E1 in *. split; auto. split; auto.
  assert (MID : forall sn, In sn (written s1) -> exists k x1, (k <= n)%nat /\ traj k (m_t s, x) (sn_time sn, x1) /\
     traj (n - k) (sn_time sn, x1) (m_t s1, x') /\ holds x1 (sn_array sn) (sn_mem sn)).
  { intros sn Hin. destruct (S1 sn Hin) as [Hin'|(k & x1 & K1 & K2)].
    - destruct (edge_cases c s) as [[_ Es]|[_ Es]]; rewrite Es in Hin'.
      + rewrite Hw in Hin'. destruct Hin'.
      + cbn [save_solution written In] in Hin'. rewrite Hw in Hin'. destruct Hin' as [<-|[]].
        exists 0%nat, x. cbn [sn_time sn_array sn_mem]. split; [lia|]. split; [constructor|]. rewrite Nat.sub_0_r. auto.
    - exists k, x1. split; [lia|]. auto. }
  intros sn Hin. destruct (edge_cases c s1) as [[_ Es]|[_ Es]]; rewrite Es in Hin; auto.
  cbn [save_solution written In] in Hin. destruct Hin as [<-|Hin]; auto.
  exists n, x'. cbn [sn_time sn_array sn_mem]. split; [lia|]. split; auto. rewrite Nat.sub_diag. split; [constructor|auto].
Qed.
End Refine.

(** ** Time, in exact arithmetic *)
Section Time.
Open Scope R_scope.
Context {T : Type}.
Variable c : lconf R.
Variable dt_local : Z -> store T -> R -> Prop.
Variable godunov : Z -> Z -> R -> store T -> store T -> Prop.
Hypothesis Hpos : forall a m d, dt_local a m d -> 0 < d.

Lemma clip_cases t d : (t + d <= l_tEnd c /\ clip_dt c t d = d) \/ (l_tEnd c < t + d /\ clip_dt c t d = l_tEnd c - t).
Proof. unfold clip_dt. cbn. destruct Rlt_dec; [right|left]; split; auto; lra. Qed.
Lemma finished_false (s : sim R T) : finished c s = false -> m_t s < l_tEnd c - / 100000000000000 /\ (m_iteration s < l_nStepmax c)%Z.
Proof.
  unfold finished. cbn [leb sub lit RArith]. intros H. apply orb_false_iff in H. destruct H as [H1 H2].
  apply Z.leb_gt in H2. split; auto. destruct Rle_dec; [discriminate|]. lra.
Qed.
Lemma finished_true (s : sim R T) : finished c s = true -> l_tEnd c - / 100000000000000 <= m_t s \/ (l_nStepmax c <= m_iteration s)%Z.
Proof.
  unfold finished. cbn [leb sub lit RArith]. intros H. apply orb_true_iff in H. destruct H as [H|H].
  - left. destruct Rle_dec; [|discriminate]. lra.
  - right. apply Z.leb_le. auto.
Qed.

Theorem time_bounds n s s' : m_t s <= l_tEnd c -> loop c dt_local godunov n s s' ->
  m_t s <= m_t s' <= l_tEnd c /\ ((0 < n)%nat -> m_t s < m_t s').
Proof.
  intros H Hl. induction Hl as [s|n s s1 s2 Hl IH Hf Hn]; [split; [lra|lia]|].
  destruct (IH H) as [I1 I2]. apply finished_false in Hf. destruct Hf as [F1 F2].
  inversion Hn as [dtl m' Hlog Hd Hg]; subst s2. cbn [m_t]. apply Hpos in Hd. cbn [add RArith].
  destruct (clip_cases (m_t s1) dtl) as [[C1 C2]|[C1 C2]]; rewrite C2; split; intros; lra.
Qed.

(** The end is reached when the steps do not degenerate. *)
Theorem time_reached dmin n s s' : 0 < dmin -> (forall a m d, dt_local a m d -> dmin <= d) ->
  m_t s <= l_tEnd c -> (0 <= l_nStepmax c - m_iteration s)%Z ->
  l_tEnd c - m_t s <= dmin * IZR (l_nStepmax c - m_iteration s) ->
  loop c dt_local godunov n s s' -> finished c s' = true ->
  l_tEnd c - / 100000000000000 <= m_t s' <= l_tEnd c.
Proof.
  intros Hd Hmin H0 Hst Hn Hl Hf. split; [|apply (time_bounds n s s' H0 Hl)].
  assert (K : forall n s', loop c dt_local godunov n s s' -> m_t s' = l_tEnd c \/ m_t s + dmin * INR n <= m_t s').
  { clear Hf Hl s' n. intros n s' Hl. induction Hl as [s|n s s1 s2 Hl IH Hf Hx]; [right; cbn; lra|].
    destruct (finished_false s1 Hf) as [F1 _].
    assert (P : 0 < / 100000000000000) by (apply Rinv_0_lt_compat; lra).
    inversion Hx as [dtl m' Hlog Hdl Hg]; subst s2. cbn [m_t]. apply Hmin in Hdl.
    cbn [add RArith]. destruct (clip_cases (m_t s1) dtl) as [[C1 C2]|[C1 C2]]; rewrite C2.
    - right. destruct (IH H0 Hst Hn) as [I|I]; [lra|]. rewrite S_INR. lra.
    - left. lra. }
  destruct (finished_true s' Hf) as [F|F]; auto.
  pose proof (loop_iter c dt_local godunov n s s' Hl) as Hit.
  destruct (K n s' Hl) as [E|E].
  - rewrite E. assert (P : 0 < / 100000000000000) by (apply Rinv_0_lt_compat; lra). lra.
  - assert (IZR (l_nStepmax c - m_iteration s) <= INR n).
    { rewrite INR_IZR_INZ. apply IZR_le. lia. }
    assert (dmin * IZR (l_nStepmax c - m_iteration s) <= dmin * INR n) by (apply Rmult_le_compat_l; lra).
    assert (P : 0 < / 100000000000000) by (apply Rinv_0_lt_compat; lra). lra.
Qed.

(** ** Cadence of the snapshots *)
Definition interval : R := l_tEnd c / IZR (l_nOutput c).
Lemma should_save_spec (s : sim R T) : (0 < l_nOutput c)%Z ->
  should_save_solution c s = true <->
  (IZR (m_times_saved s) * interval < m_t s \/ Rabs (m_t s - l_tEnd c) < / 1000000000000).
Proof.
  intros Hn. unfold should_save_solution. destruct (Z.ltb_spec (l_nOutput c) 0); [lia|].
  cbn [ltb sub mul div lit absv RArith]. fold interval.
  replace (l_tEnd c / (IZR (l_nOutput c) / 1)) with interval.
  2:{ unfold interval. assert (IZR (l_nOutput c) <> 0) by (apply not_0_IZR; lia). field. auto. }
  rewrite minus_IZR. replace (1 / 1000000000000) with (/ 1000000000000) by lra.
  replace ((IZR (m_times_saved s) - 1) / 1 * interval) with (IZR (m_times_saved s) * interval - interval) by field.
  destruct Rlt_dec; [split; auto; intros; left; lra|]. destruct Rlt_dec; split; auto; intros; try discriminate.
  destruct H0; lra.
Qed.

Lemma cadence n s s' : (0 < l_nOutput c)%Z -> 0 < l_tEnd c ->
  (forall a m d, dt_local a m d -> d <= interval) ->
  m_t s <= (IZR (m_times_saved s) + 1) * interval -> m_t s <= l_tEnd c ->
  loop c dt_local godunov n s s' -> m_t s' <= (IZR (m_times_saved s') + 1) * interval.
Proof.
  intros Hn HT Hd H0 H1 Hl.
  assert (I0 : 0 < interval) by (unfold interval; apply Rdiv_lt_0_compat; [auto|apply IZR_lt; lia]).
  induction Hl as [s|n s s1 s2 Hl IH Hf Hx]; auto. specialize (IH H0 H1).
  inversion Hx as [dtl m' Hlog Hdl Hg]; subst s2. cbn [m_t m_times_saved add RArith].
  assert (B : clip_dt c (m_t s1) dtl <= interval).
  { pose proof (Hd _ _ _ Hdl). destruct (clip_cases (m_t s1) dtl) as [[C1 C2]|[C1 C2]]; rewrite C2; lra. }
  unfold maybe_save, enableOutput. destruct (Z.eqb_spec (l_nOutput c) 0); [lia|]. cbn [negb].
  destruct (should_save_solution c s1) eqn:E.
  - cbn [save_solution m_times_saved]. rewrite plus_IZR. lra.
  - assert (~ (IZR (m_times_saved s1) * interval < m_t s1)).
    { intros C. assert (should_save_solution c s1 = true) by (apply should_save_spec; auto). congruence. }
    lra.
Qed.

Theorem cadence_run s s' sn : (0 < l_nOutput c)%Z -> 0 < l_tEnd c ->
  m_times_saved s = 0%Z -> written s = [] -> m_t s <= l_tEnd c ->
  run c dt_local godunov s s' -> In sn (written s') ->
  (sn_num sn = 0%Z /\ sn_time sn = m_t s) \/ (sn_time sn = m_t s' /\ sn_num sn = (m_times_saved s' - 1)%Z) \/
  Rabs (sn_time sn - l_tEnd c) < / 1000000000000 \/
  (IZR (sn_num sn) * interval < sn_time sn /\ (0 < sn_num sn < l_nOutput c)%Z /\
   ((forall a m d, dt_local a m d -> d <= interval) -> m_t s <= interval ->
      sn_time sn <= (IZR (sn_num sn) + 1) * interval)).
Proof.
  intros Hn HT H0 Hw Ht [n s1 Hl Hf E] Hin.
  assert (I0 : 0 < interval) by (unfold interval; apply Rdiv_lt_0_compat; [auto|apply IZR_lt; lia]).
  assert (Es : forall z : sim R T, edge_save c z = save_solution z).
  { intros z. unfold edge_save. destruct (Z.eqb_spec (l_nOutput c) 0); [lia|auto]. }
  rewrite Es in Hl. subst s'. rewrite Es in *. cbn [save_solution written In m_t m_times_saved] in *.
  destruct Hin as [<-|Hin].
  { right. left. cbn. split; auto. lia. }
  destruct (snaps_loop _ _ _ _ _ _ Hl sn Hin) as [Hin'|(k & s2 & K1 & K2 & K3 & K4 & K5)].
  { cbn [written save_solution In] in Hin'. rewrite Hw in Hin'. destruct Hin' as [<-|[]]. left. cbn. auto. }
  right. right. subst sn. cbn [sn_num sn_time].
  apply should_save_spec in K5; auto. destruct K5 as [K5|K5]; auto. right.
  split; auto.
  assert (N : (1 <= m_times_saved s2)%Z).
  { pose proof (numbered_loop c dt_local godunov _ _ _ _ _ (numbered_save 0 s s ltac:(rewrite <- H0; apply numbered_refl)) K1) as (l & A & B & D).
    destruct l; [|cbn [length] in B; lia]. exfalso.
    cbn [app] in A. 
    assert (P : forall n z z', loop c dt_local godunov n z z' -> (length (written z) <= length (written z'))%nat).
    { clear. intros n z z' H. induction H; auto. inversion H1; subst. cbn [written]. 
      destruct (maybe_cases c s1) as [-> | ->]; cbn; lia. }
    apply P in K1. rewrite A, Hw in K1. cbn in K1. lia. }
  split.
  - split; [lia|]. pose proof (finished_false _ K3) as [F _].
    assert (P : 0 < / 100000000000000) by (apply Rinv_0_lt_compat; lra).
    assert (L : IZR (m_times_saved s2) * interval < IZR (l_nOutput c) * interval).
    { unfold interval at 2. replace (IZR (l_nOutput c) * (l_tEnd c / IZR (l_nOutput c))) with (l_tEnd c); [lra|].
      field. apply not_0_IZR. lia. }
    apply lt_IZR. apply Rmult_lt_reg_r in L; auto.
  - intros Hd Hs. apply (cadence _ _ _ Hn HT Hd) in K1; auto. cbn [save_solution m_t m_times_saved]. rewrite H0. cbn. lra.
Qed.
End Time.

(** ** The files of a whole run *)
Section Files.
Context {TT T : Type} {AT : Arith TT}.
Variable c : lconf TT.
Variable dt_local : Z -> store T -> TT -> Prop.
Variable godunov : Z -> Z -> TT -> store T -> store T -> Prop.
Notation run := (run c dt_local godunov).
Notation loop := (loop c dt_local godunov).

Theorem files_numbered s s' : written s = [] -> run s s' ->
  map sn_num (rev (written s')) = numbers (m_times_saved s) (length (written s')).
Proof.
  intros Hw [n s1 Hl Hf E].
  assert (H : numbered (m_times_saved s) s s').
  { subst s'. apply numbered_edge. eapply numbered_loop; eauto. apply numbered_edge. apply numbered_refl. }
  destruct H as (l & H1 & _ & H3). rewrite Hw, app_nil_r in H1. rewrite H1. exact H3.
Qed.
Theorem files_none s s' : l_nOutput c = 0 -> run s s' -> written s' = written s.
Proof.
  intros H [n s1 Hl Hf E]. subst s'. unfold edge_save in *. rewrite H in *. cbn [Z.eqb] in *.
  apply no_output in Hl; auto. tauto.
Qed.
Theorem files_first_last s s' : l_nOutput c <> 0 -> written s = [] -> run s s' ->
  exists middle,
    rev (written s') = Snap (m_times_saved s) (m_t s) (current (m_iteration s)) (mem s) :: middle ++
      [Snap (m_times_saved s' - 1) (m_t s') (current (m_iteration s')) (mem s')].
Proof.
  intros Hn Hw [n s1 Hl Hf E].
  assert (Es : forall z : sim TT T, edge_save c z = save_solution z).
  { intros z. unfold edge_save. destruct (Z.eqb_spec (l_nOutput c) 0); [contradiction|auto]. }
  rewrite Es in *. subst s'.
  destruct (numbered_loop c dt_local godunov (m_times_saved (save_solution s)) (save_solution s) n (save_solution s) s1 (numbered_refl _) Hl) as (l & H1 & _ & _).
  exists (rev l). cbn [save_solution written m_times_saved m_t m_iteration mem rev].
  rewrite H1. cbn [save_solution written]. rewrite Hw, rev_app_distr. cbn [rev app]. replace (m_times_saved s1 + 1 - 1) with (m_times_saved s1) by lia.
  reflexivity.
Qed.
Lemma first_again n s s' : l_nOutput c < 0 -> loop n s s' -> (0 < n)%nat ->
  exists l, written s' = l ++ Snap (m_times_saved s) (m_t s) (current (m_iteration s)) (mem s) :: written s.
Proof.
  intros Hn Hl. 
  assert (MS : forall z : sim TT T, maybe_save c z = save_solution z).
  { intros z. unfold maybe_save, enableOutput, should_save_solution. destruct (Z.eqb_spec (l_nOutput c) 0); [lia|].
    destruct (Z.ltb_spec (l_nOutput c) 0); [reflexivity|lia]. }
  induction Hl as [s|n s s1 s2 Hl IH Hf Hx]; [lia|]. intros _.
  inversion Hx as [d m' Hlog Hd Hg]; subst s2. cbn [written]. rewrite MS. cbn [save_solution written].
  destruct n as [|n].
  - inversion Hl; subst. exists []. reflexivity.
  - destruct IH as (l & E); [lia|]. rewrite E. eexists (_ :: l). reflexivity.
Qed.
Theorem files_every_step s s' : l_nOutput c < 0 -> written s = [] -> 0 <= m_iteration s -> run s s' ->
  Z.of_nat (length (written s')) = m_iteration s' - m_iteration s + 2.
Proof.
  intros Hn Hw H0 [n s1 Hl Hf E].
  assert (Es : forall z : sim TT T, edge_save c z = save_solution z).
  { intros z. unfold edge_save. destruct (Z.eqb_spec (l_nOutput c) 0); [lia|auto]. }
  rewrite Es in *. subst s'. pose proof (loop_iter _ _ _ _ _ _ Hl) as Hit.
  pose proof (every_step c dt_local godunov n (save_solution s) s1 Hn Hl) as Hev.
  destruct (numbered_loop c dt_local godunov (m_times_saved (save_solution s)) (save_solution s) n (save_solution s) s1 (numbered_refl _) Hl) as (l & H1 & H2 & _).
  cbn [save_solution written m_iteration m_times_saved length] in *. rewrite H1, Hw, app_length. cbn [length]. lia.
Qed.
Theorem files_duplicate s s' : l_nOutput c < 0 -> written s = [] -> 0 <= m_iteration s -> m_iteration s < m_iteration s' -> run s s' ->
  exists s0 s1 rest, rev (written s') = s0 :: s1 :: rest /\ sn_num s0 = m_times_saved s /\ sn_num s1 = m_times_saved s + 1 /\
    sn_time s1 = sn_time s0 /\ sn_array s1 = sn_array s0 /\ sn_mem s1 = sn_mem s0.
Proof.
  intros Hn Hw H0 Hlt [n s1 Hl Hf E].
  assert (Es : forall z : sim TT T, edge_save c z = save_solution z).
  { intros z. unfold edge_save. destruct (Z.eqb_spec (l_nOutput c) 0); [lia|auto]. }
  rewrite Es in *. subst s'. pose proof (loop_iter _ _ _ _ _ _ Hl) as Hit. cbn [save_solution m_iteration] in *.
  destruct (first_again n (save_solution s) s1 Hn Hl) as (l & E); [lia|].
  cbn [save_solution written m_t m_iteration m_times_saved mem] in *. rewrite E, Hw.
  cbn [rev]. rewrite rev_app_distr. cbn [rev app]. do 3 eexists. split; [reflexivity|]. cbn. auto.
Qed.
End Files.
