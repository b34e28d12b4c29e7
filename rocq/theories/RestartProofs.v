(** A restarted run goes in step with the original one. *)
From Coq Require Import ZArith List Bool Reals Lia Lra.
From Verif Require Import Arith Par ParProofs GridModel BoundaryModel BoundarySpec BoundaryProofs HydroState HydroPoint HydroKernels HydroField
  HydroSpec HydroProofs2 HydroConserve HydroExec Physics ReduceModel DtProofs IoModel IoSpec IoRound LoopModel LoopSpec LoopProofs LoopHydro RestartModel.
Import ListNotations.
Open Scope Z_scope.

Lemma Forall2_weaken {A B} (P Q : A -> B -> Prop) l l' : (forall a b, P a b -> Q a b) -> Forall2 P l l' -> Forall2 Q l l'.
Proof. intros H. induction 1; constructor; auto. Qed.

Section Lock.
Context {TT T X : Type} {AT : Arith TT}.
Variable c : lconf TT.
Variable dt_local : Z -> store T -> TT -> Prop.
Variable godunov : Z -> Z -> TT -> store T -> store T -> Prop.
Variable holds : X -> Z -> store T -> Prop.
Variable cfl_dt : X -> TT -> Prop.
Variable adv : TT -> X -> X.
Hypothesis Hdt : forall x a m d, holds x a m -> dt_local a m d -> cfl_dt x d.
Hypothesis Huniq : forall x d d', cfl_dt x d -> cfl_dt x d' -> d = d'.
Hypothesis Hstep : forall x a b d m m', arr_ok a b -> holds x a m -> godunov a b d m m' -> holds (adv d x) b m'.
Notation loop := (loop c dt_local godunov).
Notation run := (run c dt_local godunov).
Notation next := (next_iteration c dt_local godunov).

Definition same (a b : snap TT T) : Prop :=
  sn_num a = sn_num b /\ sn_time a = sn_time b /\ exists x, holds x (sn_array a) (sn_mem a) /\ holds x (sn_array b) (sn_mem b).

Definition sync (x : X) (s r : sim TT T) : Prop :=
  m_t s = m_t r /\ m_times_saved s = m_times_saved r /\ 0 <= m_iteration r <= m_iteration s /\
  holds x (current (m_iteration s)) (mem s) /\ holds x (current (m_iteration r)) (mem r).

Lemma sync_save x s r : sync x s r -> sync x (save_solution s) (save_solution r) /\
  exists sn sn', written (save_solution s) = sn :: written s /\ written (save_solution r) = sn' :: written r /\ same sn sn'.
Proof using Type.
  clear Huniq Hdt Hstep cfl_dt adv.
  intros (H1 & H2 & H3 & H4 & H5). split; [repeat split; cbn; auto; lia|].
  eexists _, _. split; [reflexivity|]. split; [reflexivity|]. repeat split; cbn; auto. eauto.
Qed.

Definition grown (s s' r r' : sim TT T) : Prop :=
  exists l l', written s' = l ++ written s /\ written r' = l' ++ written r /\ Forall2 same l l'.

Lemma grown_refl s r : grown s s r r.
Proof. exists [], []. repeat split; constructor. Qed.
Lemma grown_trans s s1 s2 r r1 r2 : grown s s1 r r1 -> grown s1 s2 r1 r2 -> grown s s2 r r2.
Proof.
  intros (l & l' & E1 & E2 & F) (k & k' & E3 & E4 & F'). exists (k ++ l), (k' ++ l').
  rewrite E3, E4, E1, E2, !app_assoc. repeat split; auto. apply Forall2_app; auto.
Qed.

Lemma sync_edge x s r : sync x s r -> sync x (edge_save c s) (edge_save c r) /\ grown s (edge_save c s) r (edge_save c r).
Proof.
  intros H. unfold edge_save. destruct (l_nOutput c =? 0); [split; auto; apply grown_refl|].
  destruct (sync_save x s r H) as (H1 & sn & sn' & E1 & E2 & E3). split; auto. exists [sn], [sn']. repeat split; auto.
Qed.

Lemma should_same (s r : sim TT T) : m_t s = m_t r -> m_times_saved s = m_times_saved r ->
  should_save_solution c s = should_save_solution c r.
Proof. intros E1 E2. unfold should_save_solution. rewrite E1, E2. reflexivity. Qed.

Lemma sync_maybe x s r : sync x s r -> sync x (maybe_save c s) (maybe_save c r) /\ grown s (maybe_save c s) r (maybe_save c r).
Proof.
  intros H. unfold maybe_save. destruct (enableOutput c); [|split; auto; apply grown_refl].
  pose proof H as (H1 & H2 & _). rewrite (should_same s r H1 H2). destruct (should_save_solution c r); [|split; auto; apply grown_refl].
  destruct (sync_save x s r H) as (K & sn & sn' & E1 & E2 & E3). split; auto. exists [sn], [sn']. repeat split; auto.
Qed.

Lemma sync_next x s r s' r' : sync x s r -> next s s' -> next r r' -> exists x', sync x' s' r' /\ grown s s' r r'.
Proof.
  intros H N1 N2. destruct (sync_maybe x s r H) as ((_ & M1 & _) & M2).
  destruct H as (H1 & H2 & H3 & H4 & H5). destruct N1 as [d m' L1 D1 G1]. destruct N2 as [d' m'' L2 D2 G2].
  assert (d = d') by (apply (Huniq x); eauto). subst d'. rewrite <- H1 in G2.
  exists (adv (clip_dt c (m_t s) d) x). split.
  - unfold sync. cbn. rewrite H1. repeat split; auto; try lia.
    + rewrite current_next by lia. rewrite <- H1. apply (Hstep x (current (m_iteration s)) _ _ (mem s)); auto. apply arr_ok_current.
    + rewrite current_next by lia. rewrite <- H1. apply (Hstep x (current (m_iteration r)) _ _ (mem r)); auto. apply arr_ok_current.
  - exact M2.
Qed.

Lemma loop_prefix n s s' : loop n s s' -> forall k, (k < n)%nat -> exists z, loop k s z /\ finished c z = false.
Proof.
  induction 1 as [s|n s s1 s2 H1 IH F N]; intros k Hk; [lia|].
  destruct (Nat.eq_dec k n) as [-> |]; [eauto|]. apply IH. lia.
Qed.

Lemma sync_loop n : forall x s r s' r', sync x s r -> loop n s s' -> loop n r r' -> exists x', sync x' s' r' /\ grown s s' r r'.
Proof.
  induction n as [|n IH]; intros x s r s' r' H L1 L2.
  - inversion L1; subst. inversion L2; subst. exists x. split; auto. apply grown_refl.
  - inversion L1; subst. inversion L2; subst.
    match goal with A : LoopModel.loop _ _ _ n s ?a, B : LoopModel.loop _ _ _ n r ?b |- _ => destruct (IH x s r a b H A B) as (x1 & S1 & G1) end.
    match goal with A : next_iteration _ _ _ _ s', B : next_iteration _ _ _ _ r' |- _ => destruct (sync_next _ _ _ _ _ S1 A B) as (x2 & S2 & G2) end.
    exists x2. split; auto. eapply grown_trans; eauto.
Qed.

Definition by_time (s : sim TT T) : Prop := leb (sub (l_tEnd c) (lit 1 100000000000000)) (m_t s) = true.

(** Once in step, the two runs end together. *)
Theorem sync_run x s r n s1 k r1 : sync x s r -> loop n s s1 -> by_time s1 -> finished c s1 = true ->
  loop k r r1 -> finished c r1 = true ->
  exists x', sync x' (edge_save c s1) (edge_save c r1) /\ grown s (edge_save c s1) r (edge_save c r1).
Proof.
  intros H L1 B F1 L2 F2. assert (k = n).
  { destruct (lt_eq_lt_dec k n) as [[C|C]|C]; auto.
    - destruct (loop_prefix _ _ _ L1 k C) as (z & Lz & Fz). destruct (sync_loop k _ _ _ _ _ H Lz L2) as (x' & (E1 & E2 & E3 & _) & _).
      unfold finished in Fz, F2. rewrite E1 in Fz. apply orb_false_iff in Fz. destruct Fz as (Z1 & Z2). rewrite Z1 in F2. cbn in F2.
      apply Z.leb_le in F2. apply Z.leb_gt in Z2. lia.
    - destruct (loop_prefix _ _ _ L2 n C) as (z & Lz & Fz). destruct (sync_loop n _ _ _ _ _ H L1 Lz) as (x' & (E1 & E2 & E3 & _) & _).
      unfold finished in Fz. unfold by_time in B. rewrite <- E1, B in Fz. discriminate. }
  subst k. destruct (sync_loop n _ _ _ _ _ H L1 L2) as (x1 & S1 & G1). destruct (sync_edge _ _ _ S1) as (S2 & G2).
  exists x1. split; auto. eapply grown_trans; eauto.
Qed.

(** After writing a snapshot at [z], an iteration is an iteration of the state
    with the snapshot written, unless a second output is due at once. *)
Lemma next_saved z s1 : maybe_save c z = save_solution z -> should_save_solution c (save_solution z) = false ->
  next z s1 -> next (save_solution z) s1.
Proof using Type.
  clear Huniq Hdt Hstep cfl_dt adv holds X.
  intros E F N. destruct N as [d m' L1 D1 G1]. rewrite E.
  replace (save_solution z) with (maybe_save c (save_solution z)) at 2 3.
  - apply (NextIteration c dt_local godunov (save_solution z) d m'); auto.
  - unfold maybe_save. rewrite F. destruct (enableOutput c); reflexivity.
Qed.

(** Every snapshot written by the loop: the state it is taken from, and the rest of the loop. *)
Lemma loop_snap n s s1 : loop n s s1 -> forall sn, In sn (written s1) ->
  In sn (written s) \/
  exists z k, sn = Snap (m_times_saved z) (m_t z) (current (m_iteration z)) (mem z) /\ m_iteration s <= m_iteration z /\ finished c z = false /\
    (should_save_solution c (save_solution z) = false -> loop k (save_solution z) s1).
Proof using Type.
  clear Huniq Hdt Hstep cfl_dt adv holds X.
  induction 1 as [s|n s s1 s2 H1 IH F N]; intros sn Hin; [auto|].
  assert (N' := N). destruct N' as [d m' L1 D1 G1]. cbn [written] in Hin.
  assert (D : In sn (written s1) \/ (maybe_save c s1 = save_solution s1 /\ sn = Snap (m_times_saved s1) (m_t s1) (current (m_iteration s1)) (mem s1))).
  { destruct (maybe_cases c s1) as [E|E]; rewrite E in Hin; [auto|]. destruct Hin as [<- |]; auto. }
  destruct D as [D|(E & ->)].
  - destruct (IH sn D) as [|(z & k & -> & Z1 & Z2 & Z3)]; auto. right. exists z, (S k). repeat split; auto.
    intros Q. econstructor; eauto.
  - right. exists s1, 1%nat. split; [reflexivity|]. split; [apply loop_iter in H1; lia|]. split; auto. intros Q.
    econstructor; [constructor| exact F |]. apply next_saved; auto.
Qed.

Lemma run_snap s0 s' sn : written s0 = [] -> run s0 s' -> In sn (written s') ->
  leb (sub (l_tEnd c) (lit 1 100000000000000)) (sn_time sn) = false ->
  (forall z : sim TT T, m_times_saved z = sn_num sn -> m_t z = sn_time sn -> should_save_solution c (save_solution z) = false) ->
  (exists s1, s' = edge_save c s1 /\ by_time s1) ->
  exists z k s1, sn = Snap (m_times_saved z) (m_t z) (current (m_iteration z)) (mem z) /\ l_nOutput c <> 0 /\ m_iteration s0 <= m_iteration z /\
    loop k (save_solution z) s1 /\ finished c s1 = true /\ by_time s1 /\ s' = edge_save c s1.
Proof using Type.
  clear Huniq Hdt Hstep cfl_dt adv holds X.
  intros Hw [n s1 L F ->] Hin Ht Hd (s1' & E' & B').
  assert (B : by_time s1).
  { unfold by_time in *. assert (m_t (edge_save c s1) = m_t (edge_save c s1')) by (rewrite E'; reflexivity).
    destruct (edge_same c s1) as (X1 & _), (edge_same c s1') as (X2 & _). congruence. }
  assert (HnO : l_nOutput c <> 0).
  { intros HnO. destruct (no_output c dt_local godunov n _ _ HnO L) as (W & _). destruct (edge_cases c s1) as [(_ & E)|(? & _)]; [|tauto].
    rewrite E, W in Hin. destruct (edge_cases c s0) as [(_ & E0)|(? & _)]; [|tauto]. rewrite E0, Hw in Hin. destruct Hin. }
  destruct (edge_cases c s1) as [(? & _)|(_ & E)]; [tauto|]. rewrite E in Hin. destruct Hin as [<- |Hin].
  { cbn [sn_time] in Ht. unfold by_time in B. congruence. }
  destruct (edge_cases c s0) as [(? & _)|(_ & E0)]; [tauto|]. rewrite E0 in L.
  destruct (loop_snap n _ _ L sn Hin) as [D|(z & k & -> & Z1 & Z2 & Z3)].
  - cbn [written save_solution] in D. rewrite Hw in D. destruct D as [<- |[]]. exists s0, n, s1. repeat split; auto. lia.
  - exists z, k, s1. repeat split; auto.
Qed.
End Lock.

(** ** The restarted solver holds the interior of the snapshot *)
Section Loaded.
Context {TT T : Type} {AT : Arith TT} {A : Arith T}.
Variables (g : grid) (io : ioconf) (ly1 ly2 : layout).
Hypothesis Hres : halfResolution io = false.

Lemma restarted2 reset (sn : snap TT T) f r : hydro_grid2 g -> snapshot_file false false g io ly1 sn f -> restarted false g io ly2 reset f r ->
  m_t r = (if reset then zero else sn_time sn) /\ m_times_saved r = sn_num sn /\ m_iteration r = 0 /\ written r = [] /\
  (forall i j v, inside2 g i j -> 0 <= v < 4 -> mem r (Loc aU i j 0 v) = sn_mem sn (Loc (sn_array sn) i j 0 v)) /\
  (forall i j k d, mem r (Loc aG i j k d) = zero).
Proof.
  intros (G1 & G2 & G3 & G4) (fill & b & jk & Hb & ->) [junk m1 m2 dt r0 E H1 H0 Hk].
  assert (Hok : grid_ok2d g) by (unfold grid_ok2d; lia).
  assert (Hio : io_grid false false g) by (unfold io_grid; intuition (try lia; try discriminate)).
  destruct (fill2_spec false g aU m1 m2 Hok Hk) as [B1 B2]. subst r0. cbn [load snd fst save h_step h_time m_t m_times_saved m_iteration written mem].
  repeat split.
  - intros i j v Hi Hv. cbn [la]. replace (aU =? aU2) with false by reflexivity.
    pose proof Hi as Hi'. unfold inside2 in Hi'. rewrite B1 by lia. rewrite filled2d_interior by lia.
    rewrite H1 by (try (unfold isize, jsize, imax, imin, jmax, jmin); lia).
    pose proof (round_trip (TT := TT) false false io ly1 ly2 g fill b jk junk (fun _ => zero) (sn_num sn) (sn_time sn) i j 0 v Hio Hres) as R.
    etransitivity; [apply R; [clear R|lia]|clear R].
    2:{ unfold elem. apply Hb; try (unfold isize, jsize, imax, imin, jmax, jmin); lia. }
    unfold in_array, interior. destruct (ghostIncluded io); [unfold isize, jsize, imax, imin, jmax, jmin|]; lia.
  - intros i j k d. cbn [la]. replace (aG =? aU2) with false by reflexivity. rewrite B2; [apply H0; discriminate|].
    intros (K & _). discriminate.
Qed.

Lemma restarted3 reset (sn : snap TT T) f r : hydro_grid3 g -> snapshot_file true false g io ly1 sn f -> restarted true g io ly2 reset f r ->
  m_t r = (if reset then zero else sn_time sn) /\ m_times_saved r = sn_num sn /\ m_iteration r = 0 /\ written r = [] /\
  (forall i j k v, inside3 g i j k -> 0 <= v < 5 -> mem r (Loc aU i j k v) = sn_mem sn (Loc (sn_array sn) i j k v)) /\
  (forall i j k d, mem r (Loc aG i j k d) = zero).
Proof.
  intros (G1 & G2 & G3 & G4 & G5) (fill & b & jk & Hb & ->) [junk m1 m2 dt r0 E H1 H0 Hk].
  assert (Hok : grid_ok3d g) by (unfold grid_ok3d, grid_ok2d; lia).
  assert (Hio : io_grid true false g) by (unfold io_grid; intuition (try lia; try discriminate)).
  destruct (fill3_spec false g aU m1 m2 Hok Hk) as [B1 B2]. subst r0. cbn [load snd fst save h_step h_time m_t m_times_saved m_iteration written mem].
  repeat split.
  - intros i j k v Hi Hv. cbn [la]. replace (aU =? aU2) with false by reflexivity.
    pose proof Hi as Hi'. unfold inside3 in Hi'. rewrite B1 by lia. rewrite filled3d_interior by lia.
    rewrite H1 by (try (unfold isize, jsize, ksize, imax, imin, jmax, jmin, kmax, kmin); lia).
    pose proof (round_trip (TT := TT) true false io ly1 ly2 g fill b jk junk (fun _ => zero) (sn_num sn) (sn_time sn) i j k v Hio Hres) as R.
    etransitivity; [apply R; [clear R|lia]|clear R].
    2:{ unfold elem. apply Hb; try (unfold isize, jsize, ksize, imax, imin, jmax, jmin, kmax, kmin); lia. }
    unfold in_array, interior. destruct (ghostIncluded io); [unfold isize, jsize, ksize, imax, imin, jmax, jmin, kmax, kmin|]; lia.
  - intros i j k d. cbn [la]. replace (aG =? aU2) with false by reflexivity. rewrite B2; [apply H0; discriminate|].
    intros (K & _). discriminate.
Qed.
End Loaded.

(** ** The hydrodynamics solver *)
Open Scope R_scope.
Section Hydro.
Variables (p : hparams R) (g : grid) (lowest : R) (ge : bool) (impl : Z) (c : lconf R) (io : ioconf) (ly1 ly2 : layout).
Hypothesis Himpl : impl = 0%Z \/ impl = 1%Z.
Hypothesis Hs : slope_ok p.
Hypothesis Hp : params_ok p.
Hypothesis Hdx : 0 < dx p.
Hypothesis Hdy : 0 < dy p.
Hypothesis Hl : lowest <= 0.
Hypothesis Hres : halfResolution io = false.

Definition zg2 : Z -> Z -> Z -> R := fun _ _ _ => 0.
Definition zg3 : Z -> Z -> Z -> Z -> R := fun _ _ _ _ => 0.

Definition keeps2 (u : Z -> Z -> Z -> R) (a : Z) (m : store R) : Prop :=
  holds2 g u a m /\ (ge = true -> gravity_is2 zg2 m) /\ a <> aG.
Definition keeps3 (u : Z -> Z -> Z -> Z -> R) (a : Z) (m : store R) : Prop :=
  holds3 g u a m /\ (ge = true -> gravity_is3 zg3 m) /\ a <> aG.

Lemma keeps2_dt u a m d : keeps2 u a m -> hydro_dt2 p g lowest ge a m d -> cfl2 p g lowest ge zg2 u d.
Proof.
  intros (H1 & H2 & H3) Hd. destruct ge.
  - eapply dt_store2; eauto.
  - pose proof (dt_store2 p g lowest false u (fun i j d => m (Loc aG i j 0%Z d)) a m d H3 H1 ltac:(intros ? ? ?; reflexivity) Hd) as (r & Hr & ->).
    exists r. split; [exact Hr|reflexivity].
Qed.
Lemma keeps3_dt u a m d : keeps3 u a m -> hydro_dt3 p g lowest ge a m d -> cfl3 p g lowest ge zg3 u d.
Proof.
  intros (H1 & H2 & H3) Hd. destruct ge.
  - eapply dt_store3; eauto.
  - pose proof (dt_store3 p g lowest false u (fun i j k d => m (Loc aG i j k d)) a m d H3 H1 ltac:(intros ? ? ? ?; reflexivity) Hd) as (r & Hr & ->).
    exists r. split; [exact Hr|reflexivity].
Qed.

Lemma keeps2_step u a b d m m' : hydro_grid2 g -> riemann_ok2 p -> arr_ok a b -> keeps2 u a m -> hydro_step2 p g ge impl a b d m m' ->
  keeps2 (adv2 p g ge zg2 d u) b m'.
Proof.
  intros Hg Hr Ha (H1 & H2 & H3) St. unfold keeps2. destruct ge.
  - destruct (step_store2 p g true impl Himpl Hs u zg2 a b d m m') as [Y1 Y2]; auto. split; [exact Y1|]. split; [intros _; exact Y2|]. clear - Ha. arrays; lia.
  - destruct (step_store2 p g false impl Himpl Hs u (fun i j d => m (Loc aG i j 0%Z d)) a b d m m') as [Y1 Y2]; auto.
    all: try (intros ? ? ?; reflexivity).
    split; [exact Y1|]. split; [discriminate|]. clear - Ha. arrays; lia.
Qed.
Lemma keeps3_step u a b d m m' : hydro_grid3 g -> riemann_ok3 p -> arr_ok a b -> keeps3 u a m -> hydro_step3 p g ge impl a b d m m' ->
  keeps3 (adv3 p g ge impl zg3 d u) b m'.
Proof.
  intros Hg Hr Ha (H1 & H2 & H3) St. unfold keeps3. destruct ge.
  - destruct (step_store3 p g true impl Himpl Hs u zg3 a b d m m') as [Y1 Y2]; auto. split; [exact Y1|]. split; [intros _; exact Y2|]. clear - Ha. arrays; lia.
  - destruct (step_store3 p g false impl Himpl Hs u (fun i j k d => m (Loc aG i j k d)) a b d m m') as [Y1 Y2]; auto.
    all: try (intros ? ? ? ?; reflexivity).
    split; [clear - Y1 Himpl; revert Y1; destruct Himpl as [E|E]; rewrite E; intros Y1; exact Y1|]. split; [discriminate|]. clear - Ha. arrays; lia.
Qed.

(** No second output is due when the loop comes to a snapshot again. *)
Lemma not_due (z : sim R R) : (0 < l_nOutput c)%Z ->
  m_t z <= IZR (m_times_saved z + 1) * (l_tEnd c / IZR (l_nOutput c)) -> m_t z <= l_tEnd c - / 1000000000000 ->
  should_save_solution c (save_solution z) = false.
Proof.
  intros Hn H1 H2. unfold should_save_solution. cbn [m_t m_times_saved save_solution ltb absv sub mul div lit RArith].
  replace (l_nOutput c <? 0)%Z with false by (symmetry; apply Z.ltb_ge; lia).
  replace (m_times_saved z + 1 - 1)%Z with (m_times_saved z) by lia. rewrite plus_IZR in H1.
  replace (IZR (l_nOutput c) / IZR 1) with (IZR (l_nOutput c)) by (field).
  replace (IZR (m_times_saved z) / IZR 1) with (IZR (m_times_saved z)) by (field).
  destruct Rlt_dec as [L|_]; [exfalso; cbn in H1; lra|]. destruct Rlt_dec as [L|_]; auto.
  exfalso. revert L. rewrite Rabs_left1 by lra. cbn. lra.
Qed.

Theorem restart2 (s0 s' r r' : sim R R) sn f : hydro_grid2 g -> riemann_ok2 p -> (0 < l_nOutput c)%Z ->
  (0 <= m_iteration s0)%Z -> written s0 = [] ->
  run c (hydro_dt2 p g lowest ge) (hydro_step2 p g ge impl) s0 s' -> l_tEnd c - / 100000000000000 <= m_t s' ->
  In sn (written s') -> (ge = true -> gravity_is2 zg2 (sn_mem sn)) ->
  sn_time sn <= IZR (sn_num sn + 1) * (l_tEnd c / IZR (l_nOutput c)) -> sn_time sn <= l_tEnd c - / 1000000000000 ->
  snapshot_file false false g io ly1 sn f -> restarted false g io ly2 false f r ->
  run c (hydro_dt2 p g lowest ge) (hydro_step2 p g ge impl) r r' ->
  m_t r' = m_t s' /\ m_times_saved r' = m_times_saved s' /\
  (exists u, holds2 g u (current (m_iteration s')) (mem s') /\ holds2 g u (current (m_iteration r')) (mem r')) /\
  exists l rest, written s' = l ++ rest /\ last l sn = sn /\ l <> [] /\
    Forall2 (fun a b => sn_num a = sn_num b /\ sn_time a = sn_time b /\
               exists u, holds2 g u (sn_array a) (sn_mem a) /\ holds2 g u (sn_array b) (sn_mem b)) l (written r').
Proof.
  intros Hg Hr Hn Hi0 Hw0 Hrun Hend Hin Hgrav Hd1 Hd2 Hf Hres' Hrun'.
  destruct (restarted2 g io ly1 ly2 Hres false sn f r Hg Hf Hres') as (R1 & R2 & R3 & R4 & R5 & R6).
  assert (Hbt : exists s1, s' = edge_save c s1 /\ by_time c s1).
  { destruct Hrun as [n s1 L F ->]. exists s1. split; auto. destruct (edge_same c s1) as (X1 & _). rewrite X1 in Hend.
    unfold by_time. cbn [leb sub lit RArith]. destruct Rle_dec; auto. exfalso. lra. }
  destruct (run_snap c _ _ s0 s' sn Hw0 Hrun Hin) as (z & k & s1 & E & HnO & Hit & L & F & B & ->); auto.
  { cbn [leb sub lit RArith]. destruct Rle_dec; auto. exfalso. lra. }
  { intros z Z1 Z2. apply not_due; auto; rewrite ?Z1, Z2; auto. }
  destruct Hrun' as [k' r1 L' F' ->].
  pose (u := fun i j v => sn_mem sn (Loc (sn_array sn) i j 0%Z v)).
  assert (HS : sync keeps2 u z r).
  { subst sn. cbn [sn_mem sn_array sn_num sn_time] in *. split; [auto|]. split; [auto|]. split; [lia|]. rewrite R3. split; (split; [|split]).
    - intros i j v _ _. reflexivity.
    - exact Hgrav.
    - unfold current. destruct (Z.rem _ 2 =? 0)%Z; discriminate.
    - intros i j v Hi Hv. apply R5; auto.
    - intros _ i j d. apply R6.
    - discriminate. }
  destruct (sync_save keeps2 u z r HS) as (HS2 & sn1 & sn2 & W1 & W2 & W3).
  assert (Er : edge_save c r = save_solution r) by (destruct (edge_cases c r) as [(? & _)|(_ & ?)]; [lia|auto]). rewrite Er in L'.
  destruct (sync_run c (hydro_dt2 p g lowest ge) (hydro_step2 p g ge impl) keeps2 (cfl2 p g lowest ge zg2) (adv2 p g ge zg2)) with (x := u) (s := save_solution z) (r := save_solution r)
    (n := k) (s1 := s1) (k := k') (r1 := r1) as (x' & S' & (l & l' & G1 & G2 & G3)); auto.
  { intros. eapply keeps2_dt; eauto. }
  { intros x d d' C1 C2. exact (dt_det2 p g lowest ge _ aU d d' Hp Hdx Hdy Hl Hg C1 C2). }
  { intros. eapply keeps2_step; eauto. }
  destruct S' as (S1 & S2 & S3 & S4 & S5). split; auto. split; auto. split.
  { exists x'. split; [apply S4|apply S5]. }
  exists (l ++ [sn1]), (written z). rewrite G1, W1, <- app_assoc. split; [reflexivity|].
  split; [rewrite last_last; cbn in W1; injection W1 as <-; congruence|]. split; [destruct l; discriminate|].
  rewrite G2, W2, R4. apply Forall2_app; [|constructor; [|constructor]].
  - eapply Forall2_weaken; [|exact G3]. intros a b (Q1 & Q2 & x & (Q3 & _) & (Q4 & _)). eauto.
  - destruct W3 as (Q1 & Q2 & x & (Q3 & _) & (Q4 & _)). eauto.
Qed.

Hypothesis Hdz : 0 < dz p.
Theorem restart3 (s0 s' r r' : sim R R) sn f : hydro_grid3 g -> riemann_ok3 p -> (0 < l_nOutput c)%Z ->
  (0 <= m_iteration s0)%Z -> written s0 = [] ->
  run c (hydro_dt3 p g lowest ge) (hydro_step3 p g ge impl) s0 s' -> l_tEnd c - / 100000000000000 <= m_t s' ->
  In sn (written s') -> (ge = true -> gravity_is3 zg3 (sn_mem sn)) ->
  sn_time sn <= IZR (sn_num sn + 1) * (l_tEnd c / IZR (l_nOutput c)) -> sn_time sn <= l_tEnd c - / 1000000000000 ->
  snapshot_file true false g io ly1 sn f -> restarted true g io ly2 false f r ->
  run c (hydro_dt3 p g lowest ge) (hydro_step3 p g ge impl) r r' ->
  m_t r' = m_t s' /\ m_times_saved r' = m_times_saved s' /\
  (exists u, holds3 g u (current (m_iteration s')) (mem s') /\ holds3 g u (current (m_iteration r')) (mem r')) /\
  exists l rest, written s' = l ++ rest /\ last l sn = sn /\ l <> [] /\
    Forall2 (fun a b => sn_num a = sn_num b /\ sn_time a = sn_time b /\
               exists u, holds3 g u (sn_array a) (sn_mem a) /\ holds3 g u (sn_array b) (sn_mem b)) l (written r').
Proof.
  intros Hg Hr Hn Hi0 Hw0 Hrun Hend Hin Hgrav Hd1 Hd2 Hf Hres' Hrun'.
  destruct (restarted3 g io ly1 ly2 Hres false sn f r Hg Hf Hres') as (R1 & R2 & R3 & R4 & R5 & R6).
  assert (Hbt : exists s1, s' = edge_save c s1 /\ by_time c s1).
  { destruct Hrun as [n s1 L F ->]. exists s1. split; auto. destruct (edge_same c s1) as (X1 & _). rewrite X1 in Hend.
    unfold by_time. cbn [leb sub lit RArith]. destruct Rle_dec; auto. exfalso. lra. }
  destruct (run_snap c _ _ s0 s' sn Hw0 Hrun Hin) as (z & k & s1 & E & HnO & Hit & L & F & B & ->); auto.
  { cbn [leb sub lit RArith]. destruct Rle_dec; auto. exfalso. lra. }
  { intros z Z1 Z2. apply not_due; auto; rewrite ?Z1, Z2; auto. }
  destruct Hrun' as [k' r1 L' F' ->].
  pose (u := fun i j k v => sn_mem sn (Loc (sn_array sn) i j k v)).
  assert (HS : sync keeps3 u z r).
  { subst sn. cbn [sn_mem sn_array sn_num sn_time] in *. split; [auto|]. split; [auto|]. split; [lia|]. rewrite R3. split; (split; [|split]).
    - intros i j k0 v _ _. reflexivity.
    - exact Hgrav.
    - unfold current. destruct (Z.rem _ 2 =? 0)%Z; discriminate.
    - intros i j k0 v Hi Hv. apply R5; auto.
    - intros _ i j k0 d. apply R6.
    - discriminate. }
  destruct (sync_save keeps3 u z r HS) as (HS2 & sn1 & sn2 & W1 & W2 & W3).
  assert (Er : edge_save c r = save_solution r) by (destruct (edge_cases c r) as [(? & _)|(_ & ?)]; [lia|auto]). rewrite Er in L'.
  destruct (sync_run c (hydro_dt3 p g lowest ge) (hydro_step3 p g ge impl) keeps3 (cfl3 p g lowest ge zg3) (adv3 p g ge impl zg3)) with (x := u) (s := save_solution z) (r := save_solution r)
    (n := k) (s1 := s1) (k := k') (r1 := r1) as (x' & S' & (l & l' & G1 & G2 & G3)); auto.
  { intros. eapply keeps3_dt; eauto. }
  { intros x d d' C1 C2. exact (dt_det3 p g lowest ge _ aU d d' Hp Hdx Hdy Hdz Hl Hg C1 C2). }
  { intros. eapply keeps3_step; eauto. }
  destruct S' as (S1 & S2 & S3 & S4 & S5). split; auto. split; auto. split.
  { exists x'. split; [apply S4|apply S5]. }
  exists (l ++ [sn1]), (written z). rewrite G1, W1, <- app_assoc. split; [reflexivity|].
  split; [rewrite last_last; cbn in W1; injection W1 as <-; congruence|]. split; [destruct l; discriminate|].
  rewrite G2, W2, R4. apply Forall2_app; [|constructor; [|constructor]].
  - eapply Forall2_weaken; [|exact G3]. intros a b (Q1 & Q2 & x & (Q3 & _) & (Q4 & _)). eauto.
  - destruct W3 as (Q1 & Q2 & x & (Q3 & _) & (Q4 & _)). eauto.
Qed.
End Hydro.
