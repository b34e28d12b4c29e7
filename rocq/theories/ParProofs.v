(** Generic facts about kernel programs and parallel loops. *)
From Coq Require Import ZArith List Bool Lia FinFun Permutation.
From Verif Require Import Par.
Import ListNotations.
Open Scope Z_scope.

Lemma loc_eqb_spec x y : reflect (x = y) (loc_eqb x y).
Proof.
  destruct x as [a i j k v], y as [a' i' j' k' v']; unfold loc_eqb; cbn [la li lj lk lv].
  destruct (Z.eqb_spec a a'); [|constructor; congruence].
  destruct (Z.eqb_spec i i'); [|constructor; congruence].
  destruct (Z.eqb_spec j j'); [|constructor; congruence].
  destruct (Z.eqb_spec k k'); [|constructor; congruence].
  destruct (Z.eqb_spec v v'); constructor; congruence.
Qed.

Lemma loc_eqb_refl x : loc_eqb x x = true.
Proof. destruct (loc_eqb_spec x x); congruence. Qed.

Lemma loc_eq_dec (x y : loc) : {x = y} + {x <> y}.
Proof. destruct (loc_eqb_spec x y); [left|right]; assumption. Qed.

Lemma In_zrange a b x : In x (zrange a b) <-> a <= x < b.
Proof.
  unfold zrange; rewrite in_map_iff; split.
  - intros (n & <- & Hn); apply in_seq in Hn; lia.
  - intros H; exists (Z.to_nat (x - a)); split; [lia|]. apply in_seq; lia.
Qed.

Lemma NoDup_zrange a b : NoDup (zrange a b).
Proof.
  unfold zrange. apply Injective_map_NoDup; [|apply seq_NoDup].
  intros x y H; lia.
Qed.

Lemma zrange_nil a b : b <= a -> zrange a b = [].
Proof. intros H; unfold zrange. replace (Z.to_nat (b - a)) with O by lia. reflexivity. Qed.

Lemma zrange_cons a b : a < b -> zrange a b = a :: zrange (a + 1) b.
Proof.
  intros H; unfold zrange. replace (Z.to_nat (b - a)) with (S (Z.to_nat (b - (a + 1)))) by lia.
  cbn [List.seq map]. f_equal; [lia|]. rewrite <- seq_shift, map_map.
  apply map_ext; intros n; lia.
Qed.

Lemma zrange_snoc a b : a < b -> zrange a b = zrange a (b - 1) ++ [b - 1].
Proof.
  intros H; unfold zrange. replace (Z.to_nat (b - a)) with (S (Z.to_nat (b - 1 - a))) by lia.
  rewrite seq_S, map_app. cbn [map]. do 2 f_equal. lia.
Qed.

Lemma zrange_length a b : length (zrange a b) = Z.to_nat (b - a).
Proof. unfold zrange. rewrite map_length, seq_length. reflexivity. Qed.

Section ParProofs.
Context {T : Type}.
Notation store := (store T).
Notation prog := (prog T).

Lemma upd_same (s : store) l v : upd s l v l = v.
Proof. unfold upd; now rewrite loc_eqb_refl. Qed.

Lemma upd_other (s : store) l l' v : l <> l' -> upd s l v l' = s l'.
Proof. unfold upd; destruct (loc_eqb_spec l l'); congruence. Qed.

Lemma run_bind {A B} (p : prog A) (f : A -> prog B) s :
  run (bind p f) s = run (f (fst (run p s))) (snd (run p s)).
Proof. revert s; induction p as [a|l k IH|l v k IH|l g k IH]; intros s; cbn; auto. Qed.

Lemma exec_bind {A B} (p : prog A) (f : A -> prog B) s :
  exec (bind p f) s = exec (f (fst (run p s))) (exec p s).
Proof. unfold exec; now rewrite run_bind. Qed.

Lemma reads_in_bind {A B} P (p : prog A) (f : A -> prog B) :
  reads_in P p -> (forall a, reads_in P (f a)) -> reads_in P (bind p f).
Proof.
  intros Hp Hf; induction p as [a|l k IH|l v k IH|l g k IH]; cbn in *; auto.
  destruct Hp as [Hl Hk]; split; auto.
Qed.

Lemma writes_in_bind {A B} P (p : prog A) (f : A -> prog B) :
  writes_in P p -> (forall a, writes_in P (f a)) -> writes_in P (bind p f).
Proof.
  intros Hp Hf; induction p as [a|l k IH|l v k IH|l g k IH]; cbn in *; auto.
  destruct Hp as [Hl Hk]; split; auto.
Qed.

Lemma rmws_in_bind {A B} P (p : prog A) (f : A -> prog B) :
  rmws_in P p -> (forall a, rmws_in P (f a)) -> rmws_in P (bind p f).
Proof.
  intros Hp Hf; induction p as [a|l k IH|l v k IH|l g k IH]; cbn in *; auto.
  destruct Hp as [Hl Hk]; split; auto.
Qed.

Lemma reads_in_mono {A} (P Q : loc -> Prop) (p : prog A) :
  (forall l, P l -> Q l) -> reads_in P p -> reads_in Q p.
Proof. intros H; induction p; cbn in *; intuition auto. Qed.
Lemma writes_in_mono {A} (P Q : loc -> Prop) (p : prog A) :
  (forall l, P l -> Q l) -> writes_in P p -> writes_in Q p.
Proof. intros H; induction p; cbn in *; intuition auto. Qed.
Lemma rmws_in_mono {A} (P Q : loc -> Prop) (p : prog A) :
  (forall l, P l -> Q l) -> rmws_in P p -> rmws_in Q p.
Proof. intros H; induction p; cbn in *; intuition auto. Qed.

(** A program only changes locations in its write footprint. *)
Lemma exec_frame {A} W (p : prog A) s l :
  no_rmw p -> writes_in W p -> ~ W l -> exec p s l = s l.
Proof.
  unfold exec, no_rmw. revert s; induction p as [a|l0 k IH|l0 v k IH|l0 g k IH]; cbn; intros s Hm Hw Hl; auto.
  - destruct Hw as [Hw0 Hw]. rewrite IH; auto. apply upd_other; congruence.
  - tauto.
Qed.

(** Results only depend on the read footprint; the written values too. *)
Lemma run_agree {A} R W (p : prog A) s1 s2 :
  no_rmw p -> reads_in R p -> writes_in W p ->
  (forall l, R l -> s1 l = s2 l) ->
  fst (run p s1) = fst (run p s2) /\
  (forall l, s1 l = s2 l -> snd (run p s1) l = snd (run p s2) l).
Proof.
  unfold no_rmw. revert s1 s2; induction p as [a|l0 k IH|l0 v k IH|l0 g k IH]; cbn; intros s1 s2 Hm Hr Hw He.
  - auto.
  - destruct Hr as [Hr0 Hr]. rewrite (He _ Hr0). apply IH; auto.
  - destruct Hw as [Hw0 Hw].
    destruct (IH (upd s1 l0 v) (upd s2 l0 v)) as [IH1 IH2]; auto.
    { intros l Hl. unfold upd. destruct (loc_eqb l0 l); auto. }
    split; auto. intros l Hl. apply IH2. unfold upd. destruct (loc_eqb l0 l); auto.
  - tauto.
Qed.

(** The value left in a location the program certainly wrote does not depend
    on what was there before, provided it wrote it in both runs; the form
    below is the one used for kernels: the two memories agree on the reads. *)
Lemma run_seq {A} (p : prog A) s1 s2 :
  (forall l, s1 l = s2 l) ->
  fst (run p s1) = fst (run p s2) /\ (forall l, snd (run p s1) l = snd (run p s2) l).
Proof.
  revert s1 s2; induction p as [a|l0 k IH|l0 v k IH|l0 g k IH]; cbn; intros s1 s2 He.
  - auto.
  - rewrite (He l0). apply IH; auto.
  - apply IH. intros l. unfold upd. destruct (loc_eqb l0 l); auto.
  - apply IH. intros l. rewrite (He l0). unfold upd. destruct (loc_eqb l0 l); auto.
Qed.

Lemma exec_seq {A} (p : prog A) s1 s2 : Par.seq s1 s2 -> Par.seq (exec p s1) (exec p s2).
Proof. intros H l. exact (proj2 (run_seq p s1 s2 H) l). Qed.

(** ** Race-free loops *)
Section RaceFree.
Context {I : Type} (idx : list I).
Variables (Rf Wf : I -> loc -> Prop).
Hypothesis race_free :
  forall i j l, In i idx -> In j idx -> i <> j -> Wf i l -> ~ Wf j l /\ ~ Rf j l.

Definition ok (i : I) (p : prog unit) : Prop :=
  no_rmw p /\ reads_in (Rf i) p /\ writes_in (Wf i) p.

Definition thread_inv (s0 s : store) (body : I -> prog unit) (i : I) (p : prog unit) : Prop :=
  ok i p /\ forall l, Wf i l -> exec p s l = exec (body i) s0 l.

Definition pool_inv (s0 : store) (body : I -> prog unit) (c : store * list (prog unit)) : Prop :=
  Forall2 (thread_inv s0 (fst c) body) idx (snd c) /\
  forall l, (forall i, In i idx -> ~ Wf i l) -> fst c l = s0 l.

Lemma tstep_ok i (p p' : prog unit) (s s' : store) : ok i p -> tstep s p s' p' -> ok i p'.
Proof.
  unfold ok, no_rmw; intros (Hm & Hr & Hw) H; destruct H; cbn in *; intuition auto.
Qed.

Lemma tstep_exec (p p' : prog unit) (s s' : store) : tstep s p s' p' -> exec p s = exec p' s'.
Proof. unfold exec; intros H; destruct H; reflexivity. Qed.

Lemma tstep_frame i (p p' : prog unit) (s s' : store) l : ok i p -> tstep s p s' p' -> ~ Wf i l -> s' l = s l.
Proof.
  unfold ok, no_rmw; intros (Hm & Hr & Hw) H Hl; destruct H; cbn in *; auto.
  - apply upd_other. intros ->. tauto.
  - tauto.
Qed.

Lemma ok_other i j (p q : prog unit) (s s' : store) (q' : prog unit) l :
  In i idx -> In j idx -> i <> j -> ok i p -> ok j q -> tstep s q s' q' ->
  Wf i l -> exec p s' l = exec p s l.
Proof.
  intros Hi Hj Hij Hp Hq Hst Hl.
  destruct Hp as (Hm & Hr & Hw).
  unfold exec. apply (run_agree (Rf i) (Wf i) p s' s); auto.
  - intros l0 Hl0. apply (tstep_frame j q q' s s'); auto.
    intros Hc. apply (race_free j i l0) in Hc; auto. tauto.
  - apply (tstep_frame j q q' s s'); auto.
    intros Hc. apply (race_free j i l) in Hc; auto. tauto.
Qed.

Lemma pool_inv_step s0 body c c' : NoDup idx -> pool_inv s0 body c -> pstep c c' -> pool_inv s0 body c'.
Proof.
  intros Hnd [HF Hfr] Hst. inversion Hst as [s s' pre p p' post Hts]; subst; cbn [fst snd] in *.
  apply Forall2_app_inv_r in HF. destruct HF as (ipre & irest & Hpre & Hrest & Hidx).
  inversion Hrest as [|i p0 ipost post0 Hi Hpost]; subst.
  assert (Hini : In i idx) by (rewrite Hidx; apply in_app_iff; right; left; reflexivity).
  assert (Hne : forall j, In j ipre \/ In j ipost -> i <> j).
  { intros j Hj ->. rewrite Hidx in Hnd. apply NoDup_remove_2 in Hnd. apply Hnd, in_app_iff; auto. }
  assert (Hinj : forall j, In j ipre \/ In j ipost -> In j idx).
  { intros j Hj. rewrite Hidx. apply in_app_iff. cbn. tauto. }
  destruct Hi as [Hok Hval].
  assert (Hoth : forall js qs, (forall j, In j js -> In j ipre \/ In j ipost) ->
            Forall2 (thread_inv s0 s body) js qs -> Forall2 (thread_inv s0 s' body) js qs).
  { intros js qs Hjs HF2. induction HF2 as [|j q js qs Hjq HF2 IH]; constructor.
    - destruct Hjq as [Hokj Hvalj]. split; auto. intros l Hl.
      rewrite <- Hvalj by auto.
      assert (Hj : In j ipre \/ In j ipost) by (apply Hjs; left; reflexivity).
      apply (ok_other j i q p s s' p' l); auto. intros ->. exact (Hne i Hj eq_refl).
    - apply IH. intros j' Hj'. apply Hjs. right; auto. }
  split; cbn [fst snd].
  - rewrite Hidx. apply Forall2_app; [apply Hoth; auto|]. constructor; [|apply Hoth; auto].
    split.
    + eapply tstep_ok; eauto.
    + intros l Hl. rewrite <- (tstep_exec p p' s s' Hts). auto.
  - intros l Hl. rewrite <- Hfr by auto. apply (tstep_frame i p p' s s'); auto.
Qed.

Lemma pool_inv_star s0 body c c' : NoDup idx -> pool_inv s0 body c -> pstar c c' -> pool_inv s0 body c'.
Proof. intros Hnd Hi Hs; induction Hs as [c|c1 c2 c3 H12 H23 IH]; auto. apply IH. eapply pool_inv_step; eauto. Qed.

Lemma Forall2_map_r {X Y} (P : X -> Y -> Prop) (f : X -> Y) (xs : list X) :
  (forall x, In x xs -> P x (f x)) -> Forall2 P xs (map f xs).
Proof. induction xs as [|x xs IH]; cbn; intros H; constructor; auto. Qed.

Lemma Forall2_In_l {X Y} (P : X -> Y -> Prop) xs ys x :
  Forall2 P xs ys -> In x xs -> exists y, In y ys /\ P x y.
Proof.
  induction 1 as [|x0 y0 xs ys H HF IH]; cbn; [tauto|].
  intros [->|Hin]; [exists y0; auto|]. destruct (IH Hin) as (y & Hy & HP). exists y; auto.
Qed.

(** The result of a race-free loop under every interleaving. *)
Lemma par_for_spec (body : I -> prog unit) s s' :
  NoDup idx -> (forall i, In i idx -> ok i (body i)) ->
  par_exec s (map body idx) s' ->
  (forall i l, In i idx -> Wf i l -> s' l = exec (body i) s l) /\
  (forall l, (forall i, In i idx -> ~ Wf i l) -> s' l = s l).
Proof.
  intros Hnd Hok (ps' & Hst & Hdone).
  assert (Hinv : pool_inv s body (s', ps')).
  { eapply pool_inv_star; eauto. split; cbn [fst snd]; auto.
    apply Forall2_map_r. intros i Hi. split; auto. }
  destruct Hinv as [HF Hfr]; cbn [fst snd] in *. split; auto.
  intros i l Hi Hl. destruct (Forall2_In_l _ _ _ i HF Hi) as (p & Hp & Hokp & Hval).
  rewrite <- Hval by auto. rewrite (Hdone p Hp). reflexivity.
Qed.

End RaceFree.

(** Every pool has a complete execution (threads run one after the other). *)
Lemma pstar_trans (c1 c2 c3 : store * list (prog unit)) : pstar c1 c2 -> pstar c2 c3 -> pstar c1 c3.
Proof. induction 1; intros; auto. econstructor; eauto. Qed.

Lemma pstar_thread pre post (p : prog unit) s :
  pstar (s, pre ++ p :: post) (exec p s, pre ++ Ret tt :: post).
Proof.
  revert s; induction p as [a|l k IH|l v k IH|l g k IH]; intros s.
  - destruct a. apply pstar_refl.
  - eapply pstar_step; [constructor; constructor|]. apply IH.
  - eapply pstar_step; [constructor; constructor|]. apply IH.
  - eapply pstar_step; [constructor; constructor|]. apply IH.
Qed.

Definition seq_exec {A} (ps : list (prog A)) (s : store) : store :=
  fold_left (fun s p => exec p s) ps s.

Lemma par_exec_seq (ps : list (prog unit)) s : par_exec s ps (seq_exec ps s).
Proof.
  assert (H : forall pre s, all_done pre -> exists ps', pstar (s, pre ++ ps) (seq_exec ps s, ps') /\ all_done ps').
  { induction ps as [|p ps IH]; intros pre s0 Hpre.
    - exists pre. rewrite app_nil_r. split; [apply pstar_refl|auto].
    - destruct (IH (pre ++ [Ret tt]) (exec p s0)) as (ps' & Hst & Hd).
      { intros q Hq. apply in_app_iff in Hq. cbn in Hq. destruct Hq as [Hq|[Hq|[]]]; auto. }
      exists ps'. split; auto. eapply pstar_trans; [apply pstar_thread|].
      cbn [seq_exec fold_left]. rewrite <- app_assoc in Hst. cbn in Hst. exact Hst. }
  destruct (H [] s) as (ps' & Hst & Hd); [intros q []|]. exists ps'. auto.
Qed.

(** The order in which threads are listed is irrelevant. *)
Lemma pstep_perm (s s' : store) (ps ps' qs : list (prog unit)) :
  pstep (s, ps) (s', ps') -> Permutation ps qs ->
  exists qs', pstep (s, qs) (s', qs') /\ Permutation ps' qs'.
Proof.
  intros Hst Hp. inversion Hst as [s0 s0' pre p p' post Hts]; subst.
  assert (Hin : In p qs) by (eapply Permutation_in; [exact Hp|apply in_app_iff; right; left; reflexivity]).
  apply in_split in Hin. destruct Hin as (q1 & q2 & ->).
  exists (q1 ++ p' :: q2). split; [constructor; assumption|].
  apply Permutation_app_inv in Hp.
  etransitivity; [symmetry; apply Permutation_middle|].
  etransitivity; [|apply Permutation_middle]. constructor. exact Hp.
Qed.

Lemma pstar_perm (c c' : store * list (prog unit)) :
  pstar c c' -> forall qs, Permutation (snd c) qs ->
  exists qs', pstar (fst c, qs) (fst c', qs') /\ Permutation (snd c') qs'.
Proof.
  induction 1 as [c|c1 c2 c3 H12 H23 IH]; intros qs Hq.
  - exists qs. split; [apply pstar_refl|exact Hq].
  - destruct c1 as [s1 p1], c2 as [s2 p2], c3 as [s3 p3]; cbn [fst snd] in *.
    destruct (pstep_perm s1 s2 p1 p2 qs H12 Hq) as (q2 & Hs & Hp).
    destruct (IH q2 Hp) as (q3 & Hs3 & Hp3). exists q3. split; auto. eapply pstar_step; eauto.
Qed.

Lemma par_exec_perm (s s' : store) (ps qs : list (prog unit)) :
  Permutation ps qs -> par_exec s ps s' -> par_exec s qs s'.
Proof.
  intros Hp (ps' & Hst & Hd). destruct (pstar_perm _ _ Hst qs Hp) as (qs' & Hq & Hp').
  cbn [fst snd] in *. exists qs'. split; auto.
  intros q Hq'. apply Hd. eapply Permutation_in; [symmetry; exact Hp'|exact Hq'].
Qed.

(** Threads executed one after the other in any order are an execution. *)
Lemma par_exec_order (ps qs : list (prog unit)) s :
  Permutation ps qs -> par_exec s ps (seq_exec qs s).
Proof.
  intros Hp. apply (par_exec_perm s (seq_exec qs s) qs ps); [symmetry; exact Hp|apply par_exec_seq].
Qed.

Lemma pstep_inv (s : store) (ps : list (prog unit)) c' :
  pstep (s, ps) c' -> exists pre q q' post s', ps = pre ++ q :: post /\ tstep s q s' q' /\ c' = (s', pre ++ q' :: post).
Proof. intros H. inversion H; subst. repeat eexists; eauto. Qed.

(** Every pool can only make finitely many steps. *)
Lemma pool_terminates (ps : list (prog unit)) :
  forall s, Acc (fun c' c => pstep c c') (s, ps).
Proof.
  (* a step replaces one program by one of its continuations *)
  assert (Hsub : well_founded (fun q p : prog unit => exists s s', tstep s p s' q)).
  { intros p. induction p as [a|l k IH|l v k IH|l g k IH]; constructor; intros q (s & s' & H);
      inversion H; subst; auto. }
  assert (G : forall n (ps : list (prog unit)), length ps = n ->
     forall s, Acc (fun c' c => pstep c c') (s, ps)).
  2: { intros s. apply (G (length ps) ps eq_refl). }
  clear ps.
  (* induct on the vector of programs, last component first *)
  induction n as [|n IH]; intros ps Hlen s.
  - destruct ps; [|discriminate]. constructor. intros c' H.
    apply pstep_inv in H. destruct H as (pre & q & q' & post & s' & He & _). destruct pre; discriminate.
  - destruct ps as [|p ps]; [discriminate|]. injection Hlen as Hlen.
    revert s ps Hlen. induction (Hsub p) as [p _ IHp]. intros s ps Hlen.
    specialize (IH ps Hlen s). revert Hlen.
    remember (s, ps) as c eqn:Ec. revert s ps Ec. induction IH as [c HA IHc]. intros s ps -> Hlen.
    constructor. intros c' H. apply pstep_inv in H.
    destruct H as (pre & q & q' & post & s0' & Heq & Hts & ->).
    destruct pre as [|p0 pre]; cbn in Heq; injection Heq as E1 E2; subst.
    + cbn. apply (IHp q'); eauto.
    + cbn. assert (Hps : pstep (s, pre ++ q :: post) (s0', pre ++ q' :: post)) by (constructor; assumption).
      apply (IHc (s0', pre ++ q' :: post) Hps s0' (pre ++ q' :: post) eq_refl).
      rewrite !app_length. reflexivity.
Qed.

Lemma run_kernels_seq (kers : list (list (prog unit))) s :
  run_kernels kers s (fold_left (fun s ps => seq_exec ps s) kers s).
Proof.
  revert s; induction kers as [|ps kers IH]; intros s; cbn [fold_left]; [constructor|].
  econstructor; [apply par_exec_seq|apply IH].
Qed.

End ParProofs.
