(** Generic lemmas about loops whose body at a cell writes only that cell. *)
From Coq Require Import ZArith List Bool Lia.
From Verif Require Import Arith Par ParProofs BoundaryProofs HydroKernels.
Import ListNotations.
Open Scope Z_scope.

Definition at_of (l : loc) : Z * Z * Z := (li l, lj l, lk l).

(** Reads of arrays in [W] stay at cell [c]; writes go to arrays in [W] at [c]. *)
Definition cellR (W : list Z) (c : Z * Z * Z) (l : loc) : Prop := In (la l) W -> at_of l = c.
Definition cellW (W : list Z) (c : Z * Z * Z) (l : loc) : Prop := In (la l) W /\ at_of l = c.

Lemma In_cells2 g c : In c (cells2 g) <->
  0 <= fst (fst c) < GridModel.isize g /\ 0 <= snd (fst c) < GridModel.jsize g /\ snd c = 0.
Proof.
  destruct c as [[i j] k]; cbn [fst snd]. unfold cells2. rewrite in_prod_iff, in_prod_iff, !In_zrange.
  cbn [In]. intuition.
Qed.
Lemma In_cells3 g c : In c (cells3 g) <->
  0 <= fst (fst c) < GridModel.isize g /\ 0 <= snd (fst c) < GridModel.jsize g /\
  0 <= snd c < GridModel.ksize g.
Proof.
  destruct c as [[i j] k]; cbn [fst snd]. unfold cells3. rewrite in_prod_iff, in_prod_iff, !In_zrange.
  intuition.
Qed.

Lemma NoDup_app_intro {X} (xs ys : list X) :
  NoDup xs -> NoDup ys -> (forall x, In x xs -> ~ In x ys) -> NoDup (xs ++ ys).
Proof.
  induction 1 as [|x xs Hx Hxs IH]; cbn; auto. intros Hy Hd. constructor.
  - rewrite in_app_iff. intros [H|H]; [auto|]. apply (Hd x); auto.
  - apply IH; auto.
Qed.

Lemma NoDup_list_prod {X Y} (xs : list X) (ys : list Y) :
  NoDup xs -> NoDup ys -> NoDup (list_prod xs ys).
Proof.
  induction 1 as [|x xs Hx Hxs IH]; intros Hy; cbn; [constructor|].
  apply NoDup_app_intro; auto.
  - apply FinFun.Injective_map_NoDup; auto. intros a b H; congruence.
  - intros [a b] H1 H2. apply in_map_iff in H1. destruct H1 as (b' & H1 & _). inversion H1; subst.
    apply in_prod_iff in H2. tauto.
Qed.

Lemma NoDup_cells2 g : NoDup (cells2 g).
Proof.
  unfold cells2. apply NoDup_list_prod; [apply NoDup_list_prod; apply NoDup_zrange|].
  constructor; [tauto|constructor].
Qed.
Lemma NoDup_cells3 g : NoDup (cells3 g).
Proof. unfold cells3. apply NoDup_list_prod; [apply NoDup_list_prod|]; apply NoDup_zrange. Qed.

Lemma cell_eq_dec (x y : Z * Z * Z) : {x = y} + {x <> y}.
Proof. repeat decide equality. Qed.

Section Cell.
Context {T : Type}.

(** Footprint predicate with compositional lemmas. *)
Definition acc {A} (R W : loc -> Prop) (p : prog T A) : Prop :=
  no_rmw p /\ reads_in R p /\ writes_in W p.

Lemma acc_ret {A} (R W : loc -> Prop) (a : A) : acc R W (Ret a).
Proof. repeat split; exact I. Qed.
Lemma acc_skip (R W : loc -> Prop) : acc R W skip.
Proof. apply acc_ret. Qed.
Lemma acc_bind {A B} (R W : loc -> Prop) (p : prog T A) (f : A -> prog T B) :
  acc R W p -> (forall a, acc R W (f a)) -> acc R W (bind p f).
Proof.
  intros (H1 & H2 & H3) Hf. repeat split.
  - apply rmws_in_bind; auto. intros a; apply Hf.
  - apply reads_in_bind; auto. intros a; apply Hf.
  - apply writes_in_bind; auto. intros a; apply Hf.
Qed.
Lemma acc_rd (R W : loc -> Prop) l : R l -> acc R W (rd l).
Proof. intros H. repeat split; cbn; auto. Qed.
Lemma acc_wr (R W : loc -> Prop) l v : W l -> acc R W (wr l v).
Proof. intros H. repeat split; cbn; auto. Qed.
Lemma acc_if {A} (R W : loc -> Prop) (b : bool) (p q : prog T A) :
  (b = true -> acc R W p) -> (b = false -> acc R W q) -> acc R W (if b then p else q).
Proof. destruct b; auto. Qed.
Lemma acc_for {I} (R W : loc -> Prop) (xs : list I) (f : I -> prog T unit) :
  (forall x, In x xs -> acc R W (f x)) -> acc R W (for_each xs f).
Proof.
  induction xs as [|x xs IH]; cbn; intros H; [apply acc_ret|].
  apply acc_bind; auto.
Qed.
Lemma acc_mono {A} (R R' W W' : loc -> Prop) (p : prog T A) :
  (forall l, R l -> R' l) -> (forall l, W l -> W' l) -> acc R W p -> acc R' W' p.
Proof.
  intros HR HW (H1 & H2 & H3). repeat split; auto.
  - eapply reads_in_mono; eauto.
  - eapply writes_in_mono; eauto.
Qed.
Lemma acc_accesses {A} P (p : prog T A) : acc P P p -> accesses_in P p.
Proof.
  intros (H1 & H2 & H3). repeat split; auto. eapply rmws_in_mono; [|exact H1]. cbn; tauto.
Qed.

Definition cellprog (W : list Z) (c : Z * Z * Z) (p : prog T unit) : Prop :=
  acc (cellR W c) (cellW W c) p.

(** Result of a cellwise loop. *)
Lemma cellwise_spec (W : list Z) (cells : list (Z * Z * Z)) (body : Z * Z * Z -> prog T unit)
  (s s' : store T) :
  NoDup cells -> (forall c, In c cells -> cellprog W c (body c)) ->
  par_exec s (md_for cells body) s' ->
  (forall l, In (la l) W -> In (at_of l) cells -> s' l = exec (body (at_of l)) s l) /\
  (forall l, ~ (In (la l) W /\ In (at_of l) cells) -> s' l = s l).
Proof.
  intros Hnd Hok Hex.
  assert (Hrf : forall i j l, In i cells -> In j cells -> i <> j -> cellW W i l -> ~ cellW W j l /\ ~ cellR W j l).
  { intros i j l Hi Hj Hij [Hw Hl]. split.
    - intros [_ Hl']. congruence.
    - intros Hr. specialize (Hr Hw). congruence. }
  destruct (par_for_spec cells (cellR W) (cellW W) Hrf body s s' Hnd Hok Hex) as [H1 H2].
  split.
  - intros l Hl Hin. apply (H1 (at_of l) l Hin). split; auto.
  - intros l Hl. apply H2. intros i Hi [Hw He]. apply Hl. subst i. auto.
Qed.

(** Same, unified over all locations, and determinism as a corollary. *)
Lemma cellwise_other (W : list Z) (cells : list (Z * Z * Z)) body (s s' : store T) l :
  NoDup cells -> (forall c, In c cells -> cellprog W c (body c)) ->
  par_exec s (md_for cells body) s' -> ~ In (la l) W -> s' l = s l.
Proof. intros Hnd Hok Hex Hl. apply (cellwise_spec W cells body s s'); tauto. Qed.

Lemma exec_ext (p : prog T unit) (s1 s2 : store T) :
  (forall l, s1 l = s2 l) -> forall l, exec p s1 l = exec p s2 l.
Proof. intros H. apply exec_seq. exact H. Qed.

Lemma cellwise_det (W : list Z) (cells : list (Z * Z * Z)) body (s1 s2 s1' s2' : store T) :
  NoDup cells -> (forall c, In c cells -> cellprog W c (body c)) ->
  (forall l, s1 l = s2 l) ->
  par_exec s1 (md_for cells body) s1' -> par_exec s2 (md_for cells body) s2' ->
  forall l, s1' l = s2' l.
Proof.
  intros Hnd Hok He H1 H2 l.
  destruct (cellwise_spec W cells body s1 s1' Hnd Hok H1) as [A1 A2].
  destruct (cellwise_spec W cells body s2 s2' Hnd Hok H2) as [B1 B2].
  destruct (in_dec Z.eq_dec (la l) W) as [Hw|Hw].
  - destruct (in_dec cell_eq_dec (at_of l) cells) as [Hc|Hc].
    + rewrite A1, B1; auto. apply exec_ext; auto.
    + rewrite A2, B2; auto; tauto.
  - rewrite A2, B2; auto; tauto.
Qed.
End Cell.
