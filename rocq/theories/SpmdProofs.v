(** Asynchronous execution of SPMD programs: invariant, progress, termination. *)
From Coq Require Import ZArith List Bool PeanoNat Lia.
From Verif Require Import SpmdModel SpmdSpec.
Import ListNotations.

(** ** Lists over an interval of operation numbers *)
Section FM.
Context {X : Type}.
Lemma seq_split n k : k < n -> seq 0 n = seq 0 k ++ k :: seq (1 + k) (n - k - 1).
Proof.
  intros H. replace n with (k + (1 + (n - k - 1))) at 1 by lia. rewrite seq_app. reflexivity.
Qed.
Lemma fm_ext (f g : nat -> list X) l : (forall k, In k l -> f k = g k) -> flat_map f l = flat_map g l.
Proof. induction l as [|x l IH]; cbn; intros H; auto. rewrite H by auto. f_equal. apply IH. auto. Qed.
Lemma fm_nil (f : nat -> list X) l : (forall k, In k l -> f k = []) -> flat_map f l = [].
Proof. induction l as [|x l IH]; cbn; intros H; auto. rewrite H by auto. cbn. auto. Qed.
Lemma fm_send (f g : nat -> list X) n k0 x : k0 < n ->
  (forall k, k <> k0 -> k < n -> g k = f k) -> f k0 = [] -> g k0 = [x] -> (forall k, k0 < k < n -> f k = []) ->
  flat_map g (seq 0 n) = flat_map f (seq 0 n) ++ [x].
Proof.
  intros Hk He Hf Hg Hz. rewrite (seq_split n k0 Hk), !flat_map_app. cbn [flat_map]. rewrite Hf, Hg.
  rewrite (fm_nil g (seq (1 + k0) (n - k0 - 1))), (fm_nil f (seq (1 + k0) (n - k0 - 1))).
  - rewrite (fm_ext g f (seq 0 k0)); [now rewrite !app_nil_r|]. intros k Hin. apply in_seq in Hin. apply He; lia.
  - intros k Hin. apply in_seq in Hin. apply Hz; lia.
  - intros k Hin. apply in_seq in Hin. rewrite He by lia. apply Hz; lia.
Qed.
Lemma fm_recv (f g : nat -> list X) n k0 x : k0 < n ->
  (forall k, k <> k0 -> k < n -> g k = f k) -> f k0 = [x] -> g k0 = [] -> (forall k, k < k0 -> f k = []) ->
  flat_map f (seq 0 n) = x :: flat_map g (seq 0 n).
Proof.
  intros Hk He Hf Hg Hz. rewrite (seq_split n k0 Hk), !flat_map_app. cbn [flat_map]. rewrite Hf, Hg.
  rewrite (fm_nil f (seq 0 k0)), (fm_nil g (seq 0 k0)).
  - cbn. f_equal. symmetry. apply fm_ext. intros k Hin. apply in_seq in Hin. apply He; lia.
  - intros k Hin. apply in_seq in Hin. rewrite He by lia. apply Hz; lia.
  - intros k Hin. apply in_seq in Hin. apply Hz; lia.
Qed.
Lemma fm_in (f : nat -> list X) n k x : k < n -> In x (f k) -> In x (flat_map f (seq 0 n)).
Proof. intros H1 H2. apply in_flat_map. exists k. split; auto. apply in_seq. lia. Qed.
End FM.

Section Inv.
Context {S M : Type}.
Variable P : nat.
Variable prg : list (op S M).
Notation config := (config S M).
Notation n := (length prg).
Hypothesis Hmatch : forall o, In o prg -> matched P o.

Definition posted (c : config) (a k : nat) : bool :=
  (k <? pc (ranks c a)) || ((k =? pc (ranks c a)) && sent (ranks c a)).
Definition taken (c : config) (b k : nat) : bool :=
  (k <? pc (ranks c b)) || ((k =? pc (ranks c b)) && match got (ranks c b) with Some _ => true | None => false end).
Definition item (c : config) (H : nat -> nat -> S) (a b : nat) (tag : Z) (k : nat) : list (nat * M) :=
  match nth_error prg k with
  | Some (Sendrecv dest source t pay put) =>
      if (dest a =? b) && Z.eqb t tag && posted c a k && negb (taken c b k) then [(k, pay a (H k a))] else []
  | _ => []
  end.
Definition done_ok (c : config) (H : nat -> nat -> S) (r k : nat) : Prop :=
  match nth_error prg k with
  | Some (Local f) => f r (H k r) (H (1 + k) r)
  | Some (Sendrecv dest source t pay put) =>
      posted c (source r) k = true /\ H (1 + k) r = put r (pay (source r) (H k (source r))) (H k r)
  | Some (Collective contrib red fin) => exists x, result c k = Some x /\ H (1 + k) r = fin r x (H k r)
  | None => False
  end.

Record inv (s : nat -> S) (c : config) (H : nat -> nat -> S) : Prop := {
  i_0 : forall r, H 0 r = s r;
  i_st : forall r, r < P -> st (ranks c r) = H (pc (ranks c r)) r;
  i_done : forall r k, r < P -> k < pc (ranks c r) -> done_ok c H r k;
  i_got : forall r m, r < P -> got (ranks c r) = Some m ->
     exists dest source t pay put, nth_error prg (pc (ranks c r)) = Some (Sendrecv dest source t pay put) /\
       posted c (source r) (pc (ranks c r)) = true /\ m = pay (source r) (H (pc (ranks c r)) (source r));
  i_net : forall a b tag, a < P -> b < P -> net c a b tag = flat_map (item c H a b tag) (seq 0 n);
  i_board : forall k r m, r < P -> board c k r = Some m ->
     exists contrib red fin, nth_error prg k = Some (Collective contrib red fin) /\
       k <= pc (ranks c r) /\ m = contrib r (H k r);
  i_res : forall k x, result c k = Some x ->
     exists contrib red fin, nth_error prg k = Some (Collective contrib red fin) /\
       (forall r, r < P -> k <= pc (ranks c r)) /\ red (map (fun r => contrib r (H k r)) (seq 0 P)) x
}.

Lemma inv_start s : inv s (start s) (fun _ r => s r).
Proof.
  constructor; cbn; auto; try discriminate.
  - intros r k _ Hk. lia.
  - intros a b tag _ _. symmetry. apply fm_nil. intros k _. unfold item, posted. cbn.
    destruct (nth_error prg k) as [[| |]|]; auto. rewrite andb_false_r. cbn. now rewrite andb_false_r.
Qed.

Lemma op_lt k o : nth_error prg k = Some o -> k < n.
Proof. intros H. apply nth_error_Some. congruence. Qed.
Lemma op_matched k o : nth_error prg k = Some o -> matched P o.
Proof. intros H. apply Hmatch. eapply nth_error_In. eauto. Qed.

Lemma inv_pc s c H r : inv s c H -> r < P -> pc (ranks c r) <= n.
Proof.
  intros I Hr. destruct (pc (ranks c r)) as [|k] eqn:E; [lia|].
  pose proof (i_done s c H I r k Hr) as D. rewrite E in D. specialize (D (Nat.lt_succ_diag_r k)).
  unfold done_ok in D. destruct (nth_error prg k) eqn:E'; [|tauto]. apply op_lt in E'. lia.
Qed.

(** *** A process moves to its next operation *)
Definition hist (H : nat -> nat -> S) (k r : nat) (x : S) : nat -> nat -> S :=
  fun k' r' => if (k' =? k) && (r' =? r) then x else H k' r'.
Lemma hist_same H k r x : hist H k r x k r = x.
Proof. unfold hist. now rewrite !Nat.eqb_refl. Qed.
Lemma hist_other H k r x k' r' : k' <> k \/ r' <> r -> hist H k r x k' r' = H k' r'.
Proof.
  unfold hist. intros [A|A].
  - destruct (Nat.eqb_spec k' k); [congruence|reflexivity].
  - destruct (Nat.eqb_spec r' r); [congruence|]. now rewrite andb_false_r.
Qed.
Lemma set_same (c : config) r x : set_rank c r x r = x.
Proof. unfold set_rank. now rewrite Nat.eqb_refl. Qed.
Lemma set_other (c : config) r r' x : r' <> r -> set_rank c r x r' = ranks c r'.
Proof. unfold set_rank. destruct (Nat.eqb_spec r' r); congruence. Qed.

Lemma posted_le c a k : posted c a k = true -> k <= pc (ranks c a).
Proof. unfold posted. rewrite orb_true_iff, andb_true_iff, Nat.ltb_lt, Nat.eqb_eq. lia. Qed.
Lemma posted_lt c a k : k < pc (ranks c a) -> posted c a k = true.
Proof. unfold posted. rewrite orb_true_iff, Nat.ltb_lt. auto. Qed.
Lemma posted_gt c a k : pc (ranks c a) < k -> posted c a k = false.
Proof. destruct (posted c a k) eqn:E; auto. apply posted_le in E. lia. Qed.
Lemma posted_at c a : posted c a (pc (ranks c a)) = sent (ranks c a).
Proof. unfold posted. rewrite Nat.ltb_irrefl, Nat.eqb_refl. reflexivity. Qed.
Lemma taken_lt c a k : k < pc (ranks c a) -> taken c a k = true.
Proof. unfold taken. rewrite orb_true_iff, Nat.ltb_lt. auto. Qed.
Lemma taken_gt c a k : pc (ranks c a) < k -> taken c a k = false.
Proof.
  unfold taken. intros H. destruct (Nat.ltb_spec k (pc (ranks c a))); [lia|].
  destruct (Nat.eqb_spec k (pc (ranks c a))); [lia|reflexivity].
Qed.
Lemma taken_at c a : taken c a (pc (ranks c a)) = match got (ranks c a) with Some _ => true | None => false end.
Proof. unfold taken. rewrite Nat.ltb_irrefl, Nat.eqb_refl. reflexivity. Qed.

Lemma posted_ext (c c' : config) a k : ranks c' a = ranks c a -> posted c' a k = posted c a k.
Proof. unfold posted. intros ->. reflexivity. Qed.
Lemma taken_ext (c c' : config) a k : ranks c' a = ranks c a -> taken c' a k = taken c a k.
Proof. unfold taken. intros ->. reflexivity. Qed.

Lemma advance s c H r x : inv s c H -> r < P ->
  let k := pc (ranks c r) in
  let c' := Config (set_rank c r (Rank (1 + k) false None x)) (net c) (board c) (result c) in
  let H' := hist H (1 + k) r x in
  (forall dest source t pay put, nth_error prg k = Some (Sendrecv dest source t pay put) ->
     sent (ranks c r) = true /\ exists m, got (ranks c r) = Some m) ->
  done_ok c H' r k -> inv s c' H'.
Proof.
  intros I Hr k c' H' Hsr Hd. pose proof I as [I0 Ist Idone Igot Inet Iboard Ires].
  assert (Er : ranks c' r = Rank (1 + k) false None x) by (unfold c'; cbn; apply set_same).
  assert (Eo : forall r', r' <> r -> ranks c' r' = ranks c r') by (intros; unfold c'; cbn; now apply set_other).
  assert (Hle : forall r', pc (ranks c r') <= pc (ranks c' r')).
  { intros r'. destruct (Nat.eq_dec r' r) as [->|N]; [rewrite Er; cbn; lia|rewrite Eo by auto; lia]. }
  assert (Hpost : forall a k', posted c a k' = true -> posted c' a k' = true).
  { intros a k' Hp. destruct (Nat.eq_dec a r) as [->|N]; [|now rewrite (posted_ext c c') by auto].
    apply posted_le in Hp. apply posted_lt. rewrite Er. cbn. fold k in Hp. lia. }
  assert (Hh : forall k' r', k' <= pc (ranks c r') -> H' k' r' = H k' r').
  { intros k' r' Hk. apply hist_other. destruct (Nat.eq_dec r' r) as [->|N]; auto. left. fold k in Hk. lia. }
  assert (Hdone : forall r' k', r' < P -> k' < pc (ranks c r') -> done_ok c' H' r' k').
  { intros r' k' Hr' Hk'. specialize (Idone r' k' Hr' Hk'). unfold done_ok in *.
    destruct (nth_error prg k') as [[f|dest source t pay put|contrib red fin]|] eqn:E; auto.
    - rewrite !Hh by lia. exact Idone.
    - destruct Idone as [D1 D2]. split; auto. apply posted_le in D1. rewrite !Hh by lia. exact D2.
    - destruct Idone as (y & D1 & D2). exists y. split; auto. rewrite !Hh by lia. exact D2. }
  constructor.
  - intros r'. unfold H'. rewrite hist_other by lia. auto.
  - intros r' Hr'. destruct (Nat.eq_dec r' r) as [->|N].
    + rewrite Er. cbn. symmetry. apply hist_same.
    + rewrite Eo by auto. rewrite Hh by lia. auto.
  - intros r' k' Hr' Hk'. destruct (Nat.eq_dec r' r) as [->|N]; [|apply Hdone; auto; rewrite Eo in Hk'; auto].
    rewrite Er in Hk'. cbn in Hk'. destruct (Nat.eq_dec k' k) as [->|Nk]; [|apply Hdone; auto; fold k; lia].
    unfold done_ok in *. destruct (nth_error prg k) as [[f|dest source t pay put|contrib red fin]|] eqn:E; auto.
    destruct Hd as [D1 D2]. split; auto.
  - intros r' m Hr' Hg. destruct (Nat.eq_dec r' r) as [->|N]; [rewrite Er in Hg; discriminate|].
    rewrite Eo in * by auto. destruct (Igot r' m Hr' Hg) as (dest & source & t & pay & put & E1 & E2 & E3).
    exists dest, source, t, pay, put. split; auto. split; auto. apply posted_le in E2. rewrite Hh by lia. exact E3.
  - intros a b tag Ha Hb. cbn [net c']. rewrite Inet by auto. apply fm_ext. intros k' _. unfold item.
    destruct (nth_error prg k') as [[f|dest source t pay put|contrib red fin]|] eqn:E; auto.
    destruct (Nat.eqb_spec (dest a) b) as [Eb|Nb]; [|reflexivity]. cbn [andb].
    destruct (Z.eqb t tag); [|reflexivity]. cbn [andb].
    assert (Ep : posted c' a k' = posted c a k').
    { destruct (Nat.eq_dec a r) as [->|N]; [|apply posted_ext; auto].
      destruct (lt_eq_lt_dec k' k) as [[L|L]|L].
      - rewrite !posted_lt; auto; fold k; try lia. rewrite Er. cbn. lia.
      - subst k'. unfold k at 2. rewrite posted_at. destruct (Hsr _ _ _ _ _ E) as [-> _].
        apply posted_lt. rewrite Er. cbn. lia.
      - rewrite (posted_gt c) by (fold k; lia). unfold posted. rewrite Er. cbn [pc sent].
        destruct (Nat.ltb_spec k' (1 + k)); [lia|]. now rewrite andb_false_r. }
    assert (Et : taken c' b k' = taken c b k').
    { destruct (Nat.eq_dec b r) as [Ebr|N]; [|apply taken_ext; auto]. rewrite Ebr.
      destruct (lt_eq_lt_dec k' k) as [[L|L]|L].
      - rewrite !taken_lt; auto; fold k; try lia. rewrite Er. cbn. lia.
      - subst k'. unfold k at 2. rewrite taken_at. destruct (Hsr _ _ _ _ _ E) as [_ [m ->]].
        apply taken_lt. rewrite Er. cbn. lia.
      - rewrite (taken_gt c) by (fold k; lia). unfold taken. rewrite Er. cbn [pc got].
        destruct (Nat.ltb_spec k' (1 + k)); [lia|]. now rewrite andb_false_r. }
    rewrite Ep, Et. destruct (posted c a k') eqn:E1; [|reflexivity]. apply posted_le in E1.
    rewrite Hh by lia. reflexivity.
  - intros k' r' m Hr' Hb. cbn [board c'] in Hb. destruct (Iboard k' r' m Hr' Hb) as (contrib & red & fin & E1 & E2 & E3).
    exists contrib, red, fin. split; auto. pose proof (Hle r'). split; [lia|]. rewrite Hh by lia. exact E3.
  - intros k' y Hy. cbn [result c'] in Hy. destruct (Ires k' y Hy) as (contrib & red & fin & E1 & E2 & E3).
    exists contrib, red, fin. split; auto. split; [intros r' Hr'; specialize (E2 r' Hr'); pose proof (Hle r'); lia|].
    erewrite map_ext_in; [exact E3|]. intros r' Hin. apply in_seq in Hin. cbn beta. rewrite Hh; auto. apply E2. lia.
Qed.

(** *** All steps keep the invariant *)
Variable rv : bool.

Lemma inv_step s c c' H : inv s c H -> step P prg rv c c' -> exists H', inv s c' H'.
Proof.
  intros I Hst. pose proof I as [I0 Ist Idone Igot Inet Iboard Ires].
  destruct Hst as [r f s' Hr Ho Hf|r dest source tag pay put Hr Ho Hs|r dest source tag pay put k m q Hr Ho Hg Hq
    |r dest source tag pay put m Hr Ho Hs Hg Hrv|r contrib red fin Hr Ho Hb|k contrib red fin ms x Ho Hres Hms Hx
    |r contrib red fin x Hr Ho Hres].
  - (* local work *)
    exists (hist H (1 + pc (ranks c r)) r s'). apply (advance s c H r s'); auto.
    + intros; congruence.
    + unfold done_ok. rewrite Ho. rewrite hist_same, hist_other by lia. rewrite <- Ist by auto. exact Hf.
  - (* send *)
    exists H. set (k := pc (ranks c r)) in *.
    set (c1 := Config _ _ _ _).
    assert (Er : ranks c1 r = Rank k true (got (ranks c r)) (st (ranks c r))) by (unfold c1; cbn; apply set_same).
    assert (Eo : forall r', r' <> r -> ranks c1 r' = ranks c r') by (intros; unfold c1; cbn; now apply set_other).
    assert (Epc : forall r', pc (ranks c1 r') = pc (ranks c r')).
    { intros r'. destruct (Nat.eq_dec r' r) as [->|N]; [now rewrite Er|now rewrite Eo]. }
    assert (Est : forall r', st (ranks c1 r') = st (ranks c r')).
    { intros r'. destruct (Nat.eq_dec r' r) as [->|N]; [now rewrite Er|now rewrite Eo]. }
    assert (Egot : forall r', got (ranks c1 r') = got (ranks c r')).
    { intros r'. destruct (Nat.eq_dec r' r) as [->|N]; [now rewrite Er|now rewrite Eo]. }
    assert (Ep : forall a k', a <> r \/ k' <> k -> posted c1 a k' = posted c a k').
    { intros a k' [N|N]; [apply posted_ext; auto|]. unfold posted. rewrite Epc.
      destruct (Nat.eq_dec a r) as [->|Na]; [|now rewrite Eo]. fold k. destruct (Nat.eqb_spec k' k); [congruence|]. reflexivity. }
    assert (Ep1 : posted c1 r k = true).
    { unfold posted. rewrite Er. cbn. rewrite Nat.eqb_refl. apply orb_true_r. }
    assert (Hpost : forall a k', posted c a k' = true -> posted c1 a k' = true).
    { intros a k' Hp. destruct (Nat.eq_dec a r) as [->|N]; [|rewrite Ep; auto].
      destruct (Nat.eq_dec k' k) as [->|N]; auto. rewrite Ep; auto. }
    assert (Et : forall b k', taken c1 b k' = taken c b k').
    { intros b k'. unfold taken. now rewrite Epc, Egot. }
    destruct (op_matched _ _ Ho r Hr) as (M1 & M2 & M3 & M4).
    constructor; auto.
    + intros r' Hr'. rewrite Epc, Est. auto.
    + intros r' k' Hr' Hk'. rewrite Epc in Hk'. specialize (Idone r' k' Hr' Hk'). unfold done_ok in *.
      destruct (nth_error prg k') as [[f|d0 s0 t0 p0 u0|? ? ?]|]; auto. destruct Idone; auto.
    + intros r' m Hr' Hg. rewrite Egot in Hg. rewrite Epc.
      destruct (Igot r' m Hr' Hg) as (d & so & t & pa & pu & E1 & E2 & E3). exists d, so, t, pa, pu. auto.
    + intros a b t Ha Hb. cbn [net c1]. unfold set_net.
      destruct (Nat.eqb_spec a r) as [Ea|Na]; cbn [andb].
      2: { rewrite Inet by auto. apply fm_ext. intros k' _. unfold item. rewrite Ep by auto. rewrite Et. reflexivity. }
      destruct (Nat.eqb_spec b (dest r)) as [Eb|Nb]; cbn [andb].
      2: { rewrite Inet by auto. apply fm_ext. intros k' _. unfold item. rewrite Et.
           destruct (Nat.eq_dec k' k) as [->|N]; [|rewrite Ep by auto; reflexivity].
           rewrite Ho. subst a. destruct (Nat.eqb_spec (dest r) b); [congruence|]. reflexivity. }
      destruct (Z.eqb_spec t tag) as [Etg|Nt].
      2: { rewrite Inet by auto. apply fm_ext. intros k' _. unfold item. rewrite Et.
           destruct (Nat.eq_dec k' k) as [->|N]; [|rewrite Ep by auto; reflexivity].
           rewrite Ho. destruct (Z.eqb_spec tag t); [congruence|]. now rewrite !andb_false_r. }
      subst a b t. rewrite Inet by auto. symmetry. rewrite Ist by auto. fold k.
      apply fm_send with (k0 := k).
      * eapply op_lt; eauto.
      * intros k' N _. unfold item. rewrite Ep, Et by auto. reflexivity.
      * unfold item. rewrite Ho. unfold k at 1. rewrite posted_at, Hs. now rewrite andb_false_r.
      * unfold item. rewrite Ho, Ep1, Et, Nat.eqb_refl, Z.eqb_refl. cbn [andb].
        destruct (taken c (dest r) k) eqn:E; [|reflexivity]. exfalso.
        unfold taken in E. apply orb_true_iff in E. destruct E as [E|E].
        -- apply Nat.ltb_lt in E. specialize (Idone (dest r) k M1 E). unfold done_ok in Idone. rewrite Ho in Idone.
           rewrite M2 in Idone. destruct Idone as [D _]. unfold k in D. rewrite posted_at in D. congruence.
        -- apply andb_true_iff in E. destruct E as [E1 E2]. apply Nat.eqb_eq in E1.
           destruct (got (ranks c (dest r))) as [m|] eqn:Eg; [|discriminate].
           destruct (Igot _ _ M1 Eg) as (d & so & t & pa & pu & F1 & F2 & F3). rewrite <- E1 in F1, F2. rewrite Ho in F1. injection F1 as <- <- <- <- <-.
           rewrite M2 in F2. unfold k in F2. rewrite posted_at in F2. congruence.
      * intros k' Hk'. unfold item. destruct (nth_error prg k') as [[f|d0 s0 t0 p0 u0|? ? ?]|]; auto.
        rewrite posted_gt by (fold k; lia). now rewrite andb_false_r.
    + intros k' r' m Hr' Hb. rewrite Epc. apply Iboard; auto.
    + intros k' x Hx. destruct (Ires k' x Hx) as (co & re & fi & E1 & E2 & E3). exists co, re, fi. split; auto. split; auto.
      intros r' Hr'. rewrite Epc. auto.
  - (* receive *)
    set (k0 := pc (ranks c r)) in *.
    destruct (op_matched _ _ Ho r Hr) as (M1 & M2 & M3 & M4).
    exists H. set (c1 := Config _ _ _ _).
    assert (Er : ranks c1 r = Rank k0 (sent (ranks c r)) (Some m) (st (ranks c r))) by (unfold c1; cbn; apply set_same).
    assert (Eo : forall r', r' <> r -> ranks c1 r' = ranks c r') by (intros; unfold c1; cbn; now apply set_other).
    assert (Epc : forall r', pc (ranks c1 r') = pc (ranks c r')).
    { intros r'. destruct (Nat.eq_dec r' r) as [->|N]; [now rewrite Er|now rewrite Eo]. }
    assert (Est : forall r', st (ranks c1 r') = st (ranks c r')).
    { intros r'. destruct (Nat.eq_dec r' r) as [->|N]; [now rewrite Er|now rewrite Eo]. }
    assert (Esent : forall r', sent (ranks c1 r') = sent (ranks c r')).
    { intros r'. destruct (Nat.eq_dec r' r) as [->|N]; [now rewrite Er|now rewrite Eo]. }
    assert (Ep : forall a k', posted c1 a k' = posted c a k').
    { intros a k'. unfold posted. now rewrite Epc, Esent. }
    assert (Et : forall b k', b <> r \/ k' <> k0 -> taken c1 b k' = taken c b k').
    { intros a k' [N|N]; [apply taken_ext; auto|]. unfold taken. rewrite Epc.
      destruct (Nat.eq_dec a r) as [->|Na]; [|now rewrite Eo]. fold k0. destruct (Nat.eqb_spec k' k0); [congruence|]. reflexivity. }
    assert (Et1 : taken c1 r k0 = true).
    { unfold taken. rewrite Er. cbn. rewrite Nat.eqb_refl. apply orb_true_r. }
    (* the first message of the channel belongs to the current operation *)
    pose proof (Inet (source r) r tag M3 Hr) as Hn. rewrite Hq in Hn.
    assert (Hlow : forall k', k' < k0 -> item c H (source r) r tag k' = []).
    { intros k' Hk'. unfold item. destruct (nth_error prg k') as [[f|d0 s0 t0 p0 u0|? ? ?]|]; auto.
      rewrite (taken_lt c r k') by (fold k0; lia). now rewrite andb_false_r. }
    assert (Hp0 : posted c (source r) k0 = true).
    { destruct (posted c (source r) k0) eqn:E; auto. exfalso.
      rewrite fm_nil in Hn; [discriminate|]. intros k' _. destruct (Nat.lt_ge_cases k' k0) as [L|L]; [auto|].
      unfold item. destruct (nth_error prg k') as [[f|d0 s0 t0 p0 u0|? ? ?]|]; auto.
      assert (E' : posted c (source r) k' = false).
      { destruct (posted c (source r) k') eqn:F; auto. pose proof (posted_le _ _ _ F) as F'.
        destruct (Nat.eq_dec k' k0) as [->|N]; [congruence|]. rewrite posted_lt in E by lia. discriminate. }
      rewrite E'. now rewrite andb_false_r. }
    set (g := item c1 H (source r) r tag).
    assert (Hpop : flat_map (item c H (source r) r tag) (seq 0 n) = (k0, pay (source r) (H k0 (source r))) :: flat_map g (seq 0 n)).
    { apply fm_recv with (k0 := k0).
      - eapply op_lt; eauto.
      - intros k' N _. unfold g, item. rewrite Ep, Et by auto. reflexivity.
      - unfold item. rewrite Ho, M4, Nat.eqb_refl, Z.eqb_refl, Hp0. cbn [andb].
        unfold k0 at 1. rewrite taken_at, Hg. reflexivity.
      - unfold g, item. rewrite Ho, Et1. now rewrite andb_false_r.
      - auto. }
    rewrite Hpop in Hn. injection Hn as Ek Em Eq.
    constructor; auto.
    + intros r' Hr'. rewrite Epc, Est. auto.
    + intros r' k' Hr' Hk'. rewrite Epc in Hk'. specialize (Idone r' k' Hr' Hk'). unfold done_ok in *.
      destruct (nth_error prg k') as [[f|d0 s0 t0 p0 u0|? ? ?]|]; auto. rewrite Ep. auto.
    + intros r' m' Hr' Hg'. destruct (Nat.eq_dec r' r) as [->|N].
      * rewrite Er in Hg'. cbn in Hg'. injection Hg' as <-. rewrite Epc. fold k0.
        exists dest, source, tag, pay, put. rewrite Ep. auto.
      * rewrite Eo in Hg' by auto. rewrite Epc.
        destruct (Igot r' m' Hr' Hg') as (d & so & t & pa & pu & E1 & E2 & E3). exists d, so, t, pa, pu. rewrite Ep. auto.
    + intros a b t Ha Hb. cbn [net c1]. unfold set_net.
      destruct (Nat.eqb_spec a (source r)) as [Ea|Na]; cbn [andb].
      2: { rewrite Inet by auto. apply fm_ext. intros k' _. unfold item. rewrite Ep.
           destruct (nth_error prg k') as [[f|d0 s0 t0 p0 u0|? ? ?]|] eqn:E; auto.
           destruct (Nat.eqb_spec (d0 a) b) as [Eb|Nb]; [|reflexivity].
           destruct (Nat.eq_dec b r) as [Er'|Nr]; [|rewrite Et by auto; reflexivity].
           destruct (Nat.eq_dec k' k0) as [Ek'|N]; [|rewrite Et by auto; reflexivity].
           exfalso. subst k'. rewrite Ho in E. injection E as <- <- <- <- <-.
           destruct (op_matched _ _ Ho a Ha) as (_ & N2 & _). apply Na. rewrite <- Er', <- Eb. symmetry. exact N2. }
      destruct (Nat.eqb_spec b r) as [Eb|Nb]; cbn [andb].
      2: { rewrite Inet by auto. apply fm_ext. intros k' _. unfold item. rewrite Ep, Et by auto. reflexivity. }
      destruct (Z.eqb_spec t tag) as [Etg|Nt].
      2: { rewrite Inet by auto. apply fm_ext. intros k' _. unfold item. rewrite Ep.
           destruct (Nat.eq_dec k' k0) as [->|N]; [|rewrite Et by auto; reflexivity].
           rewrite Ho. destruct (Z.eqb_spec tag t); [congruence|]. now rewrite !andb_false_r. }
      subst a b t. exact Eq.
    + intros k' r' m' Hr' Hb. rewrite Epc. apply Iboard; auto.
    + intros k' x Hx. destruct (Ires k' x Hx) as (co & re & fi & E1 & E2 & E3). exists co, re, fi. split; auto. split; auto.
      intros r' Hr'. rewrite Epc. auto.
  - (* leave a Sendrecv *)
    exists (hist H (1 + pc (ranks c r)) r (put r m (st (ranks c r)))). apply (advance s c H r); auto.
    + intros. split; eauto.
    + unfold done_ok. rewrite Ho. rewrite hist_same.
      destruct (Igot r m Hr Hg) as (d & so & t & pa & pu & E1 & E2 & E3). rewrite Ho in E1. injection E1 as <- <- <- <- <-.
      split; auto. apply posted_le in E2. rewrite !hist_other by lia. rewrite <- Ist by auto. now subst m.
  - (* enter a collective *)
    exists H. constructor; auto. intros k' r' m Hr' Hb'. cbn [board] in Hb'. unfold set_board in Hb'.
    destruct (Nat.eqb_spec k' (pc (ranks c r))) as [->|N]; cbn [andb] in Hb'; [|apply Iboard; auto].
    destruct (Nat.eqb_spec r' r) as [->|N]; [|apply Iboard; auto]. injection Hb' as <-. cbn [ranks].
    exists contrib, red, fin. split; auto. split; auto. rewrite Ist by auto. reflexivity.
  - (* the result of a collective is available *)
    exists H. constructor; auto.
    + intros r k' Hr Hk'. specialize (Idone r k' Hr Hk'). unfold done_ok in *. cbn [result ranks].
      destruct (nth_error prg k') as [[f|d0 s0 t0 p0 u0|? ? ?]|] eqn:E; auto.
      destruct Idone as (y & D1 & D2). exists y. split; auto. unfold set_result.
      destruct (Nat.eqb_spec k' k); [congruence|auto].
    + intros k' y Hy. cbn [result ranks] in *. unfold set_result in Hy. destruct (Nat.eqb_spec k' k) as [->|N]; [|apply Ires; auto].
      injection Hy as <-. exists contrib, red, fin. split; auto.
      assert (Hb : forall r, r < P -> exists m, board c k r = Some m).
      { intros r Hr. assert (Hin : In (board c k r) (map (board c k) (seq 0 P))) by (apply in_map, in_seq; lia).
        rewrite Hms in Hin. apply in_map_iff in Hin. destruct Hin as (m & <- & _). eauto. }
      split.
      * intros r Hr. destruct (Hb r Hr) as [m Hm]. destruct (Iboard k r m Hr Hm) as (? & ? & ? & _ & E & _). exact E.
      * assert (E : map Some ms = map Some (map (fun r => contrib r (H k r)) (seq 0 P))).
        { rewrite <- Hms, map_map. apply map_ext_in. intros r Hin. apply in_seq in Hin.
          destruct (Hb r) as [m Hm]; [lia|]. rewrite Hm. destruct (Iboard k r m) as (co & re & fi & E1 & _ & E2); auto; [lia|].
          rewrite Ho in E1. injection E1 as <- <- <-. now subst m. }
        assert (Einj : forall (l l' : list M), map Some l = map Some l' -> l = l').
        { intros l. induction l as [|y l IH]; intros [|z l'] El; try discriminate; auto. injection El as -> El. f_equal. auto. }
        apply Einj in E. now subst ms.
  - (* leave a collective *)
    exists (hist H (1 + pc (ranks c r)) r (fin r x (st (ranks c r)))). apply (advance s c H r); auto.
    + intros; congruence.
    + unfold done_ok. rewrite Ho. exists x. split; auto. rewrite hist_same, hist_other by lia. rewrite <- Ist by auto. reflexivity.
Qed.

Lemma inv_steps m s c : steps P prg rv m (start s) c -> exists H, inv s c H.
Proof.
  intros Hst. remember (start s) as c0 eqn:E. revert E. induction Hst as [c|m c c1 c2 Hst IH H12]; intros ->.
  - eexists. apply inv_start.
  - destruct (IH eq_refl) as [H I]. eapply inv_step; eauto.
Qed.

(** ** No deadlock *)
Hypothesis Hprod : forall o, In o prg -> productive P o.

Lemma op_productive k o : nth_error prg k = Some o -> productive P o.
Proof. intros H. apply Hprod. eapply nth_error_In. eauto. Qed.

Lemma min_rank (f : nat -> nat) p : 0 < p -> exists r, r < p /\ forall r', r' < p -> f r <= f r'.
Proof.
  induction p as [|p IH]; [lia|]. intros _. destruct p as [|p].
  - exists 0. split; [lia|]. intros r' Hr'. replace r' with 0 by lia. lia.
  - destruct IH as (r & Hr & Hm); [lia|]. destruct (Nat.le_gt_cases (f r) (f (1 + p))) as [L|L].
    + exists r. split; [lia|]. intros r' Hr'. destruct (Nat.eq_dec r' (1 + p)) as [->|N]; auto. apply Hm; lia.
    + exists (1 + p). split; [lia|]. intros r' Hr'. destruct (Nat.eq_dec r' (1 + p)) as [->|N]; auto.
      specialize (Hm r'). lia.
Qed.

Lemma all_or_missing {X} (f : nat -> option X) p :
  (exists l, map f (seq 0 p) = map Some l) \/ exists r, r < p /\ f r = None.
Proof.
  induction p as [|p IH]; [left; exists []; reflexivity|].
  destruct IH as [[l Hl]|(r & Hr & Hf)]; [|right; exists r; auto].
  rewrite seq_S, map_app, Hl. cbn. destruct (f p) as [x|] eqn:E.
  - left. exists (l ++ [x]). rewrite map_app. reflexivity.
  - right. exists p. auto.
Qed.

Lemma progress s c H : inv s c H -> completed P prg c \/ exists c', step P prg true c c'.
Proof.
  intros I. pose proof I as [I0 Ist Idone Igot Inet Iboard Ires].
  destruct (Nat.eq_dec P 0) as [E0|N0]; [left; intros r Hr; lia|].
  destruct (min_rank (fun r => pc (ranks c r)) P) as (r & Hr & Hmin); [lia|]. cbn beta in Hmin.
  set (k := pc (ranks c r)) in *.
  pose proof (inv_pc s c H r I Hr) as Hk. fold k in Hk.
  destruct (nth_error prg k) as [o|] eqn:Ho.
  2: { left. intros r' Hr'. apply nth_error_None in Ho. pose proof (inv_pc s c H r' I Hr'). specialize (Hmin r' Hr'). lia. }
  right. destruct o as [f|dest source tag pay put|contrib red fin].
  - destruct (op_productive _ _ Ho r (st (ranks c r)) Hr) as [s' Hs']. eexists. eapply StepLocal; eauto.
  - destruct (op_matched _ _ Ho r Hr) as (M1 & M2 & M3 & M4).
    destruct (sent (ranks c r)) eqn:Es; [|eexists; apply (StepSend P prg true c r dest source tag pay put); auto; fail].
    destruct (got (ranks c r)) as [m|] eqn:Eg.
    + (* waiting for the destination to take the message *)
      destruct (taken c (dest r) k) eqn:Et.
      * eexists. apply (StepDone P prg true c r dest source tag pay put m); auto. intros _ Hin. fold k in Hin. rewrite Inet in Hin by auto.
        apply in_map_iff in Hin. destruct Hin as ([k' m'] & Ek & Hin). cbn in Ek. subst k'.
        apply in_flat_map in Hin. destruct Hin as (k' & _ & Hin). unfold item in Hin.
        destruct (nth_error prg k') as [[f|d0 s0 t0 p0 u0|? ? ?]|]; try (destruct Hin; fail).
        destruct (_ && _) eqn:Eb in Hin; [|destruct Hin]. destruct Hin as [Hin|[]]. injection Hin as -> _.
        rewrite Et in Eb. now rewrite andb_false_r in Eb.
      * assert (Ek : pc (ranks c (dest r)) = k).
        { specialize (Hmin (dest r) M1). destruct (Nat.eq_dec (pc (ranks c (dest r))) k); auto.
          rewrite taken_lt in Et by lia. discriminate. }
        assert (Eg' : got (ranks c (dest r)) = None).
        { rewrite <- Ek, taken_at in Et. destruct (got (ranks c (dest r))) in Et |- *; [discriminate|reflexivity]. }
        assert (Hin : In (k, pay r (H k r)) (net c r (dest r) tag)).
        { rewrite Inet by auto. apply fm_in with (k := k); [eapply op_lt; eauto|]. unfold item. rewrite Ho, Et.
          unfold k at 1. rewrite posted_at, Es, Nat.eqb_refl, Z.eqb_refl. left. reflexivity. }
        destruct (net c r (dest r) tag) as [|[k1 m1] q] eqn:En; [destruct Hin|].
        eexists. eapply (StepRecv P prg true c (dest r) dest source tag pay put k1 m1 q); auto; [rewrite Ek; auto|]. rewrite M2. exact En.
    + destruct (posted c (source r) k) eqn:Ep.
      * assert (Hin : In (k, pay (source r) (H k (source r))) (net c (source r) r tag)).
        { rewrite Inet by auto. apply fm_in with (k := k); [eapply op_lt; eauto|]. unfold item. rewrite Ho, Ep, M4.
          unfold k at 1. rewrite taken_at, Eg, Nat.eqb_refl, Z.eqb_refl. left. reflexivity. }
        destruct (net c (source r) r tag) as [|[k1 m1] q] eqn:En; [destruct Hin|].
        eexists. eapply (StepRecv P prg true c r dest source tag pay put k1 m1 q); auto.
      * assert (Ek : pc (ranks c (source r)) = k).
        { specialize (Hmin (source r) M3). destruct (Nat.eq_dec (pc (ranks c (source r))) k); auto.
          rewrite posted_lt in Ep by lia. discriminate. }
        rewrite <- Ek, posted_at in Ep. eexists.
        eapply (StepSend P prg true c (source r) dest source tag pay put); auto. rewrite Ek. exact Ho.
  - destruct (board c k r) as [m|] eqn:Eb; [|eexists; apply (StepEnter P prg true c r contrib red fin); auto; fail].
    destruct (result c k) as [x|] eqn:Ex; [eexists; apply (StepLeave P prg true c r contrib red fin x); auto; fail|].
    destruct (all_or_missing (board c k) P) as [[ms Hms]|(r' & Hr' & Hn)].
    + destruct (op_productive _ _ Ho ms) as [x Hx].
      { apply (f_equal (@length _)) in Hms. rewrite !map_length, seq_length in Hms. auto. }
      eexists. eapply StepReduce; eauto.
    + assert (Ek : pc (ranks c r') = k).
      { specialize (Hmin r' Hr'). destruct (Nat.eq_dec (pc (ranks c r')) k); auto.
        specialize (Idone r' k Hr'). unfold done_ok in Idone. rewrite Ho in Idone. destruct Idone as (y & Y & _); [lia|]. congruence. }
      eexists. eapply (StepEnter P prg true c r' contrib red fin); auto; rewrite Ek; auto.
Qed.

(** ** Result *)
Lemma done_lockstep s c H : inv s c H -> completed P prg c ->
  exists s', lockstep P prg s s' /\ forall r, r < P -> st (ranks c r) = s' r.
Proof.
  intros I Hc. pose proof I as [I0 Ist Idone Igot Inet Iboard Ires].
  assert (G : forall k o, nth_error prg k = Some o -> together P o (H k) (H (1 + k))).
  { intros k o Ho. assert (Hk : k < n) by (eapply op_lt; eauto).
    assert (D : forall r, r < P -> done_ok c H r k) by (intros r Hr; apply Idone; auto; rewrite Hc; auto).
    unfold done_ok in D. rewrite Ho in D. destruct o as [f|dest source tag pay put|contrib red fin]; cbn.
    - exact D.
    - intros r Hr. apply D. exact Hr.
    - destruct (Nat.eq_dec P 0) as [E0|N0].
      + destruct (op_productive _ _ Ho []) as [x Hx]; [now rewrite E0|]. exists x. rewrite E0. cbn. split; auto. lia.
      + destruct (D 0) as (x & Hx & _); [lia|]. exists x. destruct (Ires k x Hx) as (co & re & fi & E1 & _ & E2).
        rewrite Ho in E1. injection E1 as <- <- <-. split; auto. intros r Hr.
        destruct (D r Hr) as (y & Hy & Er). assert (y = x) by congruence. subst y. exact Er. }
  assert (L : forall k, k <= n -> lockstep P (skipn k prg) (H k) (H n)).
  { intros k Hk. remember (n - k) as d eqn:Ed. revert k Hk Ed. induction d as [|d IH]; intros k Hk Ed.
    - replace k with n by lia. rewrite skipn_all. constructor.
    - destruct (nth_error prg k) as [o|] eqn:Ho; [|apply nth_error_None in Ho; lia].
      assert (E : skipn k prg = o :: skipn (1 + k) prg).
      { clear - Ho. revert k Ho. induction prg as [|x l IHl]; intros [|k] Ho; cbn in *; try discriminate.
        - now injection Ho as ->.
        - apply IHl. exact Ho. }
      rewrite E. apply lockstep_cons with (s1 := H (1 + k)); [apply G; auto|apply IH; lia]. }
  destruct prg as [|o os] eqn:Epr.
  - exists s. split; [constructor|]. intros r Hr. rewrite Ist by auto. rewrite Hc by auto. cbn. auto.
  - exists (H (length (o :: os))). split.
    + pose proof (L 0 (Nat.le_0_l _)) as L0. cbn [skipn] in L0. inversion L0 as [|o' os' t0 t1 t2 T1 T2]; subst.
      apply lockstep_cons with (s1 := t1); auto.
      assert (Mo : matched P o) by (apply Hmatch; left; reflexivity).
      destruct o as [f|dest source tag pay put|contrib red fin]; cbn in *.
      * intros r Hr. rewrite <- I0. auto.
      * intros r Hr. rewrite <- !I0. auto.
      * destruct T1 as (x & X1 & X2). exists x. split.
        -- erewrite map_ext; [exact X1|]. intros r. cbn beta. now rewrite I0.
        -- intros r Hr. rewrite <- I0. auto.
    + intros r Hr. rewrite Ist by auto. rewrite Hc by auto. reflexivity.
Qed.
End Inv.

(** ** Termination *)
Section Term.
Context {S M : Type}.
Variable P : nat.
Variable prg : list (op S M).
Variable rv : bool.
Notation config := (config S M).
Notation n := (length prg).

Definition sumn (f : nat -> nat) (p : nat) : nat := list_sum (map f (seq 0 p)).
Lemma sumn_S f p : sumn f (1 + p) = sumn f p + f p.
Proof. unfold sumn. cbn [Nat.add]. rewrite seq_S, map_app, list_sum_app. cbn. lia. Qed.
Lemma sumn_le f g p : (forall r, r < p -> f r <= g r) -> sumn f p <= sumn g p.
Proof.
  induction p as [|p IH]; intros H; [auto|]. change (Datatypes.S p) with (1 + p). rewrite !sumn_S.
  specialize (H p) as Hp. assert (sumn f p <= sumn g p) by (apply IH; intros; apply H; lia). lia.
Qed.
Lemma sumn_lt f g p r : (forall r, r < p -> f r <= g r) -> r < p -> f r < g r -> sumn f p < sumn g p.
Proof.
  induction p as [|p IH]; intros H Hr Hs; [lia|]. change (Datatypes.S p) with (1 + p). rewrite !sumn_S.
  specialize (H p) as Hp. destruct (Nat.eq_dec r p) as [->|N].
  - assert (sumn f p <= sumn g p) by (apply sumn_le; intros; apply H; lia). lia.
  - assert (sumn f p < sumn g p) by (apply IH; auto; lia). lia.
Qed.
Lemma sumn_const b p : sumn (fun _ => b) p = p * b.
Proof. induction p as [|p IH]; [reflexivity|]. change (Datatypes.S p) with (1 + p). rewrite sumn_S, IH. lia. Qed.

Definition isS {X} (o : option X) : nat := match o with Some _ => 1 | None => 0 end.
Definition work_rank (c : config) (r : nat) : nat :=
  3 * pc (ranks c r) + (if sent (ranks c r) then 1 else 0) + isS (got (ranks c r)).
Definition work_board (c : config) (r : nat) : nat := sumn (fun k => isS (board c k r)) n.
Definition work (c : config) : nat :=
  sumn (fun r => work_rank c r) P + sumn (fun r => work_board c r) P + sumn (fun k => isS (result c k)) n.

Lemma work_step c c' : step P prg rv c c' -> work c < work c'.
Proof.
  assert (A : forall r x nt, r < P ->
    work_rank c r < 3 * pc x + (if sent x then 1 else 0) + isS (got x) ->
    work c < work (Config (set_rank c r x) nt (board c) (result c))).
  { intros r x nt Hr Hw. unfold work. apply Nat.add_lt_le_mono; [|apply Nat.le_refl].
    apply Nat.add_lt_le_mono; [|apply Nat.le_refl]. apply sumn_lt with (r := r); auto.
    - intros r' _. unfold work_rank at 2. cbn [ranks]. destruct (Nat.eq_dec r' r) as [->|N].
      + rewrite set_same. lia.
      + rewrite set_other by auto. unfold work_rank. lia.
    - unfold work_rank at 2. cbn [ranks]. rewrite set_same. exact Hw. }
  assert (B : forall r, (if sent (ranks c r) then 1 else 0) + isS (got (ranks c r)) <= 2).
  { intros r. destruct (sent _), (got _); cbn; lia. }
  intros Hst. destruct Hst as [r f s' Hr Ho Hf|r dest source tag pay put Hr Ho Hs|r dest source tag pay put k m q Hr Ho Hg Hq
    |r dest source tag pay put m Hr Ho Hs Hg Hrv|r contrib red fin Hr Ho Hb|k contrib red fin ms x Ho Hres Hms Hx
    |r contrib red fin x Hr Ho Hres].
  - apply A; auto. unfold work_rank. cbn [pc sent got isS]. specialize (B r). lia.
  - apply A; auto. unfold work_rank. cbn [pc sent got isS]. rewrite Hs. lia.
  - apply A; auto. unfold work_rank. cbn [pc sent got isS]. rewrite Hg. cbn [isS]. lia.
  - apply A; auto. unfold work_rank. cbn [pc sent got isS]. specialize (B r). lia.
  - unfold work. apply Nat.add_lt_le_mono; [|apply Nat.le_refl]. apply Nat.add_le_lt_mono; [apply Nat.le_refl|].
    assert (Hk : pc (ranks c r) < n) by (apply nth_error_Some; congruence).
    apply sumn_lt with (r := r); auto.
    + intros r' _. unfold work_board. apply sumn_le. intros k _. cbn [board]. unfold set_board.
      destruct (_ && _) eqn:E; auto. destruct (board c k r'); cbn; lia.
    + unfold work_board. apply sumn_lt with (r := pc (ranks c r)); auto.
      * intros k _. cbn [board]. unfold set_board. destruct (_ && _) eqn:E; auto. destruct (board c k r); cbn; lia.
      * cbn [board]. unfold set_board. rewrite !Nat.eqb_refl, Hb. cbn. lia.
  - unfold work. apply Nat.add_le_lt_mono; [apply Nat.le_refl|]. cbn [result].
    apply sumn_lt with (r := k).
    + intros k' _. unfold set_result. destruct (k' =? k); auto. destruct (result c k'); cbn; lia.
    + apply nth_error_Some; congruence.
    + unfold set_result. rewrite Nat.eqb_refl, Hres. cbn. lia.
  - apply A; auto. unfold work_rank. cbn [pc sent got isS]. specialize (B r). lia.
Qed.

Lemma work_steps m c c' : steps P prg rv m c c' -> m + work c <= work c'.
Proof. induction 1 as [c|m c c1 c2 H IH H12]; [lia|]. apply work_step in H12. lia. Qed.

Hypothesis Hmatch : forall o, In o prg -> matched P o.

Lemma work_bound s c H : inv P prg s c H -> work c <= P * (4 * n + 2) + n.
Proof.
  intros I. unfold work.
  assert (W1 : sumn (fun r => work_rank c r) P <= sumn (fun _ => 3 * n + 2) P).
  { apply sumn_le. intros r Hr. pose proof (inv_pc P prg s c H r I Hr). unfold work_rank. destruct (sent _), (got _); cbn [isS]; lia. }
  assert (W2 : sumn (fun r => work_board c r) P <= sumn (fun _ => n) P).
  { apply sumn_le. intros r _. unfold work_board. transitivity (sumn (fun _ => 1) n).
    - apply sumn_le. intros k _. destruct (board c k r); cbn; lia.
    - rewrite sumn_const. lia. }
  assert (W3 : sumn (fun k => isS (result c k)) n <= sumn (fun _ => 1) n).
  { apply sumn_le. intros k _. destruct (result c k); cbn; lia. }
  rewrite sumn_const in *. lia.
Qed.

Theorem spmd_bound m s c : steps P prg rv m (start s) c -> m <= P * (4 * n + 2) + n.
Proof.
  intros Hst. destruct (inv_steps P prg Hmatch rv m s c Hst) as [H I].
  pose proof (work_bound s c H I). pose proof (work_steps _ _ _ Hst). lia.
Qed.
End Term.

Section Main.
Context {S M : Type}.
Variable P : nat.
Variable prg : list (op S M).
Hypothesis Hmatch : forall o, In o prg -> matched P o.
Hypothesis Hprod : forall o, In o prg -> productive P o.

Theorem spmd_progress rv m s c : steps P prg rv m (start s) c ->
  completed P prg c \/ exists c', step P prg true c c'.
Proof. intros Hst. destruct (inv_steps P prg Hmatch rv m s c Hst) as [H I]. eapply progress; eauto. Qed.

Lemma step_eager c c' rv : step P prg true c c' -> step P prg rv c c'.
Proof.
  intros H. destruct H; [eapply StepLocal|eapply StepSend|eapply StepRecv|eapply StepDone|eapply StepEnter|eapply StepReduce|eapply StepLeave]; eauto.
Qed.

Theorem spmd_result rv m s c : steps P prg rv m (start s) c -> completed P prg c ->
  exists s', lockstep P prg s s' /\ forall r, r < P -> st (ranks c r) = s' r.
Proof. intros Hst Hc. destruct (inv_steps P prg Hmatch rv m s c Hst) as [H I]. eapply done_lockstep; eauto. Qed.
End Main.
