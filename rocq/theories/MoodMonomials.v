(** Proofs about binomial coefficients and the enumeration of monomials. *)
From Coq Require Import ZArith List Bool Lia Sorting.Sorted FinFun Factorial Arith.
From Verif Require Import Arith MoodPoly.
Import ListNotations.
Open Scope Z_scope.

(** ** Binomial coefficients *)
Definition zfact (n : nat) : Z := Z.of_nat (fact n).
Lemma zfact_S n : zfact (S n) = Z.of_nat (S n) * zfact n.
Proof. unfold zfact. change (fact (S n)) with (S n * fact n)%nat. lia. Qed.
Lemma zfact_pos n : 0 < zfact n.
Proof. unfold zfact. pose proof (lt_O_fact n). lia. Qed.

Lemma Binomial_correct n : forall k, (k <= n)%nat ->
  exists c, Binomial n k = Some c /\ c * (zfact k * zfact (n - k)) = zfact n.
Proof.
  induction n as [|n IH]; intros k Hk.
  - assert (k = 0)%nat as -> by lia. exists 1. split; reflexivity.
  - destruct k as [|k].
    + exists 1. split; [reflexivity|]. rewrite Nat.sub_0_r. unfold zfact at 1; cbn [fact]. lia.
    + cbn [Binomial]. destruct (Nat.eqb_spec (S n) (S k)) as [E|E].
      * exists 1. split; [reflexivity|]. replace (S n - S k)%nat with O by lia. rewrite E.
        unfold zfact at 2; cbn [fact]. lia.
      * destruct (IH k) as (c1 & E1 & H1); [lia|]. destruct (IH (S k)) as (c2 & E2 & H2); [lia|].
        rewrite E1, E2. exists (c1 + c2). split; [reflexivity|].
        replace (S n - S k)%nat with (S (n - S k)) by lia.
        assert (En : (n - k = S (n - S k))%nat) by lia. rewrite En in H1.
        rewrite !zfact_S in *. set (a := zfact k) in *. set (b := zfact (n - S k)) in *.
        set (w := zfact n) in *.
        replace ((c1 + c2) * (Z.of_nat (S k) * a * (Z.of_nat (S (n - S k)) * b)))
          with (Z.of_nat (S k) * (c1 * (a * (Z.of_nat (S (n - S k)) * b)))
               + Z.of_nat (S (n - S k)) * (c2 * (Z.of_nat (S k) * a * b))) by ring.
        rewrite H1, H2. replace (Z.of_nat (S n)) with (Z.of_nat (S k) + Z.of_nat (S (n - S k))) by lia. ring.
Qed.

Lemma Binomial_None n : forall k, (n < k)%nat -> Binomial n k = None.
Proof.
  induction n as [|n IH]; intros [|k] H; try lia; [reflexivity|].
  cbn [Binomial]. destruct (Nat.eqb_spec (S n) (S k)); [lia|].
  rewrite (IH k) by lia. reflexivity.
Qed.

(** Pascal's triangle, used in the proofs only. *)
Fixpoint choose (n k : nat) : Z :=
  match n, k with
  | _, O => 1
  | O, S _ => 0
  | S n', S k' => choose n' k' + choose n' k
  end.
Lemma choose_0 n : choose n 0 = 1.
Proof. destruct n; reflexivity. Qed.
Lemma choose_absorb n : forall k, choose n (S k) * Z.of_nat (S k) = choose n k * (Z.of_nat n - Z.of_nat k).
Proof.
  induction n as [|n IH]; intros k.
  - destruct k; cbn [choose]; lia.
  - destruct k as [|k].
    + cbn [choose]. rewrite choose_0. specialize (IH O). rewrite choose_0 in IH. lia.
    + pose proof (IH (S k)) as H1. pose proof (IH k) as H2. cbn [choose] in *.
      set (x := choose n (S (S k))) in *. set (y := choose n (S k)) in *. set (z := choose n k) in *.
      nia.
Qed.
Lemma choose_correct n : forall k, (k <= n)%nat -> choose n k * (zfact k * zfact (n - k)) = zfact n.
Proof.
  induction k as [|k IH]; intros Hk.
  - rewrite choose_0, Nat.sub_0_r. unfold zfact at 1; cbn [fact]. lia.
  - pose proof (choose_absorb n k) as Ha. specialize (IH ltac:(lia)).
    replace (n - k)%nat with (S (n - S k)) in IH by lia. rewrite zfact_S in *.
    replace (Z.of_nat n - Z.of_nat k) with (Z.of_nat (S (n - S k))) in Ha by lia.
    rewrite <- IH.
    transitivity (choose n (S k) * Z.of_nat (S k) * (zfact k * zfact (n - S k))); [ring|].
    rewrite Ha. ring.
Qed.
Lemma choose_nonneg n : forall k, 0 <= choose n k.
Proof. induction n; intros [|k]; cbn; try lia. pose proof (IHn k). pose proof (IHn (S k)). lia. Qed.

Lemma binom_loop_correct n c : forall i res r, res = choose n i -> (i + c <= n)%nat ->
  binom_loop (Z.of_nat n) c (Z.of_nat i) res = Some r -> r = choose n (i + c).
Proof.
  induction c as [|c IH]; intros i res r Hres Hi H; cbn [binom_loop] in H.
  - inversion H; subst. f_equal; lia.
  - unfold int32 in H. destruct ((_ <=? _) && (_ <=? _)); [|discriminate].
    replace (Z.of_nat i + 1) with (Z.of_nat (S i)) in H by lia.
    replace (i + S c)%nat with (S i + c)%nat by lia.
    eapply IH; [|lia|exact H].
    subst res. rewrite <- choose_absorb. rewrite Z.quot_mul by lia. reflexivity.
Qed.

Lemma binom_correct n k r : (k <= n)%nat -> binom (Z.of_nat n) (Z.of_nat k) = Some r ->
  r * (zfact k * zfact (n - k)) = zfact n.
Proof.
  intros Hk. unfold binom.
  destruct (Z.ltb_spec (Z.of_nat n) (Z.of_nat k)); [lia|].
  destruct ((Z.of_nat k =? 0) || (Z.of_nat n =? 1)) eqn:E1.
  { intros H'; inversion H'; subst r. apply orb_true_iff in E1. rewrite !Z.eqb_eq in E1.
    destruct E1 as [E|E].
    - assert (k = 0)%nat as -> by lia. rewrite Nat.sub_0_r. change (zfact 0) with 1. lia.
    - assert (n = 1)%nat as -> by lia. assert (k = 0 \/ k = 1)%nat as [-> | ->] by lia; reflexivity. }
  destruct ((Z.of_nat n =? 2) && (Z.of_nat k =? 1)) eqn:E2.
  { intros H'; inversion H'; subst r. apply andb_true_iff in E2. rewrite !Z.eqb_eq in E2.
    assert (n = 2 /\ k = 1)%nat as [-> ->] by lia. reflexivity. }
  destruct ((Z.of_nat n =? 2) && (Z.of_nat k =? 2)) eqn:E3.
  { intros H'; inversion H'; subst r. apply andb_true_iff in E3. rewrite !Z.eqb_eq in E3.
    assert (n = 2 /\ k = 2)%nat as [-> ->] by lia. reflexivity. }
  destruct (Z.eqb_spec (Z.of_nat n) (Z.of_nat k)) as [E4|E4].
  { intros H'; inversion H'; subst r. assert (n = k) as -> by lia.
    rewrite Nat.sub_diag. change (zfact 0) with 1. lia. }
  cbv zeta. intros H'. change 0 with (Z.of_nat 0) in H' at 1.
  destruct (Z.ltb_spec (Z.of_nat n - Z.of_nat k) (Z.of_nat k)).
  - apply binom_loop_correct in H'; [|rewrite choose_0; reflexivity|lia].
    rewrite H'. cbn [Nat.add]. replace (Z.to_nat (Z.of_nat n - Z.of_nat k)) with (n - k)%nat by lia.
    pose proof (choose_correct n (n - k) ltac:(lia)) as Hc.
    replace (n - (n - k))%nat with k in Hc by lia. rewrite <- Hc. ring.
  - apply binom_loop_correct in H'; [|rewrite choose_0; reflexivity|lia].
    rewrite H'. cbn [Nat.add]. rewrite Nat2Z.id. apply choose_correct. lia.
Qed.

Lemma binom_above n k : 0 <= n < k -> binom n k = Some 0.
Proof. intros H. unfold binom. destruct (Z.ltb_spec n k); [reflexivity|lia]. Qed.

Lemma binom_small n k : (k <= n)%nat -> (n <= 29)%nat -> binom (Z.of_nat n) (Z.of_nat k) <> None.
Proof.
  intros Hk Hn.
  assert (H : forallb (fun n => forallb (fun k =>
     match binom (Z.of_nat n) (Z.of_nat k) with None => false | Some _ => true end) (seq 0 (S n))) (seq 0 30) = true)
    by (vm_compute; reflexivity).
  rewrite forallb_forall in H. specialize (H n). rewrite in_seq in H. specialize (H ltac:(lia)).
  rewrite forallb_forall in H. specialize (H k). rewrite in_seq in H. specialize (H ltac:(lia)).
  destruct (binom _ _); congruence.
Qed.

(** ** Monomials *)
Notation nx := mono_next_grlex.

Fixpoint iter_nx (dim n : nat) (e : list Z) : list Z :=
  match n with O => e | S n' => nx dim (iter_nx dim n' e) end.

Lemma nx2 a b : 0 <= a -> 0 <= b -> nx 2 [a; b] = if 0 <? a then [a - 1; b + 1] else [b + 1; 0].
Proof.
  intros Ha Hb. unfold mono_next_grlex, scan. cbn [Nat.sub entry nth].
  destruct (Z.ltb_spec 0 a).
  - cbn [set_entry Nat.sub Nat.add entry nth]. f_equal; lia.
  - destruct (Z.ltb_spec 0 b); cbn [set_entry Nat.sub Nat.add entry nth].
    + f_equal; lia.
    + assert (a = 0 /\ b = 0) as [-> ->] by lia. reflexivity.
Qed.
Lemma nx3 a b c : 0 <= a -> 0 <= b -> 0 <= c ->
  nx 3 [a; b; c] = if 0 <? a then [a - 1; b + 1; c] else if 0 <? b then [b - 1; 0; c + 1] else [c + 1; 0; 0].
Proof.
  intros Ha Hb Hc. unfold mono_next_grlex, scan. cbn [Nat.sub entry nth].
  destruct (Z.ltb_spec 0 a).
  - cbn [set_entry Nat.sub Nat.add entry nth]. f_equal; lia.
  - destruct (Z.ltb_spec 0 b); [cbn [set_entry Nat.sub Nat.add entry nth]; f_equal; lia|].
    destruct (Z.ltb_spec 0 c); cbn [set_entry Nat.sub Nat.add entry nth].
    + assert (b = 0) as -> by lia. f_equal; lia.
    + assert (a = 0 /\ b = 0 /\ c = 0) as (-> & -> & ->) by lia. reflexivity.
Qed.

(** Position of an exponent vector in the enumeration. *)
Definition tri (n : Z) : Z := n * (n + 1) / 2.
Definition tet (n : Z) : Z := n * (n + 1) * (n + 2) / 6.
Lemma tri_spec n : 2 * tri n = n * (n + 1).
Proof.
  unfold tri. symmetry. apply Z.div_exact; [lia|].
  destruct (Z.Even_or_Odd n) as [[m ->]|[m ->]].
  - replace (2 * m * (2 * m + 1)) with ((m * (2 * m + 1)) * 2) by ring. apply Z.mod_mul. lia.
  - replace ((2 * m + 1) * (2 * m + 1 + 1)) with (((2 * m + 1) * (m + 1)) * 2) by ring. apply Z.mod_mul. lia.
Qed.
Lemma tri_S n : tri (n + 1) = tri n + n + 1.
Proof. pose proof (tri_spec n). pose proof (tri_spec (n + 1)). nia. Qed.
Lemma tet_S_nat (n : nat) : tet (Z.of_nat n + 1) = tet (Z.of_nat n) + tri (Z.of_nat n + 1) /\
  6 * tet (Z.of_nat n) = Z.of_nat n * (Z.of_nat n + 1) * (Z.of_nat n + 2).
Proof.
  assert (H6 : forall n : nat, 6 * tet (Z.of_nat n) = Z.of_nat n * (Z.of_nat n + 1) * (Z.of_nat n + 2)).
  { clear n. intros n.
    assert (H : exists t, Z.of_nat n * (Z.of_nat n + 1) * (Z.of_nat n + 2) = 6 * t).
    { induction n as [|n (t & IH)]; [exists 0; reflexivity|].
      exists (t + tri (Z.of_nat n + 1)).
      pose proof (tri_spec (Z.of_nat n + 1)) as Ht. rewrite Nat2Z.inj_succ. unfold Z.succ. nia. }
    destruct H as (t & Ht). unfold tet. rewrite Ht. rewrite Z.mul_comm at 1. rewrite (Z.mul_comm 6 t).
    rewrite Z.div_mul by lia. lia. }
  split; [|apply H6].
  pose proof (H6 n). pose proof (H6 (S n)) as H1. rewrite Nat2Z.inj_succ in H1. unfold Z.succ in H1.
  pose proof (tri_spec (Z.of_nat n + 1)). nia.
Qed.
Lemma tet_spec n : 0 <= n -> 6 * tet n = n * (n + 1) * (n + 2).
Proof. intros H. rewrite <- (Z2Nat.id n) by lia. apply tet_S_nat. Qed.
Lemma tet_S n : 0 <= n -> tet (n + 1) = tet n + tri (n + 1).
Proof. intros H. rewrite <- (Z2Nat.id n) by lia. apply tet_S_nat. Qed.

Definition rank2 (a b : Z) : Z := tri (a + b) + b.
Definition crow (s c : Z) : Z := tri (s + 1) - tri (s + 1 - c).
Definition rank3 (a b c : Z) : Z := tet (a + b + c) + crow (a + b + c) c + b.

Definition nonneg (e : list Z) : Prop := Forall (fun x => 0 <= x) e.
Definition rank (e : list Z) : Z :=
  match e with
  | [a; b] => rank2 a b
  | [a; b; c] => rank3 a b c
  | _ => 0
  end.

Definition good (dim : nat) (e : list Z) : Prop := length e = dim /\ nonneg e.
Definition dim_ok (dim : nat) : Prop := dim = 2%nat \/ dim = 3%nat.

Lemma good2 e : good 2 e -> exists a b, e = [a; b] /\ 0 <= a /\ 0 <= b.
Proof.
  intros [Hl Hn]. destruct e as [|a [|b [|]]]; try discriminate. exists a, b.
  inversion Hn as [|? ? Ha Hn']; subst. inversion Hn'; subst. auto.
Qed.
Lemma good3 e : good 3 e -> exists a b c, e = [a; b; c] /\ 0 <= a /\ 0 <= b /\ 0 <= c.
Proof.
  intros [Hl Hn]. destruct e as [|a [|b [|c [|]]]]; try discriminate. exists a, b, c.
  inversion Hn as [|? ? Ha Hn']; subst. inversion Hn' as [|? ? Hb Hn'']; subst. inversion Hn''; subst. auto.
Qed.
Lemma mk_good2 a b : 0 <= a -> 0 <= b -> good 2 [a; b].
Proof. intros. split; [reflexivity|]. repeat constructor; auto. Qed.
Lemma mk_good3 a b c : 0 <= a -> 0 <= b -> 0 <= c -> good 3 [a; b; c].
Proof. intros. split; [reflexivity|]. repeat constructor; auto. Qed.

Lemma nx_step dim e : dim_ok dim -> good dim e -> good dim (nx dim e) /\ rank (nx dim e) = rank e + 1.
Proof.
  intros [-> | ->] Hg.
  - apply good2 in Hg. destruct Hg as (a & b & -> & Ha & Hb). rewrite nx2 by auto.
    destruct (Z.ltb_spec 0 a); (split; [apply mk_good2; lia|]); cbn [rank]; unfold rank2.
    + replace (a - 1 + (b + 1)) with (a + b) by ring. ring.
    + assert (a = 0) as -> by lia. replace (b + 1 + 0) with (b + 1) by ring. rewrite tri_S.
      replace (0 + b) with b by ring. ring.
  - apply good3 in Hg. destruct Hg as (a & b & c & -> & Ha & Hb & Hc). rewrite nx3 by auto.
    destruct (Z.ltb_spec 0 a); [|destruct (Z.ltb_spec 0 b)]; (split; [apply mk_good3; lia|]);
      cbn [rank]; unfold rank3, crow.
    + replace (a - 1 + (b + 1) + c) with (a + b + c) by ring. ring.
    + assert (a = 0) as -> by lia. replace (b - 1 + 0 + (c + 1)) with (0 + b + c) by ring.
      replace (0 + b + c + 1 - (c + 1)) with b by ring.
      replace (0 + b + c + 1 - c) with (b + 1) by ring. rewrite (tri_S b). ring.
    + assert (a = 0 /\ b = 0) as [-> ->] by lia.
      replace (c + 1 + 0 + 0) with (c + 1) by ring. replace (0 + 0 + c) with c by ring.
      rewrite tet_S by lia. replace (c + 1 + 1 - 0) with (c + 1 + 1) by ring.
      replace (c + 1 - c) with 1 by ring. change (tri 1) with 1. ring.
Qed.

Definition zeros (dim : nat) := repeat 0 dim.
Lemma good_zeros dim : dim_ok dim -> good dim (zeros dim) /\ rank (zeros dim) = 0.
Proof. intros [-> | ->]; (split; [|reflexivity]); [apply mk_good2|apply mk_good3]; lia. Qed.

Lemma iter_good dim n : dim_ok dim ->
  good dim (iter_nx dim n (zeros dim)) /\ rank (iter_nx dim n (zeros dim)) = Z.of_nat n.
Proof.
  intros Hd. induction n as [|n [IH1 IH2]]; [apply good_zeros; auto|].
  cbn [iter_nx]. destruct (nx_step dim _ Hd IH1) as [H1 H2]. split; [auto|]. rewrite H2, IH2. lia.
Qed.

Lemma tri_nonneg n : 0 <= n -> 0 <= tri n.
Proof. intros H. pose proof (tri_spec n). nia. Qed.
Lemma tri_mono a b : 0 <= a <= b -> tri a <= tri b.
Proof. intros H. pose proof (tri_spec a). pose proof (tri_spec b). nia. Qed.
Lemma tet_mono a b : 0 <= a <= b -> tet a <= tet b.
Proof.
  intros H. pose proof (tet_spec a). pose proof (tet_spec b).
  assert (a * (a + 1) * (a + 2) <= b * (b + 1) * (b + 2)) by (apply Z.mul_le_mono_nonneg; nia). lia.
Qed.
Lemma tet_nonneg n : 0 <= n -> 0 <= tet n.
Proof. intros H. change 0 with (tet 0). apply tet_mono. lia. Qed.

Lemma rank_bounds dim e : dim_ok dim -> good dim e ->
  match dim with 2%nat => tri (sum_e e) | _ => tet (sum_e e) end <= rank e <
  match dim with 2%nat => tri (sum_e e + 1) | _ => tet (sum_e e + 1) end.
Proof.
  intros [-> | ->] Hg.
  - apply good2 in Hg. destruct Hg as (a & b & -> & Ha & Hb). cbn [rank]. unfold sum_e; cbn [fold_left].
    rewrite Z.add_0_l. unfold rank2. rewrite tri_S. lia.
  - apply good3 in Hg. destruct Hg as (a & b & c & -> & Ha & Hb & Hc). cbn [rank]. unfold sum_e; cbn [fold_left].
    rewrite Z.add_0_l. unfold rank3, crow. rewrite tet_S by lia.
    set (s := a + b + c). assert (Hs : s + 1 - c = a + b + 1) by (unfold s; ring). rewrite Hs.
    assert (tri (a + b + 1) <= tri (s + 1)) by (apply tri_mono; unfold s; lia).
    pose proof (tri_S (a + b)). pose proof (tri_nonneg (a + b)). lia.
Qed.

Lemma rank_nonneg dim e : dim_ok dim -> good dim e -> 0 <= rank e.
Proof.
  intros Hd Hg. pose proof (rank_bounds dim e Hd Hg) as H.
  assert (0 <= sum_e e).
  { destruct Hd as [-> | ->]; [apply good2 in Hg; destruct Hg as (a & b & -> & ? & ?)
      |apply good3 in Hg; destruct Hg as (a & b & c & -> & ? & ? & ?)]; cbn; lia. }
  pose proof (tri_nonneg (sum_e e)). pose proof (tet_nonneg (sum_e e)).
  destruct Hd as [-> | ->]; lia.
Qed.

(** Every exponent vector is reached. *)
Lemma prev_exists dim e : dim_ok dim -> good dim e -> e <> zeros dim ->
  exists e', good dim e' /\ nx dim e' = e.
Proof.
  intros [-> | ->] Hg Hne.
  - apply good2 in Hg. destruct Hg as (a & b & -> & Ha & Hb).
    destruct (Z.eq_dec b 0) as [->|Hb0].
    + assert (a <> 0) by (intros ->; apply Hne; reflexivity).
      exists [0; a - 1]. split; [apply mk_good2; lia|]. rewrite nx2 by lia. cbn. f_equal; lia.
    + exists [a + 1; b - 1]. split; [apply mk_good2; lia|]. rewrite nx2 by lia.
      destruct (Z.ltb_spec 0 (a + 1)); [|lia]. f_equal; [lia|f_equal; lia].
  - apply good3 in Hg. destruct Hg as (a & b & c & -> & Ha & Hb & Hc).
    destruct (Z.eq_dec b 0) as [->|Hb0].
    + destruct (Z.eq_dec c 0) as [->|Hc0].
      * assert (a <> 0) by (intros ->; apply Hne; reflexivity).
        exists [0; 0; a - 1]. split; [apply mk_good3; lia|]. rewrite nx3 by lia. cbn. f_equal; lia.
      * exists [0; a + 1; c - 1]. split; [apply mk_good3; lia|]. rewrite nx3 by lia.
        destruct (Z.ltb_spec 0 (a + 1)); [|lia]. cbn [Z.ltb Z.compare]. f_equal; [lia|].
        f_equal. f_equal. lia.
    + exists [a + 1; b - 1; c]. split; [apply mk_good3; lia|]. rewrite nx3 by lia.
      destruct (Z.ltb_spec 0 (a + 1)); [|lia]. f_equal; [lia|f_equal; lia].
Qed.

Lemma reached dim e : dim_ok dim -> good dim e -> iter_nx dim (Z.to_nat (rank e)) (zeros dim) = e.
Proof.
  intros Hd. remember (Z.to_nat (rank e)) as n eqn:En. revert e En.
  induction n as [|n IH]; intros e En Hg.
  - destruct (list_eq_dec Z.eq_dec e (zeros dim)) as [->|Hne]; [reflexivity|].
    destruct (prev_exists dim e Hd Hg Hne) as (e' & Hg' & <-).
    destruct (nx_step dim e' Hd Hg') as [_ Hr]. pose proof (rank_nonneg dim e' Hd Hg'). lia.
  - destruct (list_eq_dec Z.eq_dec e (zeros dim)) as [->|Hne].
    { destruct (good_zeros dim Hd) as [_ Hz]. rewrite Hz in En. discriminate. }
    destruct (prev_exists dim e Hd Hg Hne) as (e' & Hg' & <-).
    destruct (nx_step dim e' Hd Hg') as [_ Hr]. pose proof (rank_nonneg dim e' Hd Hg').
    cbn [iter_nx]. rewrite (IH e'); auto. lia.
Qed.

(** Number of monomials. *)
Definition count (dim : nat) (d : Z) : Z := match dim with 2%nat => tri (d + 1) | _ => tet (d + 1) end.

Lemma sum_nonneg dim e : dim_ok dim -> good dim e -> 0 <= sum_e e.
Proof.
  intros Hd Hg. destruct Hd as [-> | ->]; [apply good2 in Hg; destruct Hg as (a & b & -> & ? & ?)
      |apply good3 in Hg; destruct Hg as (a & b & c & -> & ? & ? & ?)]; cbn; lia.
Qed.
Lemma rank_lt_count dim e d : dim_ok dim -> 0 <= d -> good dim e -> (sum_e e <= d <-> rank e < count dim d).
Proof.
  intros Hd Hpos Hg. pose proof (rank_bounds dim e Hd Hg) as H. pose proof (sum_nonneg dim e Hd Hg) as Hs.
  unfold count. destruct Hd as [-> | ->]; split; intros H1.
  - pose proof (tri_mono (sum_e e + 1) (d + 1)). lia.
  - destruct (Z.le_gt_cases (sum_e e) d); [auto|]. pose proof (tri_mono (d + 1) (sum_e e)). lia.
  - pose proof (tet_mono (sum_e e + 1) (d + 1)). lia.
  - destruct (Z.le_gt_cases (sum_e e) d); [auto|]. pose proof (tet_mono (d + 1) (sum_e e)). lia.
Qed.
Lemma count_nonneg dim d : 0 <= d -> dim_ok dim -> 0 < count dim d.
Proof.
  intros H [-> | ->]; unfold count.
  - rewrite tri_S. pose proof (tri_nonneg d). lia.
  - rewrite tet_S by lia. rewrite tri_S. pose proof (tri_nonneg d). pose proof (tet_nonneg d). lia.
Qed.

(** The rows the loop stores. *)
Definition rows (dim : nat) (d : Z) : list (list Z) :=
  map (fun i => iter_nx dim i (zeros dim)) (seq 0 (Z.to_nat (count dim d))).

Lemma init_loop_rows dim d : dim_ok dim -> 0 <= d -> init_map dim d (rows dim d).
Proof.
  intros Hd Hpos. unfold init_map, rows.
  assert (G : forall m i, (i + m = Z.to_nat (count dim d))%nat ->
    init_loop dim d (iter_nx dim i (zeros dim)) (map (fun i => iter_nx dim i (zeros dim)) (seq i m))).
  { induction m as [|m IH]; intros i Hi; cbn [seq map].
    - apply il_stop. destruct (iter_good dim i Hd) as [Hg Hr].
      destruct (Z.le_gt_cases (sum_e (iter_nx dim i (zeros dim))) d) as [H|H]; [|lia].
      apply (rank_lt_count dim _ d Hd Hpos Hg) in H. lia.
    - apply il_more; [|apply (IH (S i)); lia].
      destruct (iter_good dim i Hd) as [Hg Hr]. apply (rank_lt_count dim _ d Hd Hpos Hg). lia. }
  exact (G (Z.to_nat (count dim d)) O ltac:(lia)).
Qed.

Lemma init_loop_det dim d e r1 : init_loop dim d e r1 -> forall r2, init_loop dim d e r2 -> r1 = r2.
Proof.
  induction 1 as [e H|e rs H _ IH]; intros r2 H2; inversion H2; subst; auto; try lia. f_equal; auto.
Qed.

Lemma rows_In dim d e : dim_ok dim -> 0 <= d -> (In e (rows dim d) <-> good dim e /\ sum_e e <= d).
Proof.
  intros Hd Hpos. unfold rows. rewrite in_map_iff. split.
  - intros (i & <- & Hi). apply in_seq in Hi. destruct (iter_good dim i Hd) as [Hg Hr].
    split; [auto|]. apply (rank_lt_count dim _ d Hd Hpos Hg). lia.
  - intros [Hg Hs]. exists (Z.to_nat (rank e)). split; [apply reached; auto|].
    apply in_seq. apply (rank_lt_count dim _ d Hd Hpos Hg) in Hs. pose proof (rank_nonneg dim e Hd Hg). lia.
Qed.
Lemma rows_NoDup dim d : dim_ok dim -> NoDup (rows dim d).
Proof.
  intros Hd. unfold rows. apply FinFun.Injective_map_NoDup; [|apply seq_NoDup].
  intros i j H. destruct (iter_good dim i Hd) as [_ H1]. destruct (iter_good dim j Hd) as [_ H2].
  rewrite H in H1. lia.
Qed.
Lemma rows_length dim d : length (rows dim d) = Z.to_nat (count dim d).
Proof. unfold rows. rewrite map_length, seq_length. reflexivity. Qed.
Lemma rows_head dim d : dim_ok dim -> 0 <= d -> hd_error (rows dim d) = Some (zeros dim).
Proof.
  intros Hd H. unfold rows. pose proof (count_nonneg dim d H Hd).
  destruct (Z.to_nat (count dim d)) eqn:E; [lia|]. reflexivity.
Qed.

(** Graded order: by total degree, then by the exponent of the last variable,
    then of the one before. *)
Fixpoint lex_lt (e f : list Z) : Prop :=
  match e, f with
  | x :: e', y :: f' => x < y \/ (x = y /\ lex_lt e' f')
  | _, _ => False
  end.
Definition grlex_lt (e f : list Z) : Prop :=
  sum_e e < sum_e f \/ (sum_e e = sum_e f /\ lex_lt (rev e) (rev f)).

Lemma nx_grlex dim e : dim_ok dim -> good dim e -> grlex_lt e (nx dim e).
Proof.
  intros [-> | ->] Hg.
  - apply good2 in Hg. destruct Hg as (a & b & -> & Ha & Hb). rewrite nx2 by auto.
    unfold grlex_lt, sum_e; destruct (Z.ltb_spec 0 a); cbn; lia.
  - apply good3 in Hg. destruct Hg as (a & b & c & -> & Ha & Hb & Hc). rewrite nx3 by auto.
    unfold grlex_lt, sum_e; destruct (Z.ltb_spec 0 a); [|destruct (Z.ltb_spec 0 b)]; cbn; lia.
Qed.
Lemma lex_trans e : forall f h, lex_lt e f -> lex_lt f h -> lex_lt e h.
Proof.
  induction e as [|x e IH]; intros [|y f] [|z h] H1 H2; cbn in *; try tauto.
  destruct H1 as [H1|[-> H1]], H2 as [H2|[-> H2]]; try (left; lia). right. split; eauto.
Qed.
Lemma grlex_trans : Relations_1.Transitive grlex_lt.
Proof.
  intros e f h H1 H2. unfold grlex_lt in *.
  destruct H1 as [H1|[E1 H1]], H2 as [H2|[E2 H2]]; try (left; lia).
  right. split; [lia|]. eapply lex_trans; eauto.
Qed.
Lemma rows_sorted dim d : dim_ok dim -> StronglySorted grlex_lt (rows dim d).
Proof.
  intros Hd. apply Sorted_StronglySorted; [exact grlex_trans|]. unfold rows.
  generalize (Z.to_nat (count dim d)) as n. intros n. generalize O as i.
  induction n as [|n IH]; intros i; cbn [seq map]; [constructor|].
  constructor; [apply IH|]. destruct n; cbn [seq map]; [constructor|]. constructor.
  cbn [iter_nx]. apply nx_grlex; auto. apply iter_good; auto.
Qed.

(** Number of monomials: the run-time function and the template agree. *)
Lemma count_eq dim d : dim_ok dim -> 0 <= d -> get_number_of_coefficients dim d = count dim d.
Proof.
  intros [-> | ->] Hd; unfold get_number_of_coefficients, count.
  - unfold tri. f_equal; ring.
  - unfold tet. f_equal; ring.
Qed.
Lemma choose_Binomial n : forall k, (k <= n)%nat -> Binomial n k = Some (choose n k).
Proof.
  intros k Hk. destruct (Binomial_correct n k Hk) as (c & E & H). rewrite E. f_equal.
  pose proof (choose_correct n k Hk). pose proof (zfact_pos k). pose proof (zfact_pos (n - k)).
  assert (0 < zfact k * zfact (n - k)) by nia. nia.
Qed.
Lemma choose_1 n : choose n 1 = Z.of_nat n.
Proof. pose proof (choose_absorb n 0) as H. rewrite choose_0 in H. lia. Qed.
Lemma choose_2 n : choose n 2 = Z.of_nat n * (Z.of_nat n - 1) / 2.
Proof.
  pose proof (choose_absorb n 1) as H. rewrite choose_1 in H.
  change (Z.of_nat 1) with 1 in H. change (Z.of_nat 2) with 2 in H. rewrite <- H. rewrite Z.div_mul; lia.
Qed.
Lemma choose_3 n : 6 * choose n 3 = Z.of_nat n * (Z.of_nat n - 1) * (Z.of_nat n - 2).
Proof.
  pose proof (choose_absorb n 1) as H1. rewrite choose_1 in H1. pose proof (choose_absorb n 2) as H2.
  change (Z.of_nat 1) with 1 in H1. change (Z.of_nat 2) with 2 in *. change (Z.of_nat 3) with 3 in *. nia.
Qed.
Lemma choose_sym n k : (k <= n)%nat -> choose n (n - k) = choose n k.
Proof.
  intros H. pose proof (choose_correct n k H) as H1. pose proof (choose_correct n (n - k) ltac:(lia)) as H2.
  replace (n - (n - k))%nat with k in H2 by lia.
  pose proof (zfact_pos k). pose proof (zfact_pos (n - k)).
  assert (0 < zfact k * zfact (n - k)) by nia. nia.
Qed.
Lemma Binomial_count dim (d : nat) : dim_ok dim -> Binomial (d + dim) d = Some (count dim (Z.of_nat d)).
Proof.
  intros Hd. rewrite choose_Binomial by lia. f_equal.
  rewrite <- choose_sym by lia. replace (d + dim - d)%nat with dim by lia.
  destruct Hd as [-> | ->]; unfold count.
  - pose proof (choose_absorb (d + 2) 1) as H. rewrite choose_1 in H.
    change (Z.of_nat 1) with 1 in H. change (Z.of_nat 2) with 2 in H.
    pose proof (tri_spec (Z.of_nat d + 1)). rewrite Nat2Z.inj_add in H. change (Z.of_nat 2) with 2 in H. nia.
  - pose proof (choose_3 (d + 3)) as H. rewrite Nat2Z.inj_add in H. change (Z.of_nat 3) with 3 in H.
    pose proof (tet_spec (Z.of_nat d + 1) ltac:(lia)). nia.
Qed.
