(** Lagrange interpolation: the matrices of SdmGeom.v are exact on polynomials. *)
From Coq Require Import ZArith List Bool Reals Lra Lia.
From Coquelicot Require Import Coquelicot.
From Verif Require Import Arith Par ParProofs SdmGeom SdmSpec.
Import ListNotations.
Open Scope R_scope.

(** ** Polynomials *)
Fixpoint padd (p q : list R) : list R :=
  match p, q with
  | [], _ => q
  | _, [] => p
  | a :: p', b :: q' => (a + b) :: padd p' q'
  end.
Lemma peval_padd p q x : peval (padd p q) x = peval p x + peval q x.
Proof.
  revert q. induction p as [|a p IH]; intros [|b q]; cbn [padd peval]; try ring.
  rewrite IH. ring.
Qed.
Lemma padd_length p q : length (padd p q) = Nat.max (length p) (length q).
Proof. revert q. induction p as [|a p IH]; intros [|b q]; cbn; auto. Qed.
Lemma peval_map c p x : peval (map (Rmult c) p) x = c * peval p x.
Proof. induction p as [|a p IH]; cbn [map peval]; [ring|]. rewrite IH. ring. Qed.

Definition ispoly (n : nat) (f : R -> R) : Prop :=
  exists l, (length l <= n)%nat /\ forall x, f x = peval l x.
Lemma ispoly_const n c : (0 < n)%nat -> ispoly n (fun _ => c).
Proof. intros H. exists [c]. split; [cbn; lia|]. intros x. cbn. ring. Qed.
Lemma ispoly_0 n : ispoly n (fun _ => 0).
Proof. exists []. split; [cbn; lia|]. reflexivity. Qed.
Lemma ispoly_add n f h : ispoly n f -> ispoly n h -> ispoly n (fun x => f x + h x).
Proof.
  intros (p & Hp & Ep) (q & Hq & Eq). exists (padd p q). rewrite padd_length. split; [lia|].
  intros x. rewrite peval_padd, Ep, Eq. reflexivity.
Qed.
Lemma ispoly_scale n c f : ispoly n f -> ispoly n (fun x => c * f x).
Proof.
  intros (p & Hp & Ep). exists (map (Rmult c) p). rewrite map_length. split; auto.
  intros x. rewrite peval_map, Ep. reflexivity.
Qed.
Lemma ispoly_lin n f a b : ispoly n f -> ispoly (S n) (fun x => f x * ((x - a) * b)).
Proof.
  intros (p & Hp & Ep).
  exists (padd (0 :: map (Rmult b) p) (map (Rmult (- a * b)) p)).
  rewrite padd_length. cbn [length]. rewrite !map_length. split; [lia|].
  intros x. rewrite peval_padd. cbn [peval]. rewrite !peval_map, Ep. ring.
Qed.
Lemma ispoly_ext n f h : (forall x, f x = h x) -> ispoly n f -> ispoly n h.
Proof. intros E (p & Hp & Ep). exists p. split; auto. intros x. rewrite <- E. auto. Qed.
Lemma ispoly_mono n m f : (n <= m)%nat -> ispoly n f -> ispoly m f.
Proof. intros H (p & Hp & Ep). exists p. split; auto. lia. Qed.

(** Division by (x - r). *)
Lemma synth l r : exists q, length q = pred (length l) /\
  forall x, peval l x = peval l r + (x - r) * peval q x.
Proof.
  induction l as [|a l IH]; [exists []; split; auto; intros; cbn; ring|].
  destruct l as [|b l]; [exists []; split; auto; intros; cbn; ring|].
  destruct IH as (q & Hq & Eq). exists (peval (b :: l) r :: q). split; [cbn in *; lia|].
  intros x. change (peval (a :: b :: l) x) with (a + x * peval (b :: l) x).
  change (peval (a :: b :: l) r) with (a + r * peval (b :: l) r).
  rewrite (Eq x). change (peval (peval (b :: l) r :: q) x) with (peval (b :: l) r + x * peval q x). ring.
Qed.

Lemma no_roots l : forall rs, NoDup rs -> (length l <= length rs)%nat ->
  (forall r, In r rs -> peval l r = 0) -> forall x, peval l x = 0.
Proof.
  remember (length l) as n. revert l Heqn. induction n as [|n IH]; intros l Hn rs Hnd Hlen Hr x.
  - destruct l; [reflexivity|discriminate].
  - destruct rs as [|r rs]; [cbn in Hlen; lia|]. destruct (synth l r) as (q & Hq & Eq).
    assert (E0 : peval l r = 0) by (apply Hr; now left).
    rewrite Eq, E0. rewrite (IH q) with (rs := rs).
    + ring.
    + lia.
    + now inversion Hnd.
    + cbn in Hlen. lia.
    + intros t Ht. assert (Hl : peval l t = 0) by (apply Hr; now right).
      rewrite (Eq t), E0, Rplus_0_l in Hl. apply Rmult_integral in Hl. destruct Hl as [Hl|Hl]; auto.
      exfalso. inversion Hnd; subst. assert (t = r) by lra. congruence.
Qed.

Lemma ispoly_unique n f h rs : ispoly n f -> ispoly n h -> NoDup rs -> (n <= length rs)%nat ->
  (forall r, In r rs -> f r = h r) -> forall x, f x = h x.
Proof.
  intros Hf Hh Hnd Hn Hr x.
  assert (Hd : ispoly n (fun x => f x + (-1) * h x)) by (apply ispoly_add; auto; apply ispoly_scale; auto).
  destruct Hd as (l & Hl & El).
  assert (H0 : peval l x = 0).
  { apply (no_roots l rs); auto; [lia|]. intros r Hr'. rewrite <- El, (Hr r Hr'). ring. }
  rewrite <- El in H0. lra.
Qed.

(** ** Sums and products over lists of indices *)
Fixpoint suml (f : Z -> R) (ks : list Z) : R :=
  match ks with [] => 0 | k :: ks' => f k + suml f ks' end.
Fixpoint prodl (f : Z -> R) (ks : list Z) : R :=
  match ks with [] => 1 | k :: ks' => f k * prodl f ks' end.
Definition others (n i : Z) : list Z := filter (fun k => negb (k =? i)%Z) (zrange 0 n).

Lemma suml_ext f h ks : (forall k, In k ks -> f k = h k) -> suml f ks = suml h ks.
Proof. induction ks as [|k ks IH]; cbn; intros H; auto. rewrite H, IH; auto. Qed.
Lemma prodl_ext f h ks : (forall k, In k ks -> f k = h k) -> prodl f ks = prodl h ks.
Proof. induction ks as [|k ks IH]; cbn; intros H; auto. rewrite H, IH; auto. Qed.
Lemma suml_scal c f ks : suml (fun k => c * f k) ks = c * suml f ks.
Proof. induction ks as [|k ks IH]; cbn; [ring|]. rewrite IH. ring. Qed.
Lemma suml_add f h ks : suml (fun k => f k + h k) ks = suml f ks + suml h ks.
Proof. induction ks as [|k ks IH]; cbn; [ring|]. rewrite IH. ring. Qed.
Lemma suml_0 ks : suml (fun _ => 0) ks = 0.
Proof. induction ks as [|k ks IH]; cbn; [ring|]. rewrite IH. ring. Qed.
Lemma suml_swap (f : Z -> Z -> R) ks ls :
  suml (fun k => suml (f k) ls) ks = suml (fun l => suml (fun k => f k l) ks) ls.
Proof.
  induction ks as [|k ks IH]; cbn.
  - symmetry. apply suml_0.
  - rewrite IH. symmetry. apply suml_add.
Qed.
Lemma prodl_1 f ks : (forall k, In k ks -> f k = 1) -> prodl f ks = 1.
Proof. induction ks as [|k ks IH]; cbn; intros H; auto. rewrite H, IH; auto. ring. Qed.
Lemma prodl_0 f ks k : In k ks -> f k = 0 -> prodl f ks = 0.
Proof.
  induction ks as [|k' ks IH]; cbn; [tauto|]. intros [H|H] E.
  - subst. rewrite E. ring.
  - rewrite IH; auto. ring.
Qed.

Lemma fold_sum f ks a : fold_left (fun acc k => acc + f k) ks a = a + suml f ks.
Proof. revert a. induction ks as [|k ks IH]; intros a; cbn; [ring|]. rewrite IH. ring. Qed.
Lemma fold_sumb b f ks a :
  fold_left (fun acc (k : Z) => if b k : bool then acc else acc + f k) ks a
  = a + suml f (filter (fun k => negb (b k)) ks).
Proof.
  revert a. induction ks as [|k ks IH]; intros a; cbn; [ring|]. rewrite IH. destruct (b k); cbn; ring.
Qed.
Lemma fold_prodb b f ks a :
  fold_left (fun acc (k : Z) => if b k : bool then acc else acc * f k) ks a
  = a * prodl f (filter (fun k => negb (b k)) ks).
Proof.
  revert a. induction ks as [|k ks IH]; intros a; cbn; [ring|]. rewrite IH. destruct (b k); cbn; ring.
Qed.

Lemma In_others n i k : In k (others n i) <-> (0 <= k < n)%Z /\ k <> i.
Proof.
  unfold others. rewrite filter_In, In_zrange, negb_true_iff, Z.eqb_neq. tauto.
Qed.
Lemma NoDup_others n i : NoDup (others n i).
Proof. apply NoDup_filter, NoDup_zrange. Qed.

Lemma filter_id {X} (f : X -> bool) ks : (forall k, In k ks -> f k = true) -> filter f ks = ks.
Proof. induction ks as [|k ks IH]; cbn; intros H; auto. rewrite H by auto. f_equal. auto. Qed.

Lemma filter_out_length (ks : list Z) i : NoDup ks -> In i ks ->
  S (length (filter (fun k => negb (k =? i)%Z) ks)) = length ks.
Proof.
  induction 1 as [|k ks Hk Hks IH]; cbn; [tauto|]. intros [H|H].
  - subst k. rewrite Z.eqb_refl. cbn. f_equal. rewrite filter_id; auto.
    intros k Hk'. apply negb_true_iff, Z.eqb_neq. intros ->. tauto.
  - destruct (k =? i)%Z eqn:E; [apply Z.eqb_eq in E; subst; tauto|]. cbn. auto.
Qed.
Lemma others_length n i : (0 <= i < n)%Z -> S (length (others n i)) = Z.to_nat n.
Proof.
  intros H. unfold others. rewrite filter_out_length; [|apply NoDup_zrange|now apply In_zrange].
  rewrite zrange_length. f_equal. lia.
Qed.

(** ** Lagrange polynomials *)
Lemma lagrange_prod n y i x : lagrange n y i x = prodl (fun k => (x - y k) / (y i - y k)) (others n i).
Proof.
  unfold lagrange, loopv. cbn [mul sub div one RArith].
  rewrite (fold_prodb (fun k => (k =? i)%Z) (fun k => (x - y k) / (y i - y k))). unfold others. ring.
Qed.

Lemma prodl_ispoly y i ks :
  ispoly (S (length ks)) (fun x => prodl (fun k => (x - y k) / (y i - y k)) ks).
Proof.
  induction ks as [|k ks IH]; cbn [prodl length].
  - apply ispoly_const. lia.
  - eapply ispoly_ext; [|apply (ispoly_lin _ _ (y k) (/ (y i - y k)) IH)].
    intros x. cbn beta. unfold Rdiv. ring.
Qed.
Lemma lagrange_ispoly n y i : (0 <= i < n)%Z -> ispoly (Z.to_nat n) (lagrange n y i).
Proof.
  intros H. rewrite <- (others_length n i H).
  eapply ispoly_ext; [|apply (prodl_ispoly y i)]. intros x. symmetry. apply lagrange_prod.
Qed.

Lemma lagrange_same n y i : distinct n y -> (0 <= i < n)%Z -> lagrange n y i (y i) = 1.
Proof.
  intros Hd Hi. rewrite lagrange_prod. apply prodl_1. intros k Hk. apply In_others in Hk.
  apply Rinv_r. intros E. apply (proj2 Hk). apply Hd; try tauto. lra.
Qed.
Lemma lagrange_other n y i j : (0 <= j < n)%Z -> j <> i -> lagrange n y i (y j) = 0.
Proof.
  intros Hj Hne. rewrite lagrange_prod. apply (prodl_0 _ _ j); [now apply In_others|].
  unfold Rdiv. ring.
Qed.

(** Interpolant of the values [v]. *)
Definition interp (n : Z) (y v : Z -> R) (x : R) : R :=
  suml (fun i => v i * lagrange n y i x) (zrange 0 n).

Lemma suml_ispoly n (f : Z -> R -> R) ks : (forall k, In k ks -> ispoly n (f k)) ->
  ispoly n (fun x => suml (fun k => f k x) ks).
Proof.
  induction ks as [|k ks IH]; cbn; intros H; [apply ispoly_0|]. apply ispoly_add; auto.
Qed.
Lemma interp_ispoly n y v : ispoly (Z.to_nat n) (interp n y v).
Proof.
  apply suml_ispoly. intros k Hk. apply ispoly_scale, lagrange_ispoly. now apply In_zrange.
Qed.
Lemma suml_single (f : Z -> R) ks i : NoDup ks -> In i ks -> (forall k, In k ks -> k <> i -> f k = 0) ->
  suml f ks = f i.
Proof.
  induction 1 as [|k ks Hk Hks IH]; cbn; [tauto|]. intros [H|H] H0.
  - subst k. rewrite (suml_ext _ (fun _ => 0)), suml_0; [ring|]. intros k Hk'. apply H0; auto.
    intros ->. tauto.
  - rewrite IH; auto. rewrite H0; auto; [ring|]. intros ->. tauto.
Qed.
Lemma interp_node n y v j : distinct n y -> (0 <= j < n)%Z -> interp n y v (y j) = v j.
Proof.
  intros Hd Hj. unfold interp. rewrite (suml_single _ _ j).
  - rewrite lagrange_same; auto. ring.
  - apply NoDup_zrange.
  - now apply In_zrange.
  - intros k Hk Hne. rewrite lagrange_other; auto. ring.
Qed.

Lemma nodes_NoDup n y : distinct n y -> NoDup (map y (zrange 0 n)).
Proof.
  intros Hd. assert (Hi : forall i j, In i (zrange 0 n) -> In j (zrange 0 n) -> y i = y j -> i = j).
  { intros i j Hi Hj. apply Hd; now apply In_zrange. }
  revert Hi. pose proof (NoDup_zrange 0 n) as Hn. induction Hn as [|k ks Hk Hks IH]; cbn; [constructor|].
  intros Hi. constructor.
  - intros H. apply in_map_iff in H. destruct H as (k' & E & Hk'). apply Hi in E; auto. subst. tauto.
  - apply IH. intros i j Hi' Hj'. apply Hi; auto.
Qed.

Lemma interp_unique n y f : distinct n y -> ispoly (Z.to_nat n) f ->
  forall x, interp n y (fun i => f (y i)) x = f x.
Proof.
  intros Hd Hf. apply (ispoly_unique (Z.to_nat n) _ _ (map y (zrange 0 n))); auto.
  - apply interp_ispoly.
  - now apply nodes_NoDup.
  - rewrite map_length, zrange_length. apply Nat.eq_le_incl. f_equal. lia.
  - intros r Hr. apply in_map_iff in Hr. destruct Hr as (j & <- & Hj). apply interp_node; auto.
    now apply In_zrange.
Qed.

Lemma dot_suml n v m j : dot n v m j = suml (fun k => v k * m k j) (zrange 0 n).
Proof.
  unfold dot, loopv. cbn [add mul zero RArith]. rewrite (fold_sum (fun k => v k * m k j)). ring.
Qed.

(** ** Derivatives *)
Lemma is_derive_suml (f : Z -> R -> R) (f' : Z -> R) x ks :
  (forall k, In k ks -> is_derive (f k) x (f' k)) ->
  is_derive (fun t => suml (fun k => f k t) ks) x (suml f' ks).
Proof.
  induction ks as [|k ks IH]; cbn; intros H; [auto_derive; auto|].
  apply (is_derive_plus (f k) (fun t => suml (fun k => f k t) ks)); auto.
Qed.

Definition without (l : Z) (ks : list Z) : list Z := filter (fun k => negb (k =? l)%Z) ks.

Lemma is_derive_prodl (f : Z -> R -> R) (f' : Z -> R) x ks : NoDup ks ->
  (forall k, In k ks -> is_derive (f k) x (f' k)) ->
  is_derive (fun t => prodl (fun k => f k t) ks) x
    (suml (fun l => f' l * prodl (fun k => f k x) (without l ks)) ks).
Proof.
  induction 1 as [|k ks Hk Hks IH]; cbn; intros H; [auto_derive; auto|].
  rewrite Z.eqb_refl. cbn [negb].
  rewrite (suml_ext _ (fun l => f k x * (f' l * prodl (fun k0 => f k0 x) (without l ks)))).
  2: { intros l Hl. destruct (k =? l)%Z eqn:E; [apply Z.eqb_eq in E; subst; tauto|]. cbn. unfold without. ring. }
  rewrite suml_scal.
  assert (E1 : filter (fun k0 => negb (k0 =? k)%Z) ks = ks).
  { apply filter_id. intros l Hl. apply negb_true_iff, Z.eqb_neq. intros ->. tauto. }
  rewrite E1.
  apply (is_derive_mult (f k) (fun t => prodl (fun k => f k t) ks) x (f' k)); auto.
  intros a b. apply Rmult_comm.
Qed.

Lemma is_derive_lagrange n y i x :
  is_derive (lagrange n y i) x
    (suml (fun l => / (y i - y l) *
        prodl (fun k => (x - y k) / (y i - y k)) (without l (others n i))) (others n i)).
Proof.
  eapply is_derive_ext; [intros t; symmetry; apply lagrange_prod|].
  apply (is_derive_prodl (fun k t => (t - y k) / (y i - y k)) (fun l => / (y i - y l))).
  - apply NoDup_others.
  - intros k _. auto_derive; auto. unfold Rdiv. ring.
Qed.

Lemma is_derive_interp n y v x (d : Z -> R) :
  (forall i, (0 <= i < n)%Z -> is_derive (lagrange n y i) x (d i)) ->
  is_derive (interp n y v) x (suml (fun i => v i * d i) (zrange 0 n)).
Proof.
  intros H. unfold interp. apply (is_derive_suml (fun i t => v i * lagrange n y i t)).
  intros k Hk. apply is_derive_scal. apply H. now apply In_zrange.
Qed.
