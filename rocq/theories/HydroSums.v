(** Sums over index ranges, over the reals. *)
From Coq Require Import ZArith List Reals Lia Lra.
From Verif Require Import Par ParProofs HydroSpec.
Import ListNotations.
Open Scope R_scope.

Lemma sumZ_empty a b f : (b <= a)%Z -> sumZ a b f = 0.
Proof. intros H. unfold sumZ. rewrite zrange_nil by lia. reflexivity. Qed.
Lemma sumZ_cons a b f : (a < b)%Z -> sumZ a b f = f a + sumZ (a + 1) b f.
Proof. intros H. unfold sumZ. rewrite zrange_cons by lia. reflexivity. Qed.

Lemma sumZ_ind (P : Z -> Prop) b : (forall a, (b <= a)%Z -> P a) ->
  (forall a, (a < b)%Z -> P (a + 1)%Z -> P a) -> forall a, P a.
Proof.
  intros H0 H1 a. destruct (Z_le_gt_dec b a) as [H|H]; [apply H0; lia|].
  remember (Z.to_nat (b - a)) as n. revert a H Heqn.
  induction n as [|n IH]; intros a H Hn; [lia|].
  apply H1; [lia|]. destruct (Z_le_gt_dec b (a + 1)) as [H'|H']; [apply H0; lia|apply IH; lia].
Qed.

Lemma sumZ_ext a b f g : (forall i, (a <= i < b)%Z -> f i = g i) -> sumZ a b f = sumZ a b g.
Proof.
  intros H. unfold sumZ. f_equal. apply map_ext_in. intros i Hi. apply H. apply In_zrange in Hi. exact Hi.
Qed.
Lemma sumZ_add a b f g : sumZ a b (fun i => f i + g i) = sumZ a b f + sumZ a b g.
Proof.
  revert a. apply (sumZ_ind _ b); intros a H; [rewrite !sumZ_empty by lia; lra|].
  intros IH. rewrite !(sumZ_cons a) by lia. rewrite IH. lra.
Qed.
Lemma sumZ_sub a b f g : sumZ a b (fun i => f i - g i) = sumZ a b f - sumZ a b g.
Proof.
  revert a. apply (sumZ_ind _ b); intros a H; [rewrite !sumZ_empty by lia; lra|].
  intros IH. rewrite !(sumZ_cons a) by lia. rewrite IH. lra.
Qed.
Lemma sumZ_scal a b c f : sumZ a b (fun i => c * f i) = c * sumZ a b f.
Proof.
  revert a. apply (sumZ_ind _ b); intros a H; [rewrite !sumZ_empty by lia; lra|].
  intros IH. rewrite !(sumZ_cons a) by lia. rewrite IH. lra.
Qed.
Lemma sumZ_zero a b f : (forall i, (a <= i < b)%Z -> f i = 0) -> sumZ a b f = 0.
Proof.
  intros Hf. rewrite (sumZ_ext a b f (fun _ => 0 * 0)) by (intros; rewrite Hf by auto; lra).
  rewrite sumZ_scal. lra.
Qed.
Lemma sumZ_tele a b f : (a <= b)%Z -> sumZ a b (fun i => f i - f (i + 1)%Z) = f a - f b.
Proof.
  revert a. apply (sumZ_ind (fun a => (a <= b)%Z -> sumZ a b (fun i => f i - f (i + 1)%Z) = f a - f b) b).
  - intros a H Hab. assert (a = b) by lia. subst. rewrite sumZ_empty by lia. lra.
  - intros a H IH Hab. rewrite (sumZ_cons a) by lia. rewrite IH by lia. lra.
Qed.
Lemma sumZ_swap a b c d (f : Z -> Z -> R) :
  sumZ a b (fun i => sumZ c d (f i)) = sumZ c d (fun j => sumZ a b (fun i => f i j)).
Proof.
  revert a. apply (sumZ_ind _ b).
  - intros a H. rewrite sumZ_empty by lia. symmetry. apply sumZ_zero. intros. apply sumZ_empty. lia.
  - intros a H IH. rewrite (sumZ_cons a) by lia. rewrite IH. rewrite <- sumZ_add. apply sumZ_ext.
    intros j Hj. rewrite (sumZ_cons a) by lia. reflexivity.
Qed.
Lemma sumZ_shift a b t f : sumZ a b (fun i => f (i + t)%Z) = sumZ (a + t) (b + t) f.
Proof.
  revert a. apply (sumZ_ind _ b).
  - intros a H. rewrite !sumZ_empty by lia. reflexivity.
  - intros a H IH. rewrite (sumZ_cons a), (sumZ_cons (a + t)) by lia. rewrite IH.
    replace (a + 1 + t)%Z with (a + t + 1)%Z by lia. reflexivity.
Qed.
Lemma sumZ_split a m b f : (a <= m <= b)%Z -> sumZ a b f = sumZ a m f + sumZ m b f.
Proof.
  revert a. apply (sumZ_ind (fun a => (a <= m <= b)%Z -> sumZ a b f = sumZ a m f + sumZ m b f) m).
  - intros a H Hab. assert (a = m) by lia. subst. rewrite (sumZ_empty m m) by lia. lra.
  - intros a H IH Hab. rewrite (sumZ_cons a b), (sumZ_cons a m) by lia. rewrite IH by lia. lra.
Qed.
