(** Exactness of the moments, the quadrature rules and the least squares
    reconstruction, over the reals. *)
From Coq Require Import ZArith List Bool Lia Reals Lra.
From Coquelicot Require Import Coquelicot.
From Verif Require Import Arith MoodPoly.
Import ListNotations.
Open Scope R_scope.

Ltac req := match goal with |- @eq _ ?a ?b => change (@eq R a b) end.

Lemma powi_pow (x : R) n : powi x n = x ^ n.
Proof. induction n as [|n IH]; cbn; [reflexivity|]. rewrite IH. reflexivity. Qed.

(** ** Moments *)
Definition cell_average2 (dx dy : R) (i j : Z) (f : R -> R -> R) : R :=
  RInt (fun x => RInt (fun y => f x y) ((IZR j - / 2) * dy) ((IZR j + / 2) * dy))
       ((IZR i - / 2) * dx) ((IZR i + / 2) * dx) / (dx * dy).
Definition cell_average3 (dx dy dz : R) (i j k : Z) (f : R -> R -> R -> R) : R :=
  RInt (fun x => RInt (fun y => RInt (fun z => f x y z)
         ((IZR k - / 2) * dz) ((IZR k + / 2) * dz))
         ((IZR j - / 2) * dy) ((IZR j + / 2) * dy))
         ((IZR i - / 2) * dx) ((IZR i + / 2) * dx) / (dx * dy * dz).

Lemma is_RInt_pow n a b : is_RInt (fun x => x ^ n) a b ((b ^ S n - a ^ S n) / INR (S n)).
Proof.
  assert (HN : INR (S n) <> 0) by (apply not_0_INR; lia).
  replace ((b ^ S n - a ^ S n) / INR (S n)) with (minus (b ^ S n / INR (S n)) (a ^ S n / INR (S n))).
  2:{ unfold minus, plus, opp; cbn -[pow INR]. field. exact HN. }
  apply (is_RInt_derive (fun x => x ^ S n / INR (S n)) (fun x => x ^ n)).
  - intros x _.
    assert (D : is_derive (fun x => x ^ S n) x (INR (S n) * x ^ n)).
    { replace (INR (S n) * x ^ n) with (INR (S n) * 1 * x ^ pred (S n)) by (cbn [pred]; ring).
      apply (is_derive_pow (fun x => x) (S n) x 1). apply (is_derive_id (K := R_AbsRing) x). }
    replace (x ^ n) with (INR (S n) * x ^ n * / INR (S n)) by (field; exact HN).
    apply (is_derive_ext (fun t => / INR (S n) * t ^ S n)); [intros t; req; unfold Rdiv; ring|].
    rewrite Rmult_comm. apply (is_derive_scal (fun t => t ^ S n)). exact D.
  - intros x _. apply (ex_derive_continuous (fun x => x ^ n)). auto_derive. exact I.
Qed.
Lemma RInt_pow n a b : RInt (fun x => x ^ n) a b = (b ^ S n - a ^ S n) / INR (S n).
Proof. apply is_RInt_unique, is_RInt_pow. Qed.
Lemma ex_RInt_pow n a b : ex_RInt (fun x => x ^ n) a b.
Proof. eexists. apply is_RInt_pow. Qed.
Lemma RInt_scal_l (c : R) f a b : ex_RInt f a b -> RInt (fun x => c * f x) a b = c * RInt f a b.
Proof. intros H. exact (RInt_scal f a b c H). Qed.
Lemma RInt_scal_r (c : R) f a b : ex_RInt f a b -> RInt (fun x => f x * c) a b = RInt f a b * c.
Proof.
  intros H. rewrite (RInt_ext _ (fun x => c * f x)) by (intros; req; ring).
  rewrite RInt_scal_l by auto. req. ring.
Qed.

Lemma IZR_S n : IZR (Z.of_nat (S n)) = INR (S n).
Proof. rewrite <- INR_IZR_INZ. reflexivity. Qed.

Lemma pow_diff_R i n (d : R) : pow_diff i n * d ^ S n = (((IZR i + / 2) * d) ^ S n - ((IZR i - / 2) * d) ^ S n).
Proof.
  unfold pow_diff. unfold int. cbn [add sub mul lit RArith half].
  replace (IZR i / 1) with (IZR i) by field. rewrite !Rpow_mult_distr.
  rewrite (powi_pow (IZR i + / 2)), (powi_pow (IZR i - / 2)). ring.
Qed.

Lemma eval_moment2_average dx dy i j n m : dx <> 0 -> dy <> 0 ->
  eval_moment2 dx dy i j n m = cell_average2 dx dy i j (fun x y => x ^ n * y ^ m).
Proof.
  intros Hx Hy. unfold cell_average2.
  rewrite (RInt_ext _ (fun x => x ^ n * ((((IZR j + / 2) * dy) ^ S m - ((IZR j - / 2) * dy) ^ S m) / INR (S m)))).
  2:{ intros x _. rewrite RInt_scal_l by apply ex_RInt_pow. rewrite RInt_pow. reflexivity. }
  rewrite RInt_scal_r by apply ex_RInt_pow. rewrite RInt_pow.
  rewrite <- !pow_diff_R. unfold eval_moment2. change (@powi R RArith) with pow.
  generalize (pow_diff i n) (pow_diff j m) (dx ^ S n) (dy ^ S m). intros p q r s.
  cbn [add sub mul div lit RArith one]. unfold int. cbn [lit RArith]. rewrite !IZR_S.
  assert (INR (S n) <> 0) by (apply not_0_INR; lia). assert (INR (S m) <> 0) by (apply not_0_INR; lia).
  req. field. repeat split; assumption.
Qed.

Lemma eval_moment3_average dx dy dz i j k n m l : dx <> 0 -> dy <> 0 -> dz <> 0 ->
  eval_moment3 dx dy dz i j k n m l = cell_average3 dx dy dz i j k (fun x y z => x ^ n * y ^ m * z ^ l).
Proof.
  intros Hx Hy Hz. unfold cell_average3.
  set (Kz := (((IZR k + / 2) * dz) ^ S l - ((IZR k - / 2) * dz) ^ S l) / INR (S l)).
  set (Ky := (((IZR j + / 2) * dy) ^ S m - ((IZR j - / 2) * dy) ^ S m) / INR (S m)).
  rewrite (RInt_ext _ (fun x => x ^ n * (Ky * Kz))).
  2:{ intros x _. rewrite (RInt_ext _ (fun y => x ^ n * (y ^ m * Kz))).
      2:{ intros y _. rewrite RInt_scal_l by apply ex_RInt_pow. rewrite RInt_pow. fold Kz. req. ring. }
      rewrite RInt_scal_l.
      2:{ apply (ex_RInt_ext (fun y => scal Kz (y ^ m))); [intros; req; unfold scal; cbn; unfold mult; cbn; ring|].
          apply (ex_RInt_scal (V := R_NormedModule) (fun y => y ^ m)). apply ex_RInt_pow. }
      rewrite RInt_scal_r by apply ex_RInt_pow. rewrite RInt_pow. reflexivity. }
  rewrite RInt_scal_r by apply ex_RInt_pow. rewrite RInt_pow. unfold Kz, Ky.
  rewrite <- !pow_diff_R. unfold eval_moment3. change (@powi R RArith) with pow.
  generalize (pow_diff i n) (pow_diff j m) (pow_diff k l) (dx ^ S n) (dy ^ S m) (dz ^ S l).
  intros p q t r s v.
  cbn [add sub mul div lit RArith one]. unfold int. cbn [lit RArith]. rewrite !IZR_S.
  assert (INR (S n) <> 0) by (apply not_0_INR; lia). assert (INR (S m) <> 0) by (apply not_0_INR; lia).
  assert (INR (S l) <> 0) by (apply not_0_INR; lia).
  req. field. repeat split; assumption.
Qed.

(** ** Quadrature *)
Fixpoint peval (cs : list R) (x : R) : R :=
  match cs with [] => 0 | c :: cs' => c + x * peval cs' x end.

Lemma peval_6 cs x : (length cs <= 6)%nat ->
  peval cs x = nth 0 cs 0 + nth 1 cs 0 * x + nth 2 cs 0 * x ^ 2 + nth 3 cs 0 * x ^ 3 + nth 4 cs 0 * x ^ 4 + nth 5 cs 0 * x ^ 5.
Proof.
  intros H. do 7 (destruct cs as [|? cs]; [cbn; ring|]). cbn in H. lia.
Qed.

Lemma is_RInt_lin (f h : R -> R) (c d : R) a b If Ih : is_RInt f a b If -> is_RInt h a b Ih ->
  is_RInt (fun x => c * f x + d * h x) a b (c * If + d * Ih).
Proof.
  intros H1 H2. apply (is_RInt_plus (V := R_NormedModule) (fun x => c * f x) (fun x => d * h x));
    apply (is_RInt_scal (V := R_NormedModule)); auto.
Qed.

Lemma peval_integral cs : (length cs <= 6)%nat ->
  RInt (peval cs) (- / 2) (/ 2) = nth 0 cs 0 + nth 2 cs 0 / 12 + nth 4 cs 0 / 80.
Proof.
  intros H. apply is_RInt_unique.
  pose (c k := nth k cs 0).
  apply (is_RInt_ext (fun x => 1 * (c 0%nat * x ^ 0 + c 1%nat * x ^ 1) + 1 * (1 * (c 2%nat * x ^ 2 + c 3%nat * x ^ 3)
     + 1 * (c 4%nat * x ^ 4 + c 5%nat * x ^ 5)))).
  { intros x _. req. rewrite peval_6 by auto. unfold c. ring. }
  pose proof (fun n => is_RInt_pow n (- / 2) (/ 2)) as P.
  pose proof (is_RInt_lin _ _ (c 0%nat) (c 1%nat) _ _ _ _ (P 0%nat) (P 1%nat)) as Q1.
  pose proof (is_RInt_lin _ _ (c 2%nat) (c 3%nat) _ _ _ _ (P 2%nat) (P 3%nat)) as Q2.
  pose proof (is_RInt_lin _ _ (c 4%nat) (c 5%nat) _ _ _ _ (P 4%nat) (P 5%nat)) as Q3.
  pose proof (is_RInt_lin _ _ 1 1 _ _ _ _ Q2 Q3) as Q4.
  pose proof (is_RInt_lin _ _ 1 1 _ _ _ _ Q1 Q4) as Q5.
  match type of Q5 with is_RInt _ _ _ ?v => replace (nth 0 cs 0 + nth 2 cs 0 / 12 + nth 4 cs 0 / 80) with v end.
  exact Q5. unfold c. cbn [INR pow]. field.
Qed.

Lemma sqrt3_sq : sqrt 3 * sqrt 3 = 3.
Proof. apply sqrt_sqrt. lra. Qed.
Lemma sqrt35_sq : sqrt (3 / 5) * sqrt (3 / 5) = 3 / 5.
Proof. apply sqrt_sqrt. lra. Qed.

(** One-dimensional rule, for both tables. *)
Lemma rule_exact (s3 s35 : R) nb cs (ab : nat -> R) :
  s3 * s3 = 3 -> s35 * s35 = 3 / 5 -> (1 <= nb <= 3)%nat -> (length cs <= 2 * nb)%nat ->
  (forall iq, (iq < nb)%nat -> ab iq = abscissa2 s3 s35 nb iq) ->
  face_sum2 nb (fun iq => peval cs (ab iq)) = RInt (peval cs) (- / 2) (/ 2).
Proof.
  intros H3 H35 Hnb Hl Hab. rewrite peval_integral by lia.
  assert (s3 <> 0) by (intros ->; lra).
  assert (nb = 1 \/ nb = 2 \/ nb = 3)%nat as [-> | [-> | ->]] by lia.
  - cbn [face_sum2]. rewrite Hab by lia. cbn [abscissa2 zero RArith]. rewrite peval_6 by lia.
    assert (E : forall k, (2 <= k)%nat -> nth k cs 0 = 0) by (intros k Hk; apply nth_overflow; lia).
    rewrite (E 2%nat), (E 3%nat), (E 4%nat), (E 5%nat) by lia. lra.
  - unfold face_sum2. cbn [seq fold_left]. rewrite !Hab by lia. cbn [abscissa2 weight zero half RArith add mul div opp].
    rewrite !peval_6 by lia.
    assert (E : forall k, (4 <= k)%nat -> nth k cs 0 = 0) by (intros k Hk; apply nth_overflow; lia).
    rewrite (E 4%nat), (E 5%nat) by lia.
    set (t := / 2 / s3). assert (Ht : t * t = / 12).
    { unfold t. replace (/ 2 / s3 * (/ 2 / s3)) with (/ 4 * / (s3 * s3)) by (field; auto). rewrite H3. lra. }
    replace (- / 2 / s3) with (- t) by (unfold t; field; auto).
    replace (nth 0 cs 0 + nth 2 cs 0 / 12 + 0 / 80) with (nth 0 cs 0 + nth 2 cs 0 * (t * t)) by (rewrite Ht; field).
    field.
  - unfold face_sum2. cbn [seq fold_left]. rewrite !Hab by lia. cbn [abscissa2 weight zero half RArith add mul div opp].
    rewrite !peval_6 by lia. unfold int; cbn [lit RArith].
    set (t := / 2 * s35). assert (Ht : t * t = 3 / 20).
    { unfold t. replace (/ 2 * s35 * (/ 2 * s35)) with (/ 4 * (s35 * s35)) by field. rewrite H35. lra. }
    replace (- / 2 * s35) with (- t) by (unfold t; ring).
    replace (nth 0 cs 0 + nth 2 cs 0 / 12 + nth 4 cs 0 / 80)
      with (nth 0 cs 0 + nth 2 cs 0 * (5 / 9 * (t * t)) + nth 4 cs 0 * (5 / 9 * ((t * t) * (t * t)))) by (rewrite Ht; field).
    field.
Qed.

Lemma abscissa3_2 (s3 s35 : R) nb iq : s3 <> 0 -> (1 <= nb <= 3)%nat -> (iq < nb)%nat ->
  abscissa3 s3 s35 nb iq = abscissa2 s3 s35 nb iq.
Proof.
  intros H Hnb Hiq. assert (nb = 1 \/ nb = 2 \/ nb = 3)%nat as [-> | [-> | ->]] by lia.
  - assert (iq = 0)%nat as -> by lia. reflexivity.
  - assert (iq = 0 \/ iq = 1)%nat as [-> | ->] by lia; cbn; field; auto.
  - assert (iq = 0 \/ iq = 1 \/ iq = 2)%nat as [-> | [-> | ->]] by lia; cbn; field; auto.
Qed.

(** The two-dimensional sum factorises. *)
Lemma face_sum3_prod nb (f : nat -> nat -> R) : (1 <= nb <= 3)%nat ->
  face_sum3 nb (fun iq => f (Nat.modulo iq nb) (Nat.div iq nb)) =
  face_sum2 nb (fun j => face_sum2 nb (fun i => f i j)).
Proof.
  intros H. assert (nb = 1 \/ nb = 2 \/ nb = 3)%nat as [-> | [-> | ->]] by lia.
  - reflexivity.
  - unfold face_sum3, face_sum2. cbn. field.
  - unfold face_sum3, face_sum2. cbn. field.
Qed.

Lemma face_sum2_ext nb (f h : nat -> R) : (1 <= nb <= 3)%nat ->
  (forall iq, (iq < nb)%nat -> f iq = h iq) -> face_sum2 nb f = face_sum2 nb h.
Proof.
  intros Hnb H. assert (nb = 1 \/ nb = 2 \/ nb = 3)%nat as [-> | [-> | ->]] by lia;
    unfold face_sum2; cbn; rewrite !H by lia; reflexivity.
Qed.
Lemma face_sum2_scal nb (c : R) f : (1 <= nb <= 3)%nat -> face_sum2 nb (fun iq => c * f iq) = c * face_sum2 nb f.
Proof.
  intros Hnb. assert (nb = 1 \/ nb = 2 \/ nb = 3)%nat as [-> | [-> | ->]] by lia; unfold face_sum2; cbn; field.
Qed.

(** The decimal constants of the code. *)
Lemma square_close (k : nat) (a b n d : Z) : (0 < b -> 0 < d ->
  Z.abs (a * a * d - n * (b * b)) * 10 ^ Z.of_nat k <= d * (b * b))%Z ->
  (0 < b)%Z -> (0 < d)%Z -> Rabs (IZR a / IZR b * (IZR a / IZR b) - IZR n / IZR d) <= / 10 ^ k.
Proof.
  intros H Hb Hd. specialize (H Hb Hd).
  assert (Hb' : 0 < IZR b) by (apply (IZR_lt 0); exact Hb). assert (Hd' : 0 < IZR d) by (apply (IZR_lt 0); exact Hd).
  replace (IZR a / IZR b * (IZR a / IZR b) - IZR n / IZR d) with (IZR (a * a * d - n * (b * b)) / IZR (d * (b * b))).
  2:{ rewrite minus_IZR, !mult_IZR. field. lra. }
  unfold Rdiv. rewrite Rabs_mult, <- abs_IZR, Rabs_inv.
  assert (HD : 0 < IZR (d * (b * b))) by (apply (IZR_lt 0); nia).
  rewrite (Rabs_right (IZR (d * (b * b)))) by lra.
  apply (Rmult_le_reg_r (IZR (d * (b * b)))); [exact HD|].
  rewrite Rmult_assoc, Rinv_l, Rmult_1_r by lra.
  assert (HE : 0 < 10 ^ k) by (apply pow_lt; lra).
  apply (Rmult_le_reg_l (10 ^ k)); [exact HE|].
  rewrite <- Rmult_assoc, Rinv_r, Rmult_1_l by lra.
  rewrite (pow_IZR 10 k), <- mult_IZR. apply IZR_le. rewrite Z.mul_comm. exact H.
Qed.
Lemma SQRT_3_close : Rabs ((SQRT_3 : R) * SQRT_3 - 3) <= / 10 ^ 35.
Proof.
  replace (SQRT_3 * SQRT_3 - 3) with ((SQRT_3 : R) * SQRT_3 - 3 / 1) by field. unfold SQRT_3. cbn [lit RArith].
  apply (square_close 35 _ _ 3 1); intros; try reflexivity. vm_compute. discriminate.
Qed.
Lemma SQRT_3_5_close : Rabs ((SQRT_3_5 : R) * SQRT_3_5 - 3 / 5) <= / 10 ^ 16.
Proof.
  unfold SQRT_3_5. cbn [lit RArith].
  apply (square_close 16 _ _ 3 5); intros; try reflexivity. vm_compute. discriminate.
Qed.

(** ** Pseudo-inverse *)
Lemma rsum_ext n f h : (forall i, (i < n)%nat -> f i = h i) -> rsum n f = rsum n h.
Proof. induction n as [|n IH]; intros H; cbn; [reflexivity|]. rewrite IH, H by auto. reflexivity. Qed.
Lemma rsum_0 n : rsum n (fun _ => 0) = 0.
Proof. induction n as [|n IH]; cbn; [reflexivity|]. rewrite IH. ring. Qed.
Lemma rsum_plus n f h : rsum n (fun i => f i + h i) = rsum n f + rsum n h.
Proof. induction n as [|n IH]; cbn; [ring|]. rewrite IH. ring. Qed.
Lemma rsum_minus n f h : rsum n (fun i => f i - h i) = rsum n f - rsum n h.
Proof. induction n as [|n IH]; cbn; [ring|]. rewrite IH. ring. Qed.
Lemma rsum_scal n c f : rsum n (fun i => c * f i) = c * rsum n f.
Proof. induction n as [|n IH]; cbn; [ring|]. rewrite IH. ring. Qed.
Lemma rsum_scal_r n c f : rsum n (fun i => f i * c) = rsum n f * c.
Proof. induction n as [|n IH]; cbn; [ring|]. rewrite IH. ring. Qed.
Lemma rsum_swap n m f : rsum n (fun i => rsum m (fun j => f i j)) = rsum m (fun j => rsum n (fun i => f i j)).
Proof.
  induction n as [|n IH]; cbn; [rewrite rsum_0; reflexivity|]. rewrite IH, <- rsum_plus. reflexivity.
Qed.
Lemma rsum_single n k f : (k < n)%nat -> (forall i, (i < n)%nat -> i <> k -> f i = 0) -> rsum n f = f k.
Proof.
  intros Hk H. induction n as [|n IH]; [lia|]. cbn. destruct (Nat.eq_dec k n) as [->|Hn].
  - rewrite (rsum_ext n f (fun _ => 0)) by (intros; apply H; lia). rewrite rsum_0. ring.
  - rewrite IH by (auto; lia). rewrite (H n) by lia. ring.
Qed.

(** Triangular systems have at most one solution. *)
Lemma lower_inj n (r : nat -> nat -> R) (v : nat -> R) :
  (forall i j, (i < n)%nat -> (j < i)%nat -> r i j = 0) -> (forall i, (i < n)%nat -> r i i <> 0) ->
  (forall i, (i < n)%nat -> rsum n (fun k => r k i * v k) = 0) -> forall i, (i < n)%nat -> v i = 0.
Proof.
  intros Hu Hd H i. induction i as [i IH] using (well_founded_induction Wf_nat.lt_wf). intros Hi.
  specialize (H i Hi). rewrite (rsum_single n i) in H; auto.
  - apply Rmult_integral in H. destruct H as [H|H]; [exfalso; eapply Hd; eauto|exact H].
  - intros k Hk Hne. destruct (Nat.lt_ge_cases k i).
    + rewrite IH by auto. ring.
    + rewrite (Hu k i) by lia. ring.
Qed.
Lemma upper_inj n (r : nat -> nat -> R) (v : nat -> R) :
  (forall i j, (i < n)%nat -> (j < i)%nat -> r i j = 0) -> (forall i, (i < n)%nat -> r i i <> 0) ->
  (forall i, (i < n)%nat -> rsum n (fun k => r i k * v k) = 0) -> forall i, (i < n)%nat -> v i = 0.
Proof.
  intros Hu Hd H i Hi.
  assert (G : forall d i, (i < n)%nat -> (n - i <= d)%nat -> v i = 0).
  { clear i Hi. induction d as [|d IH]; intros i Hi Hdi; [lia|].
    specialize (H i Hi). rewrite (rsum_single n i) in H; auto.
    - apply Rmult_integral in H. destruct H as [H|H]; [exfalso; eapply Hd; eauto|exact H].
    - intros k Hk Hne. destruct (Nat.lt_ge_cases k i).
      + rewrite (Hu i k) by lia. ring.
      + rewrite IH by lia. ring. }
  apply (G (n - i)%nat); auto.
Qed.

Lemma pseudo_inverse_left m n a p : pseudo_inverse m n a p -> forall i j, (i < n)%nat -> (j < n)%nat ->
  rsum m (fun k => p i k * a k j) = if Nat.eqb i j then 1 else 0.
Proof.
  intros (r & x & Hu & Hd & Hqr & Hx & Hp) i j Hi Hj.
  (* X A = R *)
  assert (XA : forall i, (i < n)%nat -> rsum m (fun k => x i k * a k j) = r i j).
  { intros i' Hi'. apply Rminus_diag_uniq. revert i' Hi'.
    apply (lower_inj n r (fun i' => rsum m (fun k => x i' k * a k j) - r i' j) Hu Hd).
    intros q Hq.
    rewrite (rsum_ext n _ (fun k => rsum m (fun l => r k q * x k l * a l j) - r k q * r k j)).
    2:{ intros k Hk. rewrite Rmult_minus_distr_l. f_equal. rewrite <- rsum_scal. apply rsum_ext. intros; ring. }
    rewrite rsum_minus, rsum_swap.
    rewrite (rsum_ext m _ (fun l => a l q * a l j)).
    2:{ intros l Hl. rewrite rsum_scal_r. rewrite Hx by auto. reflexivity. }
    rewrite Hqr by auto. ring. }
  (* P A = I *)
  apply Rminus_diag_uniq.
  apply (upper_inj n r (fun i => rsum m (fun k => p i k * a k j) - (if Nat.eqb i j then 1 else 0)) Hu Hd); auto.
  clear i Hi. intros q Hq.
  rewrite (rsum_ext n _ (fun k => rsum m (fun l => r q k * p k l * a l j) - r q k * (if Nat.eqb k j then 1 else 0))).
  2:{ intros k Hk. rewrite Rmult_minus_distr_l. f_equal. rewrite <- rsum_scal. apply rsum_ext. intros; ring. }
  rewrite rsum_minus, rsum_swap.
  rewrite (rsum_ext m _ (fun l => x q l * a l j)).
  2:{ intros l Hl. rewrite rsum_scal_r. rewrite Hp by auto. reflexivity. }
  rewrite XA by auto. rewrite (rsum_single n j); auto.
  - rewrite Nat.eqb_refl. ring.
  - intros k Hk Hne. destruct (Nat.eqb_spec k j); [lia|]. ring.
Qed.

(** The least squares solution: [P b] solves the normal equations. *)
Lemma pseudo_inverse_normal m n a p : pseudo_inverse m n a p -> forall b j, (j < n)%nat ->
  rsum m (fun s => a s j * rsum n (fun k => a s k * rsum m (fun t => p k t * b t))) = rsum m (fun s => a s j * b s).
Proof.
  intros (r & x & Hu & Hd & Hqr & Hx & Hp) b j Hj.
  set (c k := rsum m (fun t => p k t * b t)).
  rewrite (rsum_ext m _ (fun s => rsum n (fun k => a s j * a s k * c k))).
  2:{ intros s Hs. rewrite <- rsum_scal. apply rsum_ext. intros; unfold c; ring. }
  rewrite rsum_swap.
  rewrite (rsum_ext n _ (fun k => rsum n (fun q => r q j * r q k * c k))).
  2:{ intros k Hk. rewrite rsum_scal_r, <- Hqr, <- rsum_scal_r by auto. reflexivity. }
  rewrite rsum_swap.
  rewrite (rsum_ext n _ (fun q => r q j * rsum m (fun t => x q t * b t))).
  2:{ intros q Hq. rewrite (rsum_ext n _ (fun k => r q j * (r q k * c k))) by (intros; ring). rewrite rsum_scal. f_equal.
      unfold c. rewrite (rsum_ext n _ (fun k => rsum m (fun t => r q k * p k t * b t))).
      2:{ intros k Hk. rewrite <- rsum_scal. apply rsum_ext. intros; ring. }
      rewrite rsum_swap. apply rsum_ext. intros t Ht. rewrite rsum_scal_r, Hp by auto. reflexivity. }
  rewrite (rsum_ext n _ (fun q => rsum m (fun t => r q j * x q t * b t))).
  2:{ intros q Hq. rewrite <- rsum_scal. apply rsum_ext. intros; ring. }
  rewrite rsum_swap. apply rsum_ext. intros t Ht. rewrite rsum_scal_r, Hx by auto. reflexivity.
Qed.
