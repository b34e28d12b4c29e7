(** The geometry matrix of every stencil has full column rank, so that its
    pseudo-inverse exists. *)
From Coq Require Import ZArith List Lia Bool Reals Lra.
From Verif Require Import Arith MoodPoly MoodMonomials MoodExact.
Import ListNotations.
Open Scope R_scope.

Definition full_rank (m n : nat) (a : nat -> nat -> R) : Prop :=
  forall v, (forall i, (i < m)%nat -> rsum n (fun k => a i k * v k) = 0) -> forall k, (k < n)%nat -> v k = 0.

Lemma rsum_nonneg n f : (forall i, (i < n)%nat -> 0 <= f i) -> 0 <= rsum n f.
Proof. induction n as [|n IH]; intros H; cbn; [lra|]. specialize (IH (fun i Hi => H i ltac:(lia))). specialize (H n ltac:(lia)). lra. Qed.
Lemma rsum_sqr_0 n f : rsum n (fun k => f k * f k) = 0 -> forall k, (k < n)%nat -> f k = 0.
Proof.
  induction n as [|n IH]; intros H k Hk; [lia|]. cbn in H.
  assert (H1 : 0 <= rsum n (fun k => f k * f k)) by (apply rsum_nonneg; intros; apply Rle_0_sqr).
  assert (H2 : 0 <= f n * f n) by apply Rle_0_sqr.
  destruct (Nat.eq_dec k n) as [->|Hn].
  - assert (f n * f n = 0) by lra. apply Rmult_integral in H0. tauto.
  - apply IH; [lra|lia].
Qed.
Lemma rsum_cut n (f h : nat -> R) : rsum n (fun i => if Nat.ltb i n then f i else h i) = rsum n f.
Proof. apply rsum_ext. intros i Hi. apply Nat.ltb_lt in Hi. rewrite Hi. reflexivity. Qed.

(** Gram-Schmidt. *)
Lemma gram_schmidt m a n : full_rank m n a -> exists r x s : nat -> nat -> R,
  (forall i j, (i < n)%nat -> (j < i)%nat -> r i j = 0) /\
  (forall i, (i < n)%nat -> r i i <> 0) /\
  (forall i j, (i < n)%nat -> (j < m)%nat -> rsum n (fun k => r k i * x k j) = a j i) /\
  (forall i j, (i < n)%nat -> (j < n)%nat -> rsum m (fun k => x i k * x j k) = if Nat.eqb i j then 1 else 0) /\
  (forall p k, (p < n)%nat -> (k < m)%nat -> x p k = rsum n (fun i => s p i * a k i)).
Proof.
  induction n as [|n IH]; intros Hf.
  { exists (fun _ _ => 0), (fun _ _ => 0), (fun _ _ => 0). repeat split; intros; lia. }
  destruct IH as (r & x & s & Hu & Hd & Hx & Ho & Hs).
  { intros v Hv k Hk. specialize (Hf (fun k => if Nat.ltb k n then v k else 0)).
    assert (E : (if Nat.ltb k n then v k else 0) = 0).
    { apply Hf; [|lia]. intros i Hi. cbn [rsum]. rewrite Nat.ltb_irrefl.
      rewrite (rsum_ext n _ (fun k => a i k * v k)).
      - rewrite Hv by auto. ring.
      - intros j Hj. apply Nat.ltb_lt in Hj. rewrite Hj. reflexivity. }
    apply Nat.ltb_lt in Hk. rewrite Hk in E. exact E. }
  set (w p := rsum m (fun k => x p k * a k n)).
  set (q k := a k n - rsum n (fun p => x p k * w p)).
  set (rho2 := rsum m (fun k => q k * q k)).
  assert (Hrho : 0 < rho2).
  { assert (H0 : 0 <= rho2) by (apply rsum_nonneg; intros; apply Rle_0_sqr).
    destruct (Req_dec rho2 0) as [E|E]; [exfalso|lra].
    pose proof (rsum_sqr_0 m q E) as Hq.
    specialize (Hf (fun i => if Nat.ltb i n then - rsum n (fun p => w p * s p i) else 1)).
    assert (B : (if Nat.ltb n n then - rsum n (fun p => w p * s p n) else 1) = 0).
    { apply (fun h => Hf h n ltac:(lia)). intros k Hk. cbn [rsum]. rewrite Nat.ltb_irrefl.
      rewrite (rsum_ext n _ (fun i => - rsum n (fun p => w p * (s p i * a k i)))).
      2:{ intros i Hi. apply Nat.ltb_lt in Hi. rewrite Hi.
          rewrite (rsum_ext n (fun p => w p * (s p i * a k i)) (fun p => w p * s p i * a k i)) by (intros; ring).
          rewrite rsum_scal_r. ring. }
      rewrite (rsum_ext n _ (fun i => (-1) * rsum n (fun p => w p * (s p i * a k i)))) by (intros; ring).
      rewrite rsum_scal, rsum_swap.
      rewrite (rsum_ext n _ (fun p => x p k * w p)).
      2:{ intros p Hp. rewrite rsum_scal, <- Hs by auto. ring. }
      specialize (Hq k Hk). unfold q in Hq. lra. }
    rewrite Nat.ltb_irrefl in B. lra. }
  set (rho := sqrt rho2).
  assert (Hr : rho <> 0) by (intros E; apply sqrt_eq_0 in E; lra).
  assert (Hr2 : rho * rho = rho2) by (apply sqrt_sqrt; lra).
  (* q is orthogonal to the rows of x *)
  assert (Hxq : forall p, (p < n)%nat -> rsum m (fun k => x p k * q k) = 0).
  { intros p Hp. unfold q.
    rewrite (rsum_ext m _ (fun k => x p k * a k n - rsum n (fun p' => x p k * x p' k * w p'))).
    2:{ intros k Hk. rewrite Rmult_minus_distr_l. f_equal. rewrite <- rsum_scal. apply rsum_ext. intros; ring. }
    rewrite rsum_minus, rsum_swap. fold (w p).
    rewrite (rsum_single n p).
    - rewrite rsum_scal_r, Ho, Nat.eqb_refl by auto. ring.
    - auto.
    - intros p' Hp' Hne. rewrite rsum_scal_r, Ho by auto. destruct (Nat.eqb_spec p p'); [congruence|ring]. }
  assert (Hqa : rsum m (fun k => q k * a k n) = rho2).
  { unfold rho2.
    rewrite (rsum_ext m (fun k => q k * q k) (fun k => q k * a k n - rsum n (fun p => x p k * q k * w p))).
    2:{ intros k Hk. unfold q at 2. rewrite Rmult_minus_distr_l. f_equal. rewrite <- rsum_scal. apply rsum_ext. intros; ring. }
    rewrite rsum_minus, rsum_swap.
    rewrite (rsum_ext n _ (fun _ => 0)).
    - rewrite rsum_0. ring.
    - intros p Hp. rewrite rsum_scal_r, Hxq by auto. ring. }
  exists (fun i j => if Nat.ltb j n then (if Nat.ltb i n then r i j else 0)
                     else (if Nat.ltb i n then w i else rho)),
         (fun p k => if Nat.ltb p n then x p k else q k / rho),
         (fun p i => if Nat.ltb p n then (if Nat.ltb i n then s p i else 0)
                     else (if Nat.ltb i n then - rsum n (fun p' => w p' * s p' i) / rho else / rho)).
  assert (Tlt : forall i, (i < n)%nat -> Nat.ltb i n = true) by (intros; apply Nat.ltb_lt; auto).
  assert (Tn : Nat.ltb n n = false) by apply Nat.ltb_irrefl.
  repeat split.
  - intros i j Hi Hj. rewrite (Tlt j) by lia. destruct (Nat.ltb_spec i n); [apply Hu; lia|reflexivity].
  - intros i Hi. destruct (Nat.ltb_spec i n); [apply Hd; auto|exact Hr].
  - intros i j Hi Hj. cbn [rsum]. rewrite Tn. destruct (Nat.ltb_spec i n).
    + rewrite (rsum_ext n _ (fun k => r k i * x k j)) by (intros k Hk; rewrite Tlt by auto; reflexivity).
      rewrite Hx by auto. ring.
    + replace i with n by lia.
      rewrite (rsum_ext n _ (fun k => x k j * w k)) by (intros k Hk; rewrite Tlt by auto; ring).
      unfold q. field. exact Hr.
  - intros i j Hi Hj.
    destruct (Nat.ltb_spec i n); destruct (Nat.ltb_spec j n).
    + apply Ho; auto.
    + rewrite (rsum_ext m _ (fun k => x i k * q k * / rho)) by (intros; unfold Rdiv; ring).
      rewrite rsum_scal_r, Hxq by auto. destruct (Nat.eqb_spec i j); [lia|ring].
    + rewrite (rsum_ext m _ (fun k => x j k * q k * / rho)) by (intros; unfold Rdiv; ring).
      rewrite rsum_scal_r, Hxq by auto. destruct (Nat.eqb_spec i j); [lia|ring].
    + replace i with n by lia. replace j with n by lia. rewrite Nat.eqb_refl.
      rewrite (rsum_ext m _ (fun k => q k * q k * / rho2)).
      2:{ intros k Hk. rewrite <- Hr2. field. exact Hr. }
      rewrite rsum_scal_r. fold rho2. apply Rinv_r. lra.
  - intros p k Hp Hk. cbn [rsum]. rewrite Tn. destruct (Nat.ltb_spec p n).
    + rewrite (rsum_ext n _ (fun i => s p i * a k i)) by (intros i Hi; rewrite Tlt by auto; reflexivity).
      rewrite <- Hs by auto. ring.
    + rewrite (rsum_ext n _ (fun i => rsum n (fun p' => (- w p' / rho) * (s p' i * a k i)))).
      2:{ intros i Hi. rewrite Tlt by auto.
          rewrite (rsum_ext n (fun p' => (- w p' / rho) * (s p' i * a k i)) (fun p' => (- / rho * a k i) * (w p' * s p' i)))
            by (intros; unfold Rdiv; ring).
          rewrite rsum_scal. unfold Rdiv. ring. }
      rewrite rsum_swap.
      rewrite (rsum_ext n _ (fun p' => (- / rho) * (x p' k * w p'))).
      2:{ intros p' Hp'. rewrite rsum_scal, <- Hs by auto. unfold Rdiv. ring. }
      rewrite rsum_scal. unfold q, Rdiv. ring.
Qed.

Lemma pseudo_inverse_exists m n a : full_rank m n a -> exists p, pseudo_inverse m n a p.
Proof.
  intros Hf. destruct (gram_schmidt m a n Hf) as (r & x & s & Hu & Hd & Hx & Ho & Hs).
  (* R S^T = I *)
  assert (SR : forall p q, (p < n)%nat -> (q < n)%nat -> rsum n (fun i => r q i * s p i) = if Nat.eqb p q then 1 else 0).
  { intros p q Hp Hq. rewrite <- Ho by auto.
    rewrite (rsum_ext m _ (fun k => rsum n (fun i => rsum n (fun l => s p i * r l i * (x q k * x l k))))).
    2:{ intros k Hk. rewrite (Hs p k) by auto. rewrite <- rsum_scal_r. apply rsum_ext. intros i Hi.
        rewrite <- (Hx i k) by auto. rewrite Rmult_assoc, <- rsum_scal_r, <- rsum_scal.
        apply rsum_ext. intros; ring. }
    rewrite rsum_swap. apply rsum_ext. intros i Hi. rewrite rsum_swap.
    rewrite (rsum_single n q); auto.
    - rewrite rsum_scal, Ho, Nat.eqb_refl by auto. ring.
    - intros l Hl Hne. rewrite rsum_scal, Ho by auto. destruct (Nat.eqb_spec q l); [congruence|ring]. }
  exists (fun i k => rsum n (fun p => s p i * x p k)).
  exists r, x. repeat split; auto.
  - intros i j Hi Hj.
    rewrite (rsum_ext m _ (fun k => rsum n (fun p => rsum n (fun q => r p i * r q j * (x p k * x q k))))).
    2:{ intros k Hk. rewrite <- (Hx i k), <- (Hx j k) by auto. rewrite <- rsum_scal_r. apply rsum_ext. intros p Hp.
        rewrite Rmult_assoc, <- rsum_scal, <- rsum_scal. apply rsum_ext. intros; ring. }
    rewrite rsum_swap. apply rsum_ext. intros p Hp. rewrite rsum_swap.
    rewrite (rsum_single n p); auto.
    + rewrite rsum_scal, Ho, Nat.eqb_refl by auto. ring.
    + intros l Hl Hne. rewrite rsum_scal, Ho by auto. destruct (Nat.eqb_spec p l); [congruence|ring].
  - intros i j Hi Hj.
    rewrite (rsum_ext n _ (fun k => rsum n (fun p => r i k * s p k * x p j))).
    2:{ intros k Hk. rewrite <- rsum_scal. apply rsum_ext. intros; ring. }
    rewrite rsum_swap. rewrite (rsum_single n i); auto.
    + rewrite rsum_scal_r, SR, Nat.eqb_refl by auto. ring.
    + intros p Hp Hne. rewrite rsum_scal_r, SR by auto. destruct (Nat.eqb_spec p i); [congruence|ring].
Qed.

(** A zero row of the matrix gives a zero column of the pseudo-inverse. *)
Lemma pseudo_inverse_zero m n a p : pseudo_inverse m n a p -> forall s, (s < m)%nat ->
  (forall k, (k < n)%nat -> a s k = 0) -> forall k, (k < n)%nat -> p k s = 0.
Proof.
  intros (r & x & Hu & Hd & Hqr & Hx & Hp) s Hs Hz.
  apply (upper_inj n r (fun k => p k s) Hu Hd). intros i Hi. rewrite Hp by auto. revert i Hi.
  apply (lower_inj n r (fun k => x k s) Hu Hd). intros i Hi. rewrite Hx by auto. apply Hz. exact Hi.
Qed.

(** ** Integer elimination *)
Fixpoint dot (row : list Z) (v : list R) : R :=
  match row, v with
  | c :: row', y :: v' => IZR c * y + dot row' v'
  | _, _ => 0
  end.
Definition content (row : list Z) : Z := fold_right Z.gcd 0%Z row.
Definition primitive (row : list Z) : list Z :=
  let g := content row in if (g =? 0)%Z then row else map (fun c => Z.div c g) row.
Fixpoint combine2 (a b : Z) (r p : list Z) : list Z :=
  match r, p with
  | c :: r', d :: p' => (a * c - b * d)%Z :: combine2 a b r' p'
  | _, _ => []
  end.
Definition eliminate (p r : list Z) : list Z :=
  match p, r with
  | h :: p', c :: r' => if (c =? 0)%Z then r' else primitive (combine2 h c r' p')
  | _, _ => []
  end.
Fixpoint pivot (rows acc : list (list Z)) : option (list Z * list (list Z)) :=
  match rows with
  | [] => None
  | r :: rows' => if (hd 0%Z r =? 0)%Z then pivot rows' (r :: acc) else Some (r, acc ++ rows')
  end.
Fixpoint injective (n : nat) (rows : list (list Z)) : bool :=
  match n with
  | O => true
  | S n' => match pivot rows [] with
            | None => false
            | Some (p, rest) => injective n' (map (eliminate p) rest)
            end
  end.

Lemma content_divides row c : In c row -> (content row | c)%Z.
Proof.
  induction row as [|d row IH]; intros H; [destruct H|]. cbn. destruct H as [->|H].
  - apply Z.gcd_divide_l.
  - eapply Z.divide_trans; [apply Z.gcd_divide_r|]. apply IH, H.
Qed.
Lemma dot_primitive row v : dot row v = 0 -> dot (primitive row) v = 0.
Proof.
  unfold primitive. destruct (Z.eqb_spec (content row) 0) as [E|E]; [auto|]. intros H.
  assert (G : forall g row v, (forall c, In c row -> (g | c)%Z) -> (g <> 0)%Z -> IZR g * dot (map (fun c => Z.div c g) row) v = dot row v).
  { clear. intros g row. induction row as [|c row IH]; intros v Hd Hg; [cbn; ring|]. destruct v as [|y v]; [cbn; ring|].
    cbn. rewrite Rmult_plus_distr_l, IH by (auto with datatypes). f_equal.
    rewrite <- Rmult_assoc, <- mult_IZR. f_equal. f_equal. destruct (Hd c) as [q ->]; [left; reflexivity|].
    rewrite Z.div_mul by exact Hg. ring. }
  specialize (G (content row) row v (content_divides row) E). rewrite H in G.
  apply Rmult_integral in G. destruct G as [G|G]; [|exact G]. apply eq_IZR in G. congruence.
Qed.
Lemma dot_combine2 a b r : forall p v, length r = length p -> dot (combine2 a b r p) v = IZR a * dot r v - IZR b * dot p v.
Proof.
  induction r as [|c r IH]; intros p v Hl; destruct p as [|d p]; cbn in Hl; try discriminate; [cbn; ring|].
  destruct v as [|y v]; [cbn; ring|]. cbn. rewrite IH by lia. rewrite minus_IZR, !mult_IZR. ring.
Qed.
Lemma pivot_spec rows : forall acc p rest, pivot rows acc = Some (p, rest) ->
  hd 0%Z p <> 0%Z /\ forall r, (r = p \/ In r rest) <-> (In r rows \/ In r acc).
Proof.
  induction rows as [|r rows IH]; intros acc p rest H; [discriminate|]. cbn in H.
  destruct (Z.eqb_spec (hd 0%Z r) 0) as [E|E].
  - apply IH in H. destruct H as [H1 H2]. split; [exact H1|]. intros r'. rewrite H2. cbn. tauto.
  - injection H as <- <-. split; [exact E|]. intros r'. rewrite in_app_iff. cbn.
    split; [intros [-> |[H|H]]|intros [[H|H]|H]]; auto.
Qed.
Lemma combine2_length a b r : forall p, length r = length p -> length (combine2 a b r p) = length r.
Proof. induction r; intros [|d p] H; cbn in *; try discriminate; auto. Qed.
Lemma primitive_length r : length (primitive r) = length r.
Proof. unfold primitive. destruct (_ =? _)%Z; [reflexivity|apply map_length]. Qed.

Lemma injective_sound n : forall rows, injective n rows = true -> (forall r, In r rows -> length r = n) ->
  forall v, length v = n -> (forall r, In r rows -> dot r v = 0) -> forall y, In y v -> y = 0.
Proof.
  induction n as [|n IH]; intros rows Hi Hl v Hv Hk y Hy; [destruct v; [destruct Hy|discriminate]|].
  cbn in Hi. destruct (pivot rows []) as [[p rest]|] eqn:E; [|discriminate].
  apply pivot_spec in E. destruct E as [Hp Hr].
  assert (Hin : forall r, r = p \/ In r rest -> In r rows) by (intros r H; apply Hr in H; destruct H as [H|[]]; exact H).
  destruct v as [|y0 v]; [discriminate|]. cbn in Hv.
  destruct p as [|h p]; [exfalso; apply Hp; reflexivity|]. cbn in Hp.
  assert (Hlp : length p = n) by (pose proof (Hl (h :: p) (Hin _ (or_introl eq_refl))) as H; cbn in H; lia).
  pose proof (Hk (h :: p) (Hin _ (or_introl eq_refl))) as Hkp. cbn in Hkp.
  assert (G : forall z, In z v -> z = 0).
  { apply (IH _ Hi); [|lia|].
    - intros r' H. apply in_map_iff in H. destruct H as (r & <- & H).
      pose proof (Hl r (Hin _ (or_intror H))) as L. destruct r as [|c r]; [discriminate|]. cbn in L |- *.
      destruct (c =? 0)%Z; [lia|]. rewrite primitive_length, combine2_length by lia. lia.
    - intros r' H. apply in_map_iff in H. destruct H as (r & <- & H).
      pose proof (Hl r (Hin _ (or_intror H))) as L. pose proof (Hk r (Hin _ (or_intror H))) as K.
      destruct r as [|c r]; [discriminate|]. cbn in L, K |- *.
      destruct (Z.eqb_spec c 0) as [->|Hc]; [lra|].
      apply dot_primitive. rewrite dot_combine2 by lia.
      replace (IZR h * dot r v - IZR c * dot p v)
        with (IZR h * (IZR c * y0 + dot r v) - IZR c * (IZR h * y0 + dot p v)) by ring.
      rewrite K, Hkp. ring. }
  destruct Hy as [<-|Hy]; [|apply G, Hy].
  assert (Z0 : dot p v = 0).
  { clear - G. revert v G. induction p as [|d p IH]; intros [|z v] G; cbn; try reflexivity.
    rewrite (G z) by (left; reflexivity). rewrite IH by (intros; apply G; right; assumption). ring. }
  rewrite Z0, Rplus_0_r in Hkp. apply Rmult_integral in Hkp. destruct Hkp as [Hkp|Hkp]; [|exact Hkp].
  apply eq_IZR in Hkp. contradiction.
Qed.

(** ** The geometry matrices *)
Definition zpd (i : Z) (n : nat) : Z := ((2 * i + 1) ^ Z.of_nat (S n) - (2 * i - 1) ^ Z.of_nat (S n))%Z.
Definition zmoment (dim : nat) (o : Z * Z * Z) (e : list Z) : Z :=
  let '(x, y, z) := o in
  match dim with
  | 2%nat => (zpd x (expo e 0) * zpd y (expo e 1))%Z
  | _ => (zpd x (expo e 0) * zpd y (expo e 1) * zpd z (expo e 2))%Z
  end.
Definition zhat (dim : nat) (o : Z * Z * Z) (e : list Z) : Z := (zmoment dim o e - zmoment dim (0, 0, 0) e)%Z.
Definition zrows (s : stencil_id) : list (list Z) :=
  map (fun o => map (zhat (stencil_dim s) o) (tl (rows (stencil_dim s) (STENCIL_DEGREE s))))
      (neighbours (offsets s)).
Definition colscale (dim : nat) (d : R * R * R) (e : list Z) : R :=
  let '(dx, dy, dz) := d in
  let f (h : R) (n : nat) := h ^ n / INR (S n) / 2 ^ S n in
  match dim with
  | 2%nat => f dx (expo e 0) * f dy (expo e 1)
  | _ => f dx (expo e 0) * f dy (expo e 1) * f dz (expo e 2)
  end.

Lemma pow_diff_z i n : pow_diff i n = IZR (zpd i n) / 2 ^ S n.
Proof.
  unfold pow_diff. change (@powi R RArith) with pow. unfold int. cbn [lit add sub half RArith].
  unfold zpd. rewrite minus_IZR, <- !pow_IZR.
  replace (IZR (2 * i + 1)) with (2 * (IZR i / 1 + / 2)) by (rewrite plus_IZR, mult_IZR; field).
  replace (IZR (2 * i - 1)) with (2 * (IZR i / 1 - / 2)) by (rewrite minus_IZR, mult_IZR; field).
  rewrite !Rpow_mult_distr. field. apply pow_nonzero. lra.
Qed.

Lemma eval_hat_z dim dx dy dz o e : dx <> 0 -> dy <> 0 -> dz <> 0 ->
  eval_hat dim (dx, dy, dz) o e = colscale dim (dx, dy, dz) e * IZR (zhat dim o e).
Proof.
  intros Hx Hy Hz.
  assert (G : forall o, eval_moment dim (dx, dy, dz) o e = colscale dim (dx, dy, dz) e * IZR (zmoment dim o e)).
  { intros [[x y] z]. unfold eval_moment, colscale, zmoment.
    assert (I : forall n, IZR (Z.of_nat (S n)) / 1 = INR (S n)) by (intros; rewrite INR_IZR_INZ; field).
    assert (N : forall n, INR (S n) <> 0) by (intros; apply not_0_INR; lia).
    assert (P : forall n, 2 ^ n <> 0) by (intros; apply pow_nonzero; lra).
    destruct dim as [|[|[|dim]]]; unfold eval_moment2, eval_moment3; change (@powi R RArith) with pow;
      rewrite !pow_diff_z; unfold int; cbn [lit add sub mul div one half RArith]; rewrite !I, !mult_IZR;
      cbn [pow]; field; repeat split; auto. }
  unfold eval_hat. rewrite !G. unfold zhat. rewrite minus_IZR. cbn [sub RArith]. ring.
Qed.
Lemma colscale_nonzero dim dx dy dz e : dx <> 0 -> dy <> 0 -> dz <> 0 -> colscale dim (dx, dy, dz) e <> 0.
Proof.
  intros Hx Hy Hz. unfold colscale, Rdiv.
  assert (F : forall h n, h <> 0 -> h ^ n * / INR (S n) * / 2 ^ S n <> 0).
  { intros h n Hh. repeat apply Rmult_integral_contrapositive_currified;
      [apply pow_nonzero; exact Hh| |]; apply Rinv_neq_0_compat; [apply not_0_INR; lia|apply pow_nonzero; lra]. }
  assert (M2 : forall a b : R, a <> 0 -> b <> 0 -> a * b <> 0) by (intros; apply Rmult_integral_contrapositive_currified; assumption).
  destruct dim as [|[|[|dim]]]; (apply M2; [|apply F; assumption]); try (apply F; assumption); apply M2; apply F; assumption.
Qed.

Lemma dot_rsum (cs : list (list Z)) (f : list Z -> Z) (k : list Z -> R) (v : nat -> R) b :
  rsum (length cs) (fun j => nth j (map (fun e => k e * IZR (f e)) cs) 0 * v (b + j)%nat) =
  dot (map f cs) (map (fun je => k (snd je) * v (fst je)) (combine (seq b (length cs)) cs)).
Proof.
  revert b. induction cs as [|e cs IH]; intros b; [reflexivity|].
  assert (S0 : forall n h, rsum (S n) h = h 0%nat + rsum n (fun j => h (S j))).
  { clear. induction n as [|n IH]; intros h; [cbn; ring|]. cbn [rsum] in *. rewrite IH. ring. }
  cbn [length]. rewrite S0. cbn [seq combine map dot fst snd nth]. rewrite <- (IH (S b)).
  rewrite Nat.add_0_r. f_equal; [ring|]. apply rsum_ext. intros j Hj. f_equal. f_equal. lia.
Qed.

Lemma geometry_full_rank s dx dy dz : dx <> 0 -> dy <> 0 -> dz <> 0 ->
  injective (length (tl (rows (stencil_dim s) (STENCIL_DEGREE s)))) (zrows s) = true ->
  (length (neighbours (offsets s)) <= Z.to_nat (STENCIL_SIZE s) - 1)%nat ->
  full_rank (Z.to_nat (STENCIL_SIZE s) - 1) (length (tl (rows (stencil_dim s) (STENCIL_DEGREE s))))
    (geom_matrix (stencil_dim s) (dx, dy, dz) (offsets s) (rows (stencil_dim s) (STENCIL_DEGREE s))).
Proof.
  intros Hx Hy Hz Hi Hl v Hv. set (dim := stencil_dim s) in *.
  set (cs := tl (rows dim (STENCIL_DEGREE s))) in *.
  set (k := colscale dim (dx, dy, dz)).
  set (y := map (fun je => k (snd je) * v (fst je)) (combine (seq 0 (length cs)) cs)).
  assert (Y : forall z, In z y -> z = 0).
  { apply (injective_sound _ _ Hi).
    - intros r Hr. apply in_map_iff in Hr. destruct Hr as (o & <- & Ho). rewrite map_length. reflexivity.
    - unfold y. rewrite map_length, combine_length, seq_length. apply Nat.min_id.
    - intros r Hr. apply in_map_iff in Hr. destruct Hr as (o & <- & Ho).
      apply In_nth with (d := o) in Ho. destruct Ho as (i & Hlt & Hn).
      specialize (Hv i ltac:(lia)). change (dot (map (zhat dim o) cs) y = 0). unfold y. rewrite <- (dot_rsum cs (zhat dim o) k v 0).
      etransitivity; [|exact Hv]. apply rsum_ext. intros j Hj. cbn [Nat.add]. f_equal. unfold geom_matrix, geom_rows. fold cs.
      rewrite (nth_indep _ [] ((fun o => map (eval_hat dim (dx, dy, dz) o) cs) o)) by (rewrite map_length; exact Hlt).
      rewrite (map_nth (fun o => map (eval_hat dim (dx, dy, dz) o) cs)), Hn. cbn [zero RArith].
      f_equal. apply map_ext. intros e. symmetry. apply eval_hat_z; assumption. }
  intros j Hj.
  assert (E : k (nth j cs []) * v j = 0).
  { apply Y. unfold y. apply in_map_iff. exists (j, nth j cs []). split; [reflexivity|].
    replace (j, nth j cs []) with (nth j (combine (seq 0 (length cs)) cs) (0%nat, [])).
    - apply nth_In. rewrite combine_length, seq_length. lia.
    - rewrite combine_nth by apply seq_length. f_equal. rewrite seq_nth by exact Hj. reflexivity. }
  apply Rmult_integral in E. destruct E as [E|E]; [|exact E].
  exfalso. revert E. apply colscale_nonzero; assumption.
Qed.

Lemma stencils_injective s : injective (length (tl (rows (stencil_dim s) (STENCIL_DEGREE s)))) (zrows s) = true.
Proof. destruct s; vm_compute; reflexivity. Qed.
Lemma stencils_length s : (length (neighbours (offsets s)) <= Z.to_nat (STENCIL_SIZE s) - 1)%nat.
Proof. destruct s; apply Nat.leb_le; vm_compute; reflexivity. Qed.
