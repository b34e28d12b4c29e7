(** Theorems about the polynomial machinery of the MOOD solver (properties C46,
    C47, C50, C59, C60). *)
From Coq Require Import ZArith List Bool Lia Sorted Reals Lra.
From Coquelicot Require Import Coquelicot.
From Verif Require Import Arith SpecF MoodPoly MoodMonomials MoodExact MoodRank MoodRecon.
Import ListNotations.
Open Scope Z_scope.

(** ** C46: the monomial map *)
(** [init_map dim d rows]: the loop that fills the map ends after writing [rows]. *)
Theorem C46_terminates : forall dim d, dim = 2%nat \/ dim = 3%nat -> 0 <= d ->
  exists rows, init_map dim d rows /\ forall rows', init_map dim d rows' -> rows' = rows.
Proof.
  intros dim d Hd H. exists (rows dim d). split; [apply init_loop_rows; auto|].
  intros r Hr. eapply init_loop_det; [exact Hr|apply init_loop_rows; auto].
Qed.
Print Assumptions C46_terminates.
(** Each exponent vector of total degree at most [d], and nothing else, exactly once. *)
Theorem C46_exactly_once : forall dim d rows, dim = 2%nat \/ dim = 3%nat -> 0 <= d -> init_map dim d rows ->
  NoDup rows /\
  forall e, In e rows <-> length e = dim /\ (forall x, In x e -> 0 <= x) /\ fold_right Z.add 0 e <= d.
Proof.
  intros dim d rs Hd H Hr. rewrite (init_loop_det _ _ _ _ Hr _ (init_loop_rows dim d Hd H)).
  split; [apply rows_NoDup; auto|]. intros e. rewrite rows_In by auto. unfold good, nonneg. rewrite Forall_forall.
  replace (sum_e e) with (fold_right Z.add 0 e); [tauto|].
  unfold sum_e. symmetry. apply fold_symmetric; intros; lia.
Qed.
Print Assumptions C46_exactly_once.
(** The constant comes first, and the entries are in graded order: by total degree,
    then by the last exponents. *)
Theorem C46_order : forall dim d rows, dim = 2%nat \/ dim = 3%nat -> 0 <= d -> init_map dim d rows ->
  hd_error rows = Some (repeat 0 dim) /\ StronglySorted grlex_lt rows.
Proof.
  intros dim d rs Hd H Hr. rewrite (init_loop_det _ _ _ _ Hr _ (init_loop_rows dim d Hd H)).
  split; [apply rows_head; auto|apply rows_sorted; auto].
Qed.
Print Assumptions C46_order.
(** Their number is binomial(d+dim, d): the count the code computes at run time, the
    template it uses at compile time and the factorial formula agree. *)
Theorem C46_count : forall dim d rows, dim = 2%nat \/ dim = 3%nat -> 0 <= d -> init_map dim d rows ->
  Z.of_nat (length rows) = get_number_of_coefficients dim d /\
  Binomial (Z.to_nat d + dim) (Z.to_nat d) = Some (Z.of_nat (length rows)) /\
  Z.of_nat (length rows) * (Z.of_nat (fact (Z.to_nat d)) * Z.of_nat (fact dim)) = Z.of_nat (fact (Z.to_nat d + dim)).
Proof.
  intros dim d rs Hd H Hr. rewrite (init_loop_det _ _ _ _ Hr _ (init_loop_rows dim d Hd H)).
  rewrite rows_length. pose proof (count_nonneg dim d H Hd). rewrite Z2Nat.id by lia.
  rewrite count_eq by auto. pose proof (Binomial_count dim (Z.to_nat d) Hd) as B. rewrite Z2Nat.id in B by lia.
  split; [reflexivity|]. split; [exact B|].
  destruct (Binomial_correct (Z.to_nat d + dim) (Z.to_nat d) ltac:(lia)) as (c & E & Hc).
  rewrite B in E. injection E as <-. replace (Z.to_nat d + dim - Z.to_nat d)%nat with dim in Hc by lia. exact Hc.
Qed.
Print Assumptions C46_count.
Example C46_example : init_map 2 2 [[0;0]; [1;0]; [0;1]; [2;0]; [1;1]; [0;2]].
Proof. replace [[0;0]; [1;0]; [0;1]; [2;0]; [1;1]; [0;2]] with (rows 2 2) by reflexivity. apply init_loop_rows; [left; reflexivity|lia]. Qed.

(** ** C47: binomial coefficients *)
(** The template. *)
Theorem C47_template : forall n k c, Binomial n k = Some c ->
  (k <= n)%nat /\ c * (Z.of_nat (fact k) * Z.of_nat (fact (n - k))) = Z.of_nat (fact n).
Proof.
  intros n k c H. destruct (Nat.le_gt_cases k n) as [Hk|Hk].
  - split; [exact Hk|]. destruct (Binomial_correct n k Hk) as (c' & E & Hc). rewrite H in E. injection E as <-. exact Hc.
  - rewrite Binomial_None in H by exact Hk. discriminate.
Qed.
Print Assumptions C47_template.
Theorem C47_template_total : forall n k, (k <= n)%nat -> Binomial n k <> None.
Proof. intros n k H. destruct (Binomial_correct n k H) as (c & E & _). congruence. Qed.
Print Assumptions C47_template_total.
(** The run-time function: every value it returns is right. *)
Theorem C47_runtime : forall n k r, binom (Z.of_nat n) (Z.of_nat k) = Some r ->
  ((k <= n)%nat -> r * (Z.of_nat (fact k) * Z.of_nat (fact (n - k))) = Z.of_nat (fact n)) /\
  ((n < k)%nat -> r = 0).
Proof.
  intros n k r H. split; intros Hk; [apply (binom_correct n k r Hk H)|].
  rewrite binom_above in H by lia. congruence.
Qed.
Print Assumptions C47_runtime.
(** It does not overflow for n up to 29 (the degrees of the solver need n <= 8) ... *)
Theorem C47_runtime_defined : forall n k, (n <= 29)%nat -> binom (Z.of_nat n) (Z.of_nat k) <> None.
Proof.
  intros n k H. destruct (Nat.le_gt_cases k n) as [Hk|Hk]; [apply binom_small; auto|].
  rewrite binom_above by lia. discriminate.
Qed.
Print Assumptions C47_runtime_defined.
(** ... but does for (30, 15), although binomial(30,15) = 155117520 fits in an int. *)
Theorem C47_runtime_total_refuted : exists n k,
  binom (Z.of_nat n) (Z.of_nat k) = None /\ Binomial n k = Some 155117520 /\ 155117520 < 2147483647.
Proof.
  exists 30%nat, 15%nat. split; [vm_compute; reflexivity|]. split; [|lia].
  destruct (Binomial_correct 30 15 ltac:(lia)) as (c & E & H). rewrite E. clear E.
  assert (F : forall n, zfact n = fold_right (fun i a => Z.of_nat i * a) 1 (rev (seq 1 n))).
  { induction n as [|n IH]; [reflexivity|]. rewrite zfact_S, IH, seq_S, rev_app_distr. cbn [rev app fold_right Nat.add]. reflexivity. }
  rewrite (F 15%nat), (F (30 - 15)%nat), (F 30%nat) in H. clear F.
  set (a15 := fold_right (fun i a => Z.of_nat i * a) 1 (rev (seq 1 15))) in H.
  change (fold_right (fun i a => Z.of_nat i * a) 1 (rev (seq 1 (30 - 15)))) with a15 in H.
  assert (A15 : a15 = 1307674368000) by (vm_compute; reflexivity).
  set (a30 := fold_right (fun i a => Z.of_nat i * a) 1 (rev (seq 1 30))) in H.
  assert (A30 : a30 = 265252859812191058636308480000000) by (vm_compute; reflexivity).
  rewrite A15, A30 in H. clear A15 A30. clearbody a15 a30. assert (c = 155117520) by lia. congruence.
Qed.
Print Assumptions C47_runtime_total_refuted.
Example C47_example : Binomial 8 3 = Some 56 /\ binom 8 3 = Some 56 /\ binom 3 8 = Some 0.
Proof. vm_compute. auto. Qed.

Open Scope R_scope.
(** ** C50: moments and quadratures *)
Theorem C50_moment2 : forall dx dy i j n m, dx <> 0 -> dy <> 0 ->
  eval_moment2 dx dy i j n m =
  RInt (fun x => RInt (fun y => x ^ n * y ^ m) ((IZR j - / 2) * dy) ((IZR j + / 2) * dy))
       ((IZR i - / 2) * dx) ((IZR i + / 2) * dx) / (dx * dy).
Proof. exact eval_moment2_average. Qed.
Print Assumptions C50_moment2.
Theorem C50_moment3 : forall dx dy dz i j k n m l, dx <> 0 -> dy <> 0 -> dz <> 0 ->
  eval_moment3 dx dy dz i j k n m l =
  RInt (fun x => RInt (fun y => RInt (fun z => x ^ n * y ^ m * z ^ l)
         ((IZR k - / 2) * dz) ((IZR k + / 2) * dz))
         ((IZR j - / 2) * dy) ((IZR j + / 2) * dy))
         ((IZR i - / 2) * dx) ((IZR i + / 2) * dx) / (dx * dy * dz).
Proof. exact eval_moment3_average. Qed.
Print Assumptions C50_moment3.

(** The number of points selected for a stencil integrates its degree. *)
Theorem C50_points_suffice : forall s,
  (STENCIL_DEGREE s <= 2 * Z.of_nat (QUADRATURE_NUM_POINTS s) - 1)%Z /\ (1 <= QUADRATURE_NUM_POINTS s <= 3)%nat.
Proof. intros s; destruct s; cbn; lia. Qed.
Print Assumptions C50_points_suffice.

(** Face of a 2D cell: the weighted sum over the points is the integral of every
    function that is a polynomial of degree at most 2 nb - 1 along the face. *)
Theorem C50_face2 : forall nb dir max f cs, (1 <= nb <= 3)%nat -> (length cs <= 2 * nb)%nat ->
  let on t : R := if (dir =? 0)%Z then f (face_pos max) t else f t (face_pos max) in
  (forall t, on t = peval cs t) ->
  face_sum2 nb (fun iq => let '(x, y) := quad_loc2 (sqrt 3) (sqrt (3 / 5)) nb dir max iq in f x y) =
  RInt on (- / 2) (/ 2).
Proof.
  intros nb dir max f cs Hnb Hl on Hon.
  rewrite (RInt_ext on (peval cs)) by (intros; apply Hon).
  rewrite <- (rule_exact (sqrt 3) (sqrt (3 / 5)) nb cs (abscissa2 (sqrt 3) (sqrt (3 / 5)) nb) sqrt3_sq sqrt35_sq Hnb Hl)
    by reflexivity.
  apply face_sum2_ext; [exact Hnb|]. intros iq Hiq. rewrite <- Hon. unfold on, quad_loc2.
  destruct (dir =? 0)%Z; reflexivity.
Qed.
Print Assumptions C50_face2.

(** Face of a 3D cell: polynomials in the two coordinates of the face with degree
    at most 2 nb - 1 in each. *)
Theorem C50_face3 : forall nb dir max f (cs : list (R * (nat * nat))), (1 <= nb <= 3)%nat ->
  (forall c, In c cs -> (fst (snd c) < 2 * nb)%nat /\ (snd (snd c) < 2 * nb)%nat) ->
  let on t1 t2 : R := if (dir =? 0)%Z then f (face_pos max) t1 t2
                      else if (dir =? 1)%Z then f t1 (face_pos max) t2 else f t1 t2 (face_pos max) in
  (forall t1 t2, on t1 t2 = lsum (fun c => fst c * t1 ^ fst (snd c) * t2 ^ snd (snd c)) cs) ->
  face_sum3 nb (fun iq => let '(x, y, z) := quad_loc3 (sqrt 3) (sqrt (3 / 5)) nb dir max iq in f x y z) =
  RInt (fun t2 => RInt (fun t1 => on t1 t2) (- / 2) (/ 2)) (- / 2) (/ 2).
Proof.
  intros nb dir max f cs Hnb Hdeg on Hon.
  set (I n := ((/ 2) ^ S n - (- / 2) ^ S n) / INR (S n)).
  assert (Rhs : RInt (fun t2 => RInt (fun t1 => on t1 t2) (- / 2) (/ 2)) (- / 2) (/ 2) =
                lsum (fun c => fst c * I (fst (snd c)) * I (snd (snd c))) cs).
  { rewrite (RInt_ext _ (fun t2 => lsum (fun c => (fst c * I (fst (snd c))) * t2 ^ snd (snd c)) cs)).
    - rewrite RInt_lsum. reflexivity.
    - intros t2 _. rewrite (RInt_ext _ (fun t1 => lsum (fun c => (fst c * t2 ^ snd (snd c)) * t1 ^ fst (snd c)) cs)).
      + rewrite RInt_lsum. apply lsum_ext. intros c _. fold (I (fst (snd c))). ring.
      + intros t1 _. rewrite Hon. apply lsum_ext. intros. ring. }
  rewrite Rhs. clear Rhs.
  set (ab := abscissa2 (sqrt 3) (sqrt (3 / 5)) nb).
  assert (H3 : sqrt 3 <> 0) by (intros E; pose proof sqrt3_sq as Q; rewrite E in Q; lra).
  assert (E1 : face_sum3 nb (fun iq => let '(x, y, z) := quad_loc3 (sqrt 3) (sqrt (3 / 5)) nb dir max iq in f x y z) =
               face_sum3 nb (fun iq => lsum (fun c => fst c * ab (Nat.modulo iq nb) ^ fst (snd c) * ab (Nat.div iq nb) ^ snd (snd c)) cs)).
  { assert (G : forall iq, (iq < nb * nb)%nat ->
      (let '(x, y, z) := quad_loc3 (sqrt 3) (sqrt (3 / 5)) nb dir max iq in f x y z) =
      lsum (fun c => fst c * ab (Nat.modulo iq nb) ^ fst (snd c) * ab (Nat.div iq nb) ^ snd (snd c)) cs).
    { intros iq Hiq. rewrite <- Hon. unfold quad_loc3, ab.
      rewrite <- !(abscissa3_2 (sqrt 3) (sqrt (3 / 5)) nb) by (auto; [apply Nat.div_lt_upper_bound; lia|apply Nat.mod_upper_bound; lia] || auto; try (apply Nat.div_lt_upper_bound; lia); apply Nat.mod_upper_bound; lia).
      unfold on. destruct (dir =? 0)%Z; [reflexivity|]. destruct (dir =? 1)%Z; reflexivity. }
    assert (nb = 1 \/ nb = 2 \/ nb = 3)%nat as [-> | [-> | ->]] by lia; unfold face_sum3; cbn [seq fold_left Nat.mul Nat.add];
      rewrite !G by (cbn; lia); reflexivity. }
  rewrite E1. clear E1 Hon on.
  rewrite (face_sum3_prod nb (fun i j => lsum (fun c => fst c * ab i ^ fst (snd c) * ab j ^ snd (snd c)) cs) Hnb).
  assert (P1 : forall n, (n < 2 * nb)%nat -> face_sum2 nb (fun iq => ab iq ^ n) = I n).
  { intros n Hn. pose (l := repeat 0 n ++ [1]).
    assert (El : forall x, peval l x = x ^ n).
    { intros x. unfold l. clear. induction n as [|n IH]; cbn; [ring|]. rewrite IH. ring. }
    rewrite (face_sum2_ext nb _ (fun iq => peval l (ab iq))) by (auto; intros; symmetry; apply El).
    rewrite (rule_exact (sqrt 3) (sqrt (3 / 5)) nb l ab sqrt3_sq sqrt35_sq Hnb).
    - rewrite (RInt_ext _ (fun x => x ^ n)) by (intros; apply El). apply RInt_pow.
    - unfold l. rewrite app_length, repeat_length. cbn. lia.
    - reflexivity. }
  assert (Add : forall g h : nat -> R, face_sum2 nb (fun iq => g iq + h iq) = face_sum2 nb g + face_sum2 nb h).
  { intros g h. assert (nb = 1 \/ nb = 2 \/ nb = 3)%nat as [-> | [-> | ->]] by lia; unfold face_sum2; cbn; field. }
  assert (Z0 : face_sum2 nb (fun _ => 0) = 0).
  { assert (nb = 1 \/ nb = 2 \/ nb = 3)%nat as [-> | [-> | ->]] by lia; unfold face_sum2; cbn; field. }
  induction cs as [|c cs IH].
  - cbn [lsum]. rewrite (face_sum2_ext nb _ (fun _ => 0)) by (auto; intros; apply Z0). exact Z0.
  - cbn [lsum]. destruct (Hdeg c (or_introl eq_refl)) as [Ha Hb].
    rewrite (face_sum2_ext nb _ (fun j => fst c * ab j ^ snd (snd c) * I (fst (snd c)) +
       face_sum2 nb (fun i => lsum (fun c => fst c * ab i ^ fst (snd c) * ab j ^ snd (snd c)) cs))).
    2: exact Hnb.
    2:{ intros j Hj. rewrite Add. f_equal.
        rewrite (face_sum2_ext nb _ (fun i => (fst c * ab j ^ snd (snd c)) * ab i ^ fst (snd c))) by (auto; intros; ring).
        rewrite face_sum2_scal by exact Hnb. rewrite P1 by exact Ha. reflexivity. }
    rewrite Add, IH by (intros c' Hc'; apply Hdeg; right; exact Hc'). f_equal.
    rewrite (face_sum2_ext nb _ (fun j => (fst c * I (fst (snd c))) * ab j ^ snd (snd c))) by (auto; intros; ring).
    rewrite face_sum2_scal by exact Hnb. rewrite P1 by exact Hb. reflexivity.
Qed.
Print Assumptions C50_face3.

(** The decimal constants used for the square roots. *)
Theorem C50_constants : Rabs ((SQRT_3 : R) * SQRT_3 - 3) <= / 10 ^ 35 /\
  Rabs ((SQRT_3_5 : R) * SQRT_3_5 - 3 / 5) <= / 10 ^ 16.
Proof. split; [exact SQRT_3_close|exact SQRT_3_5_close]. Qed.
Print Assumptions C50_constants.
(** The digits of the second one are those of a rounded double: not the square root
    of 3/5 to the precision it is written with. *)
Theorem C50_sqrt_3_5_digits_refuted : ~ Rabs ((SQRT_3_5 : R) * SQRT_3_5 - 3 / 5) <= / 10 ^ 17.
Proof.
  unfold SQRT_3_5. cbn [lit RArith]. intros H.
  assert (G : / 10 ^ 17 < 7745966692414834042779148148838430643 / 10000000000000000000000000000000000000 *
     (7745966692414834042779148148838430643 / 10000000000000000000000000000000000000) - 3 / 5) by lra.
  pose proof (Rle_abs (7745966692414834042779148148838430643 / 10000000000000000000000000000000000000 *
     (7745966692414834042779148148838430643 / 10000000000000000000000000000000000000) - 3 / 5)). lra.
Qed.
Print Assumptions C50_sqrt_3_5_digits_refuted.
Example C50_example : eval_moment2 2 3 1 0 2 1 = 0 /\ eval_moment2 2 3 1 0 2 0 = 13 / 3 /\
  face_sum2 2 (fun iq => let '(x, y) := quad_loc2 (sqrt 3) (sqrt (3 / 5)) 2 0 true iq in x + y ^ 2) = 7 / 12.
Proof.
  split; [cbv -[Rplus Rmult Rminus Rinv Rdiv IZR]; field|]. split; [cbv -[Rplus Rmult Rminus Rinv Rdiv IZR]; field|].
  rewrite (C50_face2 2 0 true (fun x y => x + y ^ 2) [/ 2; 0; 1]) by (cbn; try lia; intros; ring).
  cbn [Z.eqb face_pos half RArith].
  rewrite (RInt_ext _ (peval [/ 2; 0; 1])) by (intros; cbn; ring). rewrite peval_integral by (cbn; lia). cbn. field.
Qed.

(** ** C60: the least squares problem is well posed *)
(** For every stencil, whatever the cell sizes, the geometry matrix has full column
    rank, so the factorisation the code relies on exists. *)
Theorem C60_full_rank : forall s mm dx dy dz, dx <> 0 -> dy <> 0 -> dz <> 0 ->
  init_map (stencil_dim s) (STENCIL_DEGREE s) mm ->
  let ns := (Z.to_nat (STENCIL_SIZE s) - 1)%nat in
  let nc := (length mm - 1)%nat in
  let a := geom_matrix (stencil_dim s) (dx, dy, dz) (offsets s) mm in
  (forall v, (forall i, (i < ns)%nat -> rsum nc (fun k => a i k * v k) = 0) -> forall k, (k < nc)%nat -> v k = 0) /\
  exists P, pseudo_inverse ns nc a P.
Proof.
  intros s mm dx dy dz Hx Hy Hz Hm ns nc a.
  assert (Hdim : dim_ok (stencil_dim s)) by (destruct s; cbn; unfold dim_ok; auto).
  assert (Hdeg : (0 <= STENCIL_DEGREE s)%Z) by (destruct s; cbn; lia).
  assert (mm = rows (stencil_dim s) (STENCIL_DEGREE s)).
  { eapply init_loop_det; [exact Hm|]. apply init_loop_rows; auto. }
  pose proof (geometry_full_rank s dx dy dz Hx Hy Hz (stencils_injective s) (stencils_length s)) as F.
  rewrite <- H in F. replace (length (tl mm)) with nc in F by (unfold nc; destruct mm; cbn; lia).
  split; [exact F|]. apply pseudo_inverse_exists. exact F.
Qed.
Print Assumptions C60_full_rank.
(** Every solution of the code's equations is a left inverse of the matrix. *)
Theorem C60_left_inverse : forall m n a P, pseudo_inverse m n a P -> forall i j, (i < n)%nat -> (j < n)%nat ->
  rsum m (fun k => P i k * a k j) = if Nat.eqb i j then 1 else 0.
Proof. exact pseudo_inverse_left. Qed.
Print Assumptions C60_left_inverse.
(** The degree-4 stencil in 3D has fewer cells than it declares. *)
Theorem C60_stencil_complete_refuted : exists s, s = select_stencil 3 4 /\
  (Z.of_nat (length (neighbours (offsets s))) < STENCIL_SIZE s - 1)%Z.
Proof. exists S3_4. split; [reflexivity|]. vm_compute. reflexivity. Qed.
Print Assumptions C60_stencil_complete_refuted.
Definition offset_dec : forall a b : Z * Z * Z, {a = b} + {a <> b}.
Proof. repeat decide equality. Defined.
(** All the other selected ones are complete, and every stencil stays within the
    ghost cells. *)
Theorem C60_stencils : forall s, (s <> S3_4 -> Z.of_nat (length (neighbours (offsets s))) = (STENCIL_SIZE s - 1)%Z) /\
  NoDup (neighbours (offsets s)) /\ Z.of_nat (length (offsets s)) = STENCIL_SIZE s /\
  forall x y z, In (x, y, z) (offsets s) ->
    (Z.abs x <= stencil_ghostwidth s - 1 /\ Z.abs y <= stencil_ghostwidth s - 1 /\ Z.abs z <= stencil_ghostwidth s - 1)%Z.
Proof.
  intros s. split; [|split; [|split]].
  - intros H; destruct s; try reflexivity. congruence.
  - assert (D : forall l : list (Z * Z * Z), nodup offset_dec l = l -> NoDup l)
      by (intros l E; rewrite <- E; apply NoDup_nodup).
    apply D. destruct s; vm_compute; reflexivity.
  - destruct s; reflexivity.
  - assert (B : forallb (fun o => let '(x, y, z) := o in
        (Z.abs x <=? stencil_ghostwidth s - 1)%Z && (Z.abs y <=? stencil_ghostwidth s - 1)%Z && (Z.abs z <=? stencil_ghostwidth s - 1)%Z) (offsets s) = true)
      by (destruct s; vm_compute; reflexivity).
    rewrite forallb_forall in B. intros x y z H. specialize (B _ H). cbn in B.
    apply andb_prop in B. destruct B as [B B3]. apply andb_prop in B. destruct B as [B1 B2].
    apply Z.leb_le in B1, B2, B3. auto.
Qed.
Print Assumptions C60_stencils.

(** ** C59: the reconstruction *)
Ltac jnum := unfold expo, entry; cbn [nth repeat]; try change (Z.to_nat 0) with 0%nat; try change (Z.to_nat 1) with 1%nat;
  try change (Z.to_nat 2) with 2%nat.
Ltac jred := unfold J; jnum; cbn [pow INR]; field; auto.
Lemma moment_const dim d o e : dim_ok dim -> e = repeat 0%Z dim ->
  (let '(dx, dy, dz) := d in dx <> 0 /\ dy <> 0 /\ dz <> 0) -> eval_moment dim d o e = 1.
Proof.
  destruct d as [[dx dy] dz]. destruct o as [[i j] k]. intros Hd -> (Hx & Hy & Hz).
  destruct Hd as [-> | ->]; cbn [eval_moment].
  - rewrite eval_moment2_J by auto. jred.
  - rewrite eval_moment3_J by auto. jred.
Qed.
Lemma mm_head dim d mm : dim_ok dim -> (0 <= d)%Z -> init_map dim d mm ->
  hd [] mm = repeat 0%Z dim /\ (0 < length mm)%nat.
Proof.
  intros Hd H Hm. destruct (C46_order dim d mm Hd H Hm) as [E _]. destruct mm; [discriminate|].
  cbn in E |- *. split; [congruence|lia].
Qed.
Lemma sd s : dim_ok (stencil_dim s) /\ (0 <= STENCIL_DEGREE s)%Z.
Proof. destruct s; cbn; unfold dim_ok; split; auto; lia. Qed.

(** If the cell values are the averages of a polynomial of the stencil's degree with
    coefficients [c], the reconstruction returns the coefficients of that polynomial
    except for the constant one, which becomes the average over the central cell.
    [junk] is the content of the entries of the local array that are not written. *)
Theorem C59_coefficients : forall s mm dx dy dz P c junk, dx <> 0 -> dy <> 0 -> dz <> 0 ->
  init_map (stencil_dim s) (STENCIL_DEGREE s) mm -> length c = length mm ->
  let ns := (Z.to_nat (STENCIL_SIZE s) - 1)%nat in
  let nc := (length mm - 1)%nat in
  let u o := average (stencil_dim s) (dx, dy, dz) o (fun x y z => eval (stencil_dim s) mm x y z c) in
  pseudo_inverse ns nc (geom_matrix (stencil_dim s) (dx, dy, dz) (offsets s) mm) P ->
  poly_coefs P nc ns (offsets s) u junk = u (0, 0, 0)%Z :: tl c.
Proof.
  intros s mm dx dy dz P c junk Hx Hy Hz Hm Hc ns nc u HP. destruct (sd s) as [Hd Hg].
  destruct (mm_head _ _ mm Hd Hg Hm) as [Hh Hl].
  apply (recon_coefs s dx dy dz mm Hx Hy Hz P HP c junk Hc Hl).
  - apply moment_const; auto.
  - intros o. apply moment_const; auto.
Qed.
Print Assumptions C59_coefficients.

(** So linear functions are reproduced exactly: the polynomial evaluated at any point
    is the function. *)
Theorem C59_linear_exact : forall s mm dx dy dz P c junk x y z, dx <> 0 -> dy <> 0 -> dz <> 0 ->
  STENCIL_DEGREE s = 1%Z -> init_map (stencil_dim s) 1 mm -> length c = length mm ->
  let ns := (Z.to_nat (STENCIL_SIZE s) - 1)%nat in
  let nc := (length mm - 1)%nat in
  let u o := average (stencil_dim s) (dx, dy, dz) o (fun x y z => eval (stencil_dim s) mm x y z c) in
  pseudo_inverse ns nc (geom_matrix (stencil_dim s) (dx, dy, dz) (offsets s) mm) P ->
  eval (stencil_dim s) mm x y z (poly_coefs P nc ns (offsets s) u junk) = eval (stencil_dim s) mm x y z c.
Proof.
  intros s mm dx dy dz P c junk x y z Hx Hy Hz Hs Hm Hc ns nc u HP. destruct (sd s) as [Hd _].
  assert (R : poly_coefs P nc ns (offsets s) u junk = u (0, 0, 0)%Z :: tl c)
    by (apply (C59_coefficients s mm dx dy dz P c junk Hx Hy Hz); [rewrite Hs; exact Hm|exact Hc|exact HP]).
  rewrite R. f_equal.
  destruct c as [|c0 c].
  { destruct (mm_head (stencil_dim s) 1%Z mm Hd ltac:(lia) Hm) as [_ Hl]. cbn in Hc. lia. }
  cbn [tl]. f_equal. unfold u. rewrite average_eval by auto.
  assert (E : mm = rows (stencil_dim s) 1) by (eapply init_loop_det; [exact Hm|apply init_loop_rows; auto; lia]).
  destruct Hd as [Hd|Hd]; rewrite Hd in *; rewrite E in *.
  - change (rows 2 1) with [[0; 0]; [1; 0]; [0; 1]]%Z in *. destruct c as [|c1 [|c2 [|]]]; try discriminate.
    cbn [combine lsum fst snd eval_moment]. rewrite !eval_moment2_J by auto. jred.
  - change (rows 3 1) with [[0; 0; 0]; [1; 0; 0]; [0; 1; 0]; [0; 0; 1]]%Z in *. destruct c as [|c1 [|c2 [|c3 [|]]]]; try discriminate.
    cbn [combine lsum fst snd eval_moment]. rewrite !eval_moment3_J by auto. jred.
Qed.
Print Assumptions C59_linear_exact.

(** For higher degree the polynomial is off by a constant: the average over the cell
    minus the value of the polynomial at its centre. *)
Theorem C59_offset : forall s mm dx dy dz P c junk x y z, dx <> 0 -> dy <> 0 -> dz <> 0 ->
  init_map (stencil_dim s) (STENCIL_DEGREE s) mm -> length c = length mm ->
  let ns := (Z.to_nat (STENCIL_SIZE s) - 1)%nat in
  let nc := (length mm - 1)%nat in
  let p x y z := eval (stencil_dim s) mm x y z c in
  let u o := average (stencil_dim s) (dx, dy, dz) o p in
  pseudo_inverse ns nc (geom_matrix (stencil_dim s) (dx, dy, dz) (offsets s) mm) P ->
  eval (stencil_dim s) mm x y z (poly_coefs P nc ns (offsets s) u junk) - p x y z =
  average (stencil_dim s) (dx, dy, dz) (0, 0, 0)%Z p - p 0 0 0.
Proof.
  intros s mm dx dy dz P c junk x y z Hx Hy Hz Hm Hc ns nc p u HP. destruct (sd s) as [Hd Hg].
  assert (R : poly_coefs P nc ns (offsets s) u junk = u (0, 0, 0)%Z :: tl c)
    by (apply (C59_coefficients s mm dx dy dz P c junk Hx Hy Hz Hm Hc HP)).
  rewrite R. clear R.
  destruct (mm_head _ _ mm Hd Hg Hm) as [Hh Hl].
  destruct (C46_exactly_once _ _ mm Hd Hg Hm) as [Hnd Hin].
  change (average (stencil_dim s) (dx, dy, dz) (0, 0, 0)%Z p) with (u (0, 0, 0)%Z).
  generalize (u (0, 0, 0)%Z). intros u0. unfold p. clear p u HP. rewrite !eval_lsum.
  destruct c as [|c0 c]; [cbn in Hc; lia|]. destruct mm as [|e0 mm]; [cbn in Hc; lia|]. cbn [hd] in Hh. subst e0.
  cbn [combine lsum fst snd tl].
  assert (M0 : forall x y z c : R, monomial (stencil_dim s) x y z c (repeat 0%Z (stencil_dim s)) = c).
  { intros. destruct Hd as [Hd|Hd]; rewrite Hd; unfold monomial; jnum; cbn [powi mul one RArith]; ring. }
  assert (N0 : lsum (fun ce => monomial (stencil_dim s) 0 0 0 (fst ce) (snd ce)) (combine c mm) = 0).
  { transitivity (lsum (fun _ : R * list Z => 0) (combine c mm)).
    - apply lsum_ext. intros [v e] Hce. cbn [fst snd]. apply in_combine_r in Hce.
      destruct (proj1 (Hin e) (or_intror Hce)) as (Le & Pe & _).
      inversion Hnd as [|? ? Hni _]; subst.
      assert (X : exists q, (q < stencil_dim s)%nat /\ (0 < entry e q)%Z).
      { destruct Hd as [Hd|Hd]; rewrite Hd in *.
        - destruct e as [|a [|b [|]]]; try discriminate.
          pose proof (Pe a ltac:(cbn; auto)). pose proof (Pe b ltac:(cbn; auto)).
          destruct (Z.eq_dec a 0) as [->|]; [|exists 0%nat; cbn; lia].
          destruct (Z.eq_dec b 0) as [->|]; [|exists 1%nat; cbn; lia]. contradiction.
        - destruct e as [|a [|b [|c' [|]]]]; try discriminate.
          pose proof (Pe a ltac:(cbn; auto)). pose proof (Pe b ltac:(cbn; auto)). pose proof (Pe c' ltac:(cbn; auto)).
          destruct (Z.eq_dec a 0) as [->|]; [|exists 0%nat; cbn; lia].
          destruct (Z.eq_dec b 0) as [->|]; [|exists 1%nat; cbn; lia].
          destruct (Z.eq_dec c' 0) as [->|]; [|exists 2%nat; cbn; lia]. contradiction. }
      destruct X as (q & Hq & Hp).
      assert (Pz : (0 : R) ^ expo e q = 0) by (apply pow_i; unfold expo; lia).
      unfold monomial. change (@powi R RArith) with pow. cbn [mul RArith].
      destruct Hd as [Hd|Hd]; rewrite Hd in *.
      + assert (q = 0 \/ q = 1)%nat as [-> | ->] by lia; rewrite Pz; ring.
      + assert (q = 0 \/ q = 1 \/ q = 2)%nat as [-> | [-> | ->]] by lia; rewrite Pz; ring.
    - clear. induction (combine c mm) as [|a l IH]; cbn; [reflexivity|]. rewrite IH. ring. }
  rewrite N0, !M0. ring.
Qed.
Print Assumptions C59_offset.

(** Reconstruction of the stencil's degree is therefore not exact for any degree
    above one and any cell size: x^2 comes back as x^2 + dx^2/12. *)
Theorem C59_exact_refuted : forall s mm dx dy dz P junk, dx <> 0 -> dy <> 0 -> dz <> 0 ->
  (2 <= STENCIL_DEGREE s)%Z -> init_map (stencil_dim s) (STENCIL_DEGREE s) mm ->
  let ns := (Z.to_nat (STENCIL_SIZE s) - 1)%nat in
  let nc := (length mm - 1)%nat in
  pseudo_inverse ns nc (geom_matrix (stencil_dim s) (dx, dy, dz) (offsets s) mm) P ->
  exists c, length c = length mm /\ (forall x y z, eval (stencil_dim s) mm x y z c = x ^ 2) /\
    let u o := average (stencil_dim s) (dx, dy, dz) o (fun x _ _ => x ^ 2) in
    forall x y z, eval (stencil_dim s) mm x y z (poly_coefs P nc ns (offsets s) u junk) = x ^ 2 + dx ^ 2 / 12.
Proof.
  intros s mm dx dy dz P junk Hx Hy Hz Hs Hm ns nc HP. destruct (sd s) as [Hd Hg].
  assert (E : mm = rows (stencil_dim s) (STENCIL_DEGREE s)) by (eapply init_loop_det; [exact Hm|apply init_loop_rows; auto]).
  set (k := if Nat.eqb (stencil_dim s) 2 then 3%nat else 4%nat).
  set (c := map (fun i => if Nat.eqb i k then 1 else 0) (seq 0 (length mm))).
  assert (Hc : length c = length mm) by (unfold c; rewrite map_length, seq_length; reflexivity).
  assert (Hp : forall x y z, eval (stencil_dim s) mm x y z c = x ^ 2).
  { intros x y z. rewrite eval_lsum, (lsum_combine_rsum (monomial (stencil_dim s) x y z)) by exact Hc.
    assert (Hk : (k < length mm)%nat /\ nth k mm [] = if Nat.eqb (stencil_dim s) 2 then [2; 0]%Z else [2; 0; 0]%Z).
    { rewrite E. unfold k. clear - Hs. destruct s; cbn in Hs; try lia; (split; [apply Nat.ltb_lt|]; vm_compute; reflexivity). }
    assert (Hn : forall i, (i < length mm)%nat -> nth i c 0 = if Nat.eqb i k then 1 else 0).
    { intros i Hi. unfold c. rewrite (nth_indep _ 0 ((fun i => if Nat.eqb i k then 1 else 0) 0%nat)) by (rewrite map_length, seq_length; exact Hi).
      rewrite (map_nth (fun i => if Nat.eqb i k then 1 else 0)), seq_nth by exact Hi. reflexivity. }
    rewrite (rsum_single _ k).
    - rewrite Hn, (proj2 Hk), Nat.eqb_refl by apply Hk. clear - Hd. destruct Hd as [Hd|Hd]; rewrite Hd; cbn [Nat.eqb monomial];
        jnum; cbn [powi mul one RArith]; ring.
    - apply Hk.
    - intros i Hi Hne. rewrite Hn by exact Hi. destruct (Nat.eqb_spec i k); [congruence|].
      unfold monomial. destruct Hd as [Hd|Hd]; rewrite Hd; cbn [mul RArith]; ring. }
  exists c. split; [exact Hc|]. split; [exact Hp|]. intros u x y z.
  assert (Av : forall o f h, (forall x y z, f x y z = h x y z) -> average (stencil_dim s) (dx, dy, dz) o f = average (stencil_dim s) (dx, dy, dz) o h).
  { intros o f h Hfh. apply average_ext. exact Hfh. }
  pose proof (C59_offset s mm dx dy dz P c junk x y z Hx Hy Hz Hm Hc HP) as H. cbn zeta in H.
  rewrite (Av (0, 0, 0)%Z _ (fun x _ _ => x ^ 2) Hp) in H.
  rewrite !Hp in H.
  assert (U : poly_coefs P nc ns (offsets s) u junk = poly_coefs P nc ns (offsets s)
     (fun o => average (stencil_dim s) (dx, dy, dz) o (fun x y z => eval (stencil_dim s) mm x y z c)) junk).
  { assert (Uo : forall o, u o = average (stencil_dim s) (dx, dy, dz) o (fun x y z => eval (stencil_dim s) mm x y z c))
      by (intros o; apply Av; intros; symmetry; apply Hp).
    rewrite !poly_coefs_rsum. rewrite Uo. apply (f_equal (cons _)). apply map_ext. intros ic.
    apply rsum_ext. intros ik _. apply (f_equal (Rmult _)). unfold rhs. rewrite !nth_error_map.
    destruct (nth_error _ ik); cbn [option_map]; [rewrite !Uo|]; reflexivity. }
  rewrite U.
  assert (A0 : average (stencil_dim s) (dx, dy, dz) (0, 0, 0)%Z (fun x _ _ => x ^ 2) = dx ^ 2 / 12).
  { transitivity (eval_moment (stencil_dim s) (dx, dy, dz) (0, 0, 0)%Z (if Nat.eqb (stencil_dim s) 2 then [2; 0]%Z else [2; 0; 0]%Z)).
    - destruct Hd as [Hd|Hd]; rewrite Hd; cbn [average eval_moment Nat.eqb].
      + rewrite eval_moment2_average by auto. apply cell_average2_ext. intros a b. jnum. cbn [pow]. ring.
      + rewrite eval_moment3_average by auto. apply cell_average3_ext. intros a b b'. jnum. cbn [pow]. ring.
    - destruct Hd as [Hd|Hd]; rewrite Hd; cbn [eval_moment Nat.eqb].
      + rewrite eval_moment2_J by auto. jred.
      + rewrite eval_moment3_J by auto. jred. }
  rewrite A0 in H. fold ns nc in H. lra.
Qed.
Print Assumptions C59_exact_refuted.

(** For arbitrary cell values the coefficients of the non-constant monomials minimise
    the sum of squared residuals of the conditions "average over the neighbour minus
    average over the central cell = difference of the cell values". *)
Theorem C59_least_squares : forall s mm dx dy dz P u junk (v : nat -> R), dx <> 0 -> dy <> 0 -> dz <> 0 ->
  init_map (stencil_dim s) (STENCIL_DEGREE s) mm ->
  let ns := (Z.to_nat (STENCIL_SIZE s) - 1)%nat in
  let nc := (length mm - 1)%nat in
  pseudo_inverse ns nc (geom_matrix (stencil_dim s) (dx, dy, dz) (offsets s) mm) P ->
  let moment o e := average (stencil_dim s) (dx, dy, dz) o (fun x y z => monomial (stencil_dim s) x y z 1 e) in
  let residual v := lsum (fun o =>
    (rsum nc (fun k => (moment o (nth (S k) mm []) - moment (0, 0, 0)%Z (nth (S k) mm [])) * v k) - (u o - u (0, 0, 0)%Z)) ^ 2)
    (neighbours (offsets s)) in
  residual (fun k => nth (S k) (poly_coefs P nc ns (offsets s) u junk) 0) <= residual v.
Proof.
  intros s mm dx dy dz P u junk v Hx Hy Hz Hm ns nc HP moment residual.
  assert (M : forall o e, moment o e = eval_moment (stencil_dim s) (dx, dy, dz) o e).
  { intros o e. unfold moment. pose proof (average_eval (stencil_dim s) dx dy dz o [e] [1] Hx Hy Hz) as H.
    cbn [combine lsum fst snd] in H. transitivity (1 * eval_moment (stencil_dim s) (dx, dy, dz) o e + 0); [|ring].
    rewrite <- H. apply average_ext. intros x y z. unfold eval. cbn [combine fold_left fst snd zero add RArith]. ring. }
  pose proof (recon_least_squares s dx dy dz mm P HP u junk v (stencils_length s)) as H.
  assert (Nt : forall k, nth k (tl mm) [] = nth (S k) mm []) by (intros k; destruct mm; [destruct k; reflexivity|reflexivity]).
  cbn zeta in H. unfold residual.
  assert (Q : forall w, lsum (fun o => (rsum nc (fun k => (moment o (nth (S k) mm []) - moment (0, 0, 0)%Z (nth (S k) mm [])) * w k) - (u o - u (0, 0, 0)%Z)) ^ 2)
     (neighbours (offsets s)) = lsum (fun o => (rsum nc (fun k => eval_hat (stencil_dim s) (dx, dy, dz) o (nth k (tl mm) []) * w k) - (u o - u (0, 0, 0)%Z)) *
        (rsum nc (fun k => eval_hat (stencil_dim s) (dx, dy, dz) o (nth k (tl mm) []) * w k) - (u o - u (0, 0, 0)%Z))) (neighbours (offsets s))).
  { intros w. apply lsum_ext. intros o _.
    rewrite (rsum_ext nc _ (fun k => eval_hat (stencil_dim s) (dx, dy, dz) o (nth k (tl mm) []) * w k)).
    - ring.
    - intros k _. rewrite !M, Nt. reflexivity. }
  rewrite !Q. exact H.
Qed.
Print Assumptions C59_least_squares.

(** The entries of the local array that are never written in the degree-4 stencil in
    3D meet zero columns: harmless over the reals (above), but a zero times an
    infinity or a NaN left on the stack is a NaN. *)
Theorem C59_junk_refuted : exists (mat_pi : nat -> nat -> Floats.SpecFloat.spec_float) junk,
  (forall k ik, (56 <= ik)%nat -> mat_pi k ik = Floats.SpecFloat.S754_zero false) /\
  nth 1 (poly_coefs (A := F64) mat_pi 34 62 (offsets S3_4) (fun _ => one (Arith := F64)) junk) (zero (Arith := F64)) =
  Floats.SpecFloat.S754_nan.
Proof.
  exists (fun _ _ => Floats.SpecFloat.S754_zero false), (fun _ => Floats.SpecFloat.S754_infinity false).
  split; [reflexivity|]. vm_compute. reflexivity.
Qed.
Print Assumptions C59_junk_refuted.
Example C59_example : exists P, pseudo_inverse 4 2 (geom_matrix 2 (1, 1, 1) (offsets S2_1) [[0;0];[1;0];[0;1]]%Z) P /\
  eval 2 [[0;0];[1;0];[0;1]]%Z (1 / 2) (1 / 3) 0 (poly_coefs P 2 4 (offsets S2_1)
     (fun o => average 2 (1, 1, 1) o (fun x y z => eval 2 [[0;0];[1;0];[0;1]]%Z x y z [5; 2; 3])) (fun _ => 7)) = 7.
Proof.
  assert (Hm : init_map 2 1 [[0;0];[1;0];[0;1]]%Z).
  { replace [[0;0];[1;0];[0;1]]%Z with (rows 2 1) by reflexivity. apply init_loop_rows; [left; reflexivity|lia]. }
  destruct (C60_full_rank S2_1 _ 1 1 1 ltac:(lra) ltac:(lra) ltac:(lra) Hm) as [_ [P HP]].
  exists P. split; [exact HP|].
  etransitivity; [exact (C59_linear_exact S2_1 _ 1 1 1 P [5; 2; 3] (fun _ => 7) (1 / 2) (1 / 3) 0 ltac:(lra) ltac:(lra) ltac:(lra) eq_refl Hm eq_refl HP)|].
  cbn [stencil_dim].
  rewrite eval_lsum. cbn [combine lsum fst snd monomial]. jnum. cbn [powi mul one RArith]. field.
Qed.
