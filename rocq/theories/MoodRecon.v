(** What the least squares reconstruction of one cell returns, over the reals. *)
From Coq Require Import ZArith List Bool Lia Reals Lra.
From Coquelicot Require Import Coquelicot.
From Verif Require Import Arith MoodPoly MoodMonomials MoodExact MoodRank.
Import ListNotations.
Open Scope R_scope.

(** Average over the cell at offset [o] of a function of the position relative
    to the centre of cell (0,0,0). *)
Definition average (dim : nat) (d : R * R * R) (o : Z * Z * Z) (f : R -> R -> R -> R) : R :=
  let '(dx, dy, dz) := d in
  let '(x, y, z) := o in
  match dim with
  | 2%nat => cell_average2 dx dy x y (fun x y => f x y 0)
  | _ => cell_average3 dx dy dz x y z f
  end.

Lemma cell_average2_ext dx dy i j f h : (forall x y, f x y = h x y) -> cell_average2 dx dy i j f = cell_average2 dx dy i j h.
Proof.
  intros H. unfold cell_average2. apply (f_equal (fun t : R => t / (dx * dy))).
  apply RInt_ext. intros a _. apply RInt_ext. intros b _. apply H.
Qed.
Lemma cell_average3_ext dx dy dz i j k f h : (forall x y z, f x y z = h x y z) ->
  cell_average3 dx dy dz i j k f = cell_average3 dx dy dz i j k h.
Proof.
  intros H. unfold cell_average3. apply (f_equal (fun t : R => t / (dx * dy * dz))).
  apply RInt_ext. intros a _. apply RInt_ext. intros b _. apply RInt_ext. intros c _. apply H.
Qed.
Lemma average_ext dim d o f h : (forall x y z, f x y z = h x y z) -> average dim d o f = average dim d o h.
Proof.
  intros H. destruct d as [[dx dy] dz]. destruct o as [[i j] k]. unfold average.
  destruct dim as [|[|[|dim]]]; [apply cell_average3_ext; exact H|apply cell_average3_ext; exact H| |apply cell_average3_ext; exact H].
  apply cell_average2_ext. intros x y. apply H.
Qed.

Fixpoint lsum {X} (f : X -> R) (l : list X) : R := match l with [] => 0 | a :: l' => f a + lsum f l' end.
Lemma lsum_ext {X} (f h : X -> R) l : (forall a, In a l -> f a = h a) -> lsum f l = lsum h l.
Proof. induction l as [|a l IH]; intros H; [reflexivity|]. cbn. rewrite H, IH by auto with datatypes. reflexivity. Qed.
Lemma lsum_scal_r {X} (f : X -> R) c l : lsum (fun a => f a * c) l = lsum f l * c.
Proof. induction l as [|a l IH]; cbn; [ring|]. rewrite IH. ring. Qed.
Lemma fold_lsum {X} (f : X -> R) l : forall a, fold_left (fun r x => r + f x) l a = a + lsum f l.
Proof. induction l as [|b l IH]; intros a; cbn; [ring|]. rewrite IH. ring. Qed.
Lemma is_RInt_lsum {X} (k : X -> R) (e : X -> nat) l a b :
  is_RInt (fun x => lsum (fun c => k c * x ^ e c) l) a b
          (lsum (fun c => k c * ((b ^ S (e c) - a ^ S (e c)) / INR (S (e c)))) l).
Proof.
  induction l as [|c l IH].
  - cbn [lsum]. pose proof (is_RInt_const (V := R_NormedModule) a b 0) as H.
    assert (E : scal (b - a) (0 : R_NormedModule) = 0) by (unfold scal; cbn; unfold mult; cbn; ring).
    rewrite E in H. exact H.
  - cbn [lsum]. apply (is_RInt_plus (V := R_NormedModule) (fun x => k c * x ^ e c)); [|exact IH].
    apply (is_RInt_scal (V := R_NormedModule)). apply is_RInt_pow.
Qed.
Lemma RInt_lsum {X} (k : X -> R) (e : X -> nat) l a b :
  RInt (fun x => lsum (fun c => k c * x ^ e c) l) a b =
  lsum (fun c => k c * ((b ^ S (e c) - a ^ S (e c)) / INR (S (e c)))) l.
Proof. apply is_RInt_unique, is_RInt_lsum. Qed.

Definition J (h : R) (i : Z) (n : nat) : R :=
  (((IZR i + / 2) * h) ^ S n - ((IZR i - / 2) * h) ^ S n) / INR (S n).

Lemma eval_moment2_J dx dy i j n m : dx <> 0 -> dy <> 0 ->
  eval_moment2 dx dy i j n m = J dx i n * J dy j m / (dx * dy).
Proof.
  intros Hx Hy. rewrite eval_moment2_average by auto. unfold cell_average2. f_equal.
  rewrite (RInt_ext _ (fun x => x ^ n * J dy j m)).
  2:{ intros x _. rewrite RInt_scal_l by apply ex_RInt_pow. rewrite RInt_pow. reflexivity. }
  rewrite RInt_scal_r by apply ex_RInt_pow. rewrite RInt_pow. reflexivity.
Qed.
Lemma eval_moment3_J dx dy dz i j k n m l : dx <> 0 -> dy <> 0 -> dz <> 0 ->
  eval_moment3 dx dy dz i j k n m l = J dx i n * J dy j m * J dz k l / (dx * dy * dz).
Proof.
  intros Hx Hy Hz. unfold J. rewrite <- !pow_diff_R. unfold eval_moment3. change (@powi R RArith) with pow.
  generalize (pow_diff i n) (pow_diff j m) (pow_diff k l) (dx ^ S n) (dy ^ S m) (dz ^ S l).
  intros p q t r s v.
  cbn [add sub mul div lit RArith one]. unfold int. cbn [lit RArith]. rewrite !IZR_S.
  assert (INR (S n) <> 0) by (apply not_0_INR; lia). assert (INR (S m) <> 0) by (apply not_0_INR; lia).
  assert (INR (S l) <> 0) by (apply not_0_INR; lia).
  req. field. repeat split; assumption.
Qed.

Lemma eval_lsum dim mm x y z c :
  eval dim mm x y z c = lsum (fun ce => monomial dim x y z (fst ce) (snd ce)) (combine c mm).
Proof. unfold eval. rewrite (fold_lsum (fun ce => monomial dim x y z (fst ce) (snd ce))). cbn [zero RArith]. ring. Qed.

Lemma average_eval dim dx dy dz o mm c : dx <> 0 -> dy <> 0 -> dz <> 0 ->
  average dim (dx, dy, dz) o (fun x y z => eval dim mm x y z c) =
  lsum (fun ce => fst ce * eval_moment dim (dx, dy, dz) o (snd ce)) (combine c mm).
Proof.
  intros Hx Hy Hz. destruct o as [[i j] k]. unfold average, eval_moment.
  assert (A2 : cell_average2 dx dy i j (fun x y => eval 2 mm x y 0 c) =
     lsum (fun ce => fst ce * eval_moment2 dx dy i j (expo (snd ce) 0) (expo (snd ce) 1)) (combine c mm)).
  { unfold cell_average2.
    rewrite (RInt_ext _ (fun x => lsum (fun ce => (fst ce * J dy j (expo (snd ce) 1)) * x ^ expo (snd ce) 0) (combine c mm))).
    2:{ intros x _. rewrite (RInt_ext _ (fun y => lsum (fun ce => (fst ce * x ^ expo (snd ce) 0) * y ^ expo (snd ce) 1) (combine c mm))).
        2:{ intros y _. rewrite eval_lsum. reflexivity. }
        rewrite RInt_lsum. apply lsum_ext. intros ce _. fold (J dy j (expo (snd ce) 1)). ring. }
    rewrite RInt_lsum. unfold Rdiv at 1. rewrite <- lsum_scal_r. apply lsum_ext. intros ce _.
    rewrite eval_moment2_J by auto. fold (J dx i (expo (snd ce) 0)). unfold Rdiv. ring. }
  assert (A3 : forall d3, (d3 <> 2)%nat -> cell_average3 dx dy dz i j k (fun x y z => eval d3 mm x y z c) =
     lsum (fun ce => fst ce * eval_moment3 dx dy dz i j k (expo (snd ce) 0) (expo (snd ce) 1) (expo (snd ce) 2)) (combine c mm)).
  { intros d3 Hd. unfold cell_average3.
    rewrite (RInt_ext _ (fun x => lsum (fun ce => (fst ce * J dy j (expo (snd ce) 1) * J dz k (expo (snd ce) 2)) * x ^ expo (snd ce) 0) (combine c mm))).
    2:{ intros x _. rewrite (RInt_ext _ (fun y => lsum (fun ce => (fst ce * x ^ expo (snd ce) 0 * J dz k (expo (snd ce) 2)) * y ^ expo (snd ce) 1) (combine c mm))).
        2:{ intros y _.
            rewrite (RInt_ext _ (fun z => lsum (fun ce => (fst ce * x ^ expo (snd ce) 0 * y ^ expo (snd ce) 1) * z ^ expo (snd ce) 2) (combine c mm))).
            2:{ intros z _. rewrite eval_lsum. apply lsum_ext. intros ce _. unfold monomial.
                change (@powi R RArith) with pow. cbn [mul RArith]. destruct d3 as [|[|[|d3]]]; try reflexivity. congruence. }
            rewrite RInt_lsum. apply lsum_ext. intros ce _. fold (J dz k (expo (snd ce) 2)). ring. }
        rewrite RInt_lsum. apply lsum_ext. intros ce _. fold (J dy j (expo (snd ce) 1)). ring. }
    rewrite RInt_lsum. unfold Rdiv at 1. rewrite <- lsum_scal_r. apply lsum_ext. intros ce _.
    rewrite eval_moment3_J by auto. fold (J dx i (expo (snd ce) 0)). unfold Rdiv. ring. }
  destruct dim as [|[|[|dim]]]; [apply A3; discriminate|apply A3; discriminate|exact A2|apply A3; discriminate].
Qed.

(** ** The sums of the code as [rsum] *)
Lemma fold_rsum n (f : nat -> R) : fold_left (fun tmp ik => tmp + f ik) (seq 0 n) 0 = rsum n f.
Proof.
  induction n as [|n IH]; [reflexivity|]. rewrite seq_S, fold_left_app, IH. reflexivity.
Qed.
Lemma poly_coefs_rsum mat_pi nc ns os u junk :
  poly_coefs mat_pi nc ns os u junk =
  u (0, 0, 0)%Z :: map (fun k => rsum ns (fun ik => mat_pi k ik * rhs os u junk ik)) (seq 0 nc).
Proof. unfold poly_coefs. f_equal. apply map_ext. intros k. rewrite <- fold_rsum. reflexivity. Qed.

Lemma lsum_combine_rsum (h : R -> list Z -> R) c : forall mm, length c = length mm ->
  lsum (fun ce => h (fst ce) (snd ce)) (combine c mm) = rsum (length mm) (fun k => h (nth k c 0) (nth k mm [])).
Proof.
  induction c as [|x c IH]; intros [|e mm] H; try discriminate; [reflexivity|].
  assert (S0 : forall n h, rsum (S n) h = h 0%nat + rsum n (fun j => h (S j))).
  { clear. induction n as [|n IH]; intros h; [cbn; ring|]. cbn [rsum] in *. rewrite IH. ring. }
  cbn [combine lsum length]. rewrite S0. cbn [nth fst snd]. rewrite IH by (cbn in H; lia). reflexivity.
Qed.
Lemma lsum_minus {X} (f h : X -> R) l : lsum f l - lsum h l = lsum (fun a => f a - h a) l.
Proof. induction l as [|a l IH]; cbn; [ring|]. rewrite <- IH. ring. Qed.

Section Recon.
Variables (s : stencil_id) (dx dy dz : R) (mm : list (list Z)).
Hypotheses (Hx : dx <> 0) (Hy : dy <> 0) (Hz : dz <> 0).
Let dim := stencil_dim s.
Let ns := (Z.to_nat (STENCIL_SIZE s) - 1)%nat.
Let nc := (length mm - 1)%nat.
Let d := (dx, dy, dz).
Let a := geom_matrix dim d (offsets s) mm.
Variable P : nat -> nat -> R.
Hypothesis HP : pseudo_inverse ns nc a P.

Lemma geom_entry i k o : nth_error (neighbours (offsets s)) i = Some o -> (k < nc)%nat ->
  a i k = eval_hat dim d o (nth k (tl mm) []).
Proof.
  intros Ho Hk. unfold a, geom_matrix, geom_rows.
  assert (Hi : (i < length (neighbours (offsets s)))%nat) by (apply nth_error_Some; congruence).
  rewrite (nth_indep _ [] ((fun o => map (eval_hat dim d o) (tl mm)) o)) by (rewrite map_length; exact Hi).
  rewrite (map_nth (fun o => map (eval_hat dim d o) (tl mm))).
  rewrite (nth_error_nth _ _ o Ho).
  assert (Hk' : (k < length (tl mm))%nat) by (unfold nc in Hk; destruct mm; cbn in *; lia).
  rewrite (nth_indep _ _ (eval_hat dim d o [])) by (rewrite map_length; exact Hk'). rewrite map_nth. reflexivity.
Qed.
Lemma geom_entry_none i k : nth_error (neighbours (offsets s)) i = None -> a i k = 0.
Proof.
  intros H. apply nth_error_None in H. unfold a, geom_matrix, geom_rows.
  rewrite (nth_overflow (map _ _) []) by (rewrite map_length; exact H). destruct k; reflexivity.
Qed.

(** Entries of [rhs] that are not assigned do not matter. *)
Lemma coef_rhs u junk (b : nat -> R) k : (k < nc)%nat ->
  (forall i o, nth_error (neighbours (offsets s)) i = Some o -> b i = u o - u (0, 0, 0)%Z) ->
  rsum ns (fun ik => P k ik * rhs (offsets s) u junk ik) = rsum ns (fun ik => P k ik * b ik).
Proof.
  intros Hk Hb. apply rsum_ext. intros i Hi. unfold rhs. rewrite nth_error_map.
  destruct (nth_error (neighbours (offsets s)) i) as [o|] eqn:E; cbn [option_map].
  - rewrite (Hb i o E). reflexivity.
  - rewrite (pseudo_inverse_zero ns nc a P HP i Hi) by (auto; intros; apply geom_entry_none; exact E). ring.
Qed.

Lemma recon_coefs c junk : length c = length mm -> (0 < length mm)%nat ->
  let u o := average dim d o (fun x y z => eval dim mm x y z c) in
  eval_moment dim d (0, 0, 0)%Z (hd [] mm) = 1 -> (forall o, eval_moment dim d o (hd [] mm) = 1) ->
  poly_coefs P nc ns (offsets s) u junk = u (0, 0, 0)%Z :: tl c.
Proof.
  intros Hc Hm u H0 H1. rewrite poly_coefs_rsum. f_equal.
  assert (Hl : length (tl c) = nc) by (unfold nc; destruct c; cbn in *; lia).
  apply (nth_ext _ _ 0 0); [rewrite map_length, seq_length; lia|].
  intros k Hk. rewrite map_length, seq_length in Hk.
  rewrite (nth_indep _ 0 ((fun k => rsum ns (fun ik => P k ik * rhs (offsets s) u junk ik)) 0%nat)) by (rewrite map_length, seq_length; exact Hk).
  rewrite (map_nth (fun k => rsum ns (fun ik => P k ik * rhs (offsets s) u junk ik))), seq_nth by exact Hk. cbn [Nat.add].
  rewrite (coef_rhs u junk (fun ik => rsum nc (fun l => a ik l * nth l (tl c) 0))).
  - rewrite (rsum_ext ns _ (fun ik => rsum nc (fun l => P k ik * a ik l * nth l (tl c) 0))).
    2:{ intros i Hi. rewrite <- rsum_scal. apply rsum_ext. intros; ring. }
    rewrite rsum_swap. rewrite (rsum_single nc k); auto.
    + rewrite rsum_scal_r, (pseudo_inverse_left ns nc a P HP k k Hk Hk), Nat.eqb_refl. ring.
    + intros l Hl' Hne. rewrite rsum_scal_r, (pseudo_inverse_left ns nc a P HP k l Hk Hl').
      destruct (Nat.eqb_spec k l); [congruence|ring].
  - exact Hk.
  - intros i o Ho. unfold u. unfold d. rewrite !average_eval by auto. rewrite lsum_minus. fold d.
    destruct c as [|c0 c]; [cbn in Hc; lia|]. 
    assert (Em : combine (c0 :: c) mm = (c0, hd [] mm) :: combine c (tl mm))
      by (destruct mm; [cbn in Hc; lia|reflexivity]).
    assert (Lm : length mm = S (length (tl mm))) by (destruct mm; [cbn in Hc; lia|reflexivity]).
    rewrite Em. cbn [lsum fst snd tl]. rewrite H0, (H1 o).
    rewrite (lsum_ext _ (fun ce => fst ce * eval_hat dim d o (snd ce))).
    2:{ intros ce _. unfold eval_hat. cbn [sub RArith]. ring. }
    rewrite (lsum_combine_rsum (fun x e => x * eval_hat dim d o e)) by (cbn in Hc; lia).
    replace nc with (length (tl mm)) by (unfold nc; lia).
    replace (c0 * 1 - c0 * 1) with 0 by ring. rewrite Rplus_0_l.
    apply rsum_ext. intros l Hl'. rewrite (geom_entry i l o Ho) by (unfold nc; lia). ring.
Qed.

(** For any cell values the coefficients minimise the squared residual. *)
Lemma recon_least_squares u junk (c' : nat -> R) :
  let c k := nth (S k) (poly_coefs P nc ns (offsets s) u junk) 0 in
  let res v := lsum (fun o => let t := rsum nc (fun k => eval_hat dim d o (nth k (tl mm) []) * v k) - (u o - u (0, 0, 0)%Z) in t * t)
                    (neighbours (offsets s)) in
  (length (neighbours (offsets s)) <= ns)%nat ->
  res c <= res c'.
Proof.
  intros c res Hns.
  set (b i := match nth_error (neighbours (offsets s)) i with Some o => u o - u (0, 0, 0)%Z | None => 0 end).
  assert (Hc : forall k, (k < nc)%nat -> c k = rsum ns (fun t => P k t * b t)).
  { intros k Hk. unfold c. rewrite poly_coefs_rsum. cbn [nth].
    rewrite (nth_indep _ 0 ((fun k => rsum ns (fun ik => P k ik * rhs (offsets s) u junk ik)) 0%nat)) by (rewrite map_length, seq_length; exact Hk).
    rewrite (map_nth (fun k => rsum ns (fun ik => P k ik * rhs (offsets s) u junk ik))), seq_nth by exact Hk. cbn [Nat.add].
    apply coef_rhs; [exact Hk|]. intros i o Ho. unfold b. rewrite Ho. reflexivity. }
  assert (Hres : forall v, res v = rsum ns (fun i => (rsum nc (fun k => a i k * v k) - b i) * (rsum nc (fun k => a i k * v k) - b i))).
  { intros v. unfold res.
    assert (S0 : forall n h, rsum (S n) h = h 0%nat + rsum n (fun j => h (S j))).
    { clear. induction n as [|n IH]; intros h; [cbn; ring|]. cbn [rsum] in *. rewrite IH. ring. }
    assert (G : forall l n (f : Z * Z * Z -> R) (h : nat -> R), (length l <= n)%nat ->
       (forall i o, nth_error l i = Some o -> h i = f o) -> (forall i, nth_error l i = None -> h i = 0) -> lsum f l = rsum n h).
    { clear - S0. induction l as [|o l IH]; intros n f h Hl Hs Hn.
      - cbn [lsum]. rewrite (rsum_ext n h (fun _ => 0)); [rewrite rsum_0; reflexivity|]. intros i _. apply Hn. destruct i; reflexivity.
      - destruct n as [|n]; [cbn in Hl; lia|]. cbn [lsum]. rewrite S0. f_equal.
        + symmetry. apply (Hs 0%nat o). reflexivity.
        + apply IH; [cbn in Hl; lia| |]; intros i; [intros o' Ho; apply (Hs (S i)); exact Ho|intros Ho; apply (Hn (S i)); exact Ho]. }
    apply G; [exact Hns| |].
    - intros i o Ho. unfold b. rewrite Ho. cbn zeta.
      replace (rsum nc (fun k => a i k * v k)) with (rsum nc (fun k => eval_hat dim d o (nth k (tl mm) []) * v k)); [reflexivity|].
      apply rsum_ext. intros k Hk. rewrite (geom_entry i k o Ho Hk). reflexivity.
    - intros i Ho. unfold b. rewrite Ho.
      rewrite (rsum_ext nc _ (fun _ => 0)); [rewrite rsum_0; ring|]. intros k _. rewrite geom_entry_none by exact Ho. ring. }
  rewrite !Hres.
  set (r i := rsum nc (fun k => a i k * c k) - b i).
  set (e i := rsum nc (fun k => a i k * (c' k - c k))).
  rewrite (rsum_ext ns (fun i => (rsum nc (fun k => a i k * c' k) - b i) * (rsum nc (fun k => a i k * c' k) - b i))
     (fun i => r i * r i + (2 * (e i * r i) + e i * e i))).
  2:{ intros i Hi. replace (rsum nc (fun k => a i k * c' k)) with (rsum nc (fun k => a i k * c k) + e i).
      - fold (r i). unfold r. ring.
      - unfold e. rewrite <- rsum_plus. apply rsum_ext. intros; ring. }
  rewrite rsum_plus, rsum_plus, rsum_scal.
  assert (Her : rsum ns (fun i => e i * r i) = 0).
  { rewrite (rsum_ext ns _ (fun i => rsum nc (fun k => (c' k - c k) * (a i k * r i)))).
    2:{ intros i Hi. unfold e. rewrite <- rsum_scal_r. apply rsum_ext. intros; ring. }
    rewrite rsum_swap. rewrite (rsum_ext nc _ (fun _ => 0)); [apply rsum_0|].
    intros k Hk. rewrite rsum_scal.
    replace (rsum ns (fun i => a i k * r i)) with 0; [ring|].
    unfold r. rewrite (rsum_ext ns _ (fun i => a i k * rsum nc (fun l => a i l * rsum ns (fun t => P l t * b t)) - a i k * b i)).
    2:{ intros i Hi. rewrite Rmult_minus_distr_l. f_equal. f_equal. apply rsum_ext. intros l Hl. rewrite Hc by exact Hl. reflexivity. }
    rewrite rsum_minus, (pseudo_inverse_normal ns nc a P HP b k Hk). ring. }
  rewrite Her. assert (0 <= rsum ns (fun i => e i * e i)) by (apply rsum_nonneg; intros; apply Rle_0_sqr).
  change (rsum ns (fun i => r i * r i) <= rsum ns (fun i => r i * r i) + (2 * 0 + rsum ns (fun i => e i * e i))). lra.
Qed.
End Recon.
