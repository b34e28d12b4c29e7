(** The solution and flux points of the code meet the hypotheses of the
    interpolation theorems. *)
From Coq Require Import ZArith List Bool Reals Lra Lia.
From Verif Require Import Arith Par SdmGeom SdmSpec.
Import ListNotations.
Open Scope R_scope.

Definition increasing (n : Z) (y : Z -> R) : Prop :=
  forall i, (0 <= i)%Z -> (i + 1 < n)%Z -> y i < y (i + 1)%Z.

Lemma increasing_lt n y : increasing n y ->
  forall i j, (0 <= i < n)%Z -> (0 <= j < n)%Z -> (i < j)%Z -> y i < y j.
Proof.
  intros H i j Hi Hj Hij.
  assert (G : forall m : nat, (i + 1 + Z.of_nat m < n)%Z -> y i < y (i + 1 + Z.of_nat m)%Z).
  { induction m as [|m IH]; intros Hm.
    - replace (i + 1 + Z.of_nat 0)%Z with (i + 1)%Z by lia. apply H; lia.
    - apply Rlt_trans with (y (i + 1 + Z.of_nat m)%Z); [apply IH; lia|].
      replace (i + 1 + Z.of_nat (S m))%Z with (i + 1 + Z.of_nat m + 1)%Z by lia. apply H; lia. }
  specialize (G (Z.to_nat (j - i - 1))). replace (i + 1 + Z.of_nat (Z.to_nat (j - i - 1)))%Z with j in G by lia.
  apply G. lia.
Qed.
Lemma increasing_distinct n y : increasing n y -> distinct n y.
Proof.
  intros H i j Hi Hj E. destruct (Z.lt_trichotomy i j) as [L|[L|L]]; auto; exfalso.
  - pose proof (increasing_lt n y H i j Hi Hj L). lra.
  - pose proof (increasing_lt n y H j i Hj Hi L). lra.
Qed.

(** ** Solution points *)
Definition angle (n i : Z) : R := PI * (2 * IZR i + 1) / 2 / IZR n.
Lemma angle_range n i : (0 <= i < n)%Z -> 0 < angle n i < PI.
Proof.
  intros [H0 H1]. pose proof PI_RGT_0.
  assert (Hn : 0 < IZR n) by (apply IZR_lt; lia).
  assert (H2 : IZR i + 1 <= IZR n) by (rewrite <- plus_IZR; apply IZR_le; lia).
  apply IZR_le in H0.
  unfold angle. split.
  - apply Rdiv_lt_0_compat; auto. apply Rdiv_lt_0_compat; [|lra]. apply Rmult_lt_0_compat; lra.
  - apply (Rmult_lt_reg_r (IZR n)); auto.
    replace (PI * (2 * IZR i + 1) / 2 / IZR n * IZR n) with (PI * (IZR i + / 2)) by (field; lra).
    apply Rmult_lt_compat_l; auto. lra.
Qed.
Lemma angle_mult n i : (0 < n)%Z -> IZR n * angle n i = PI / 2 + IZR i * PI.
Proof. intros H. unfold angle. field. apply not_0_IZR. lia. Qed.

Lemma sol_increasing n : increasing n (sol_ptsR n).
Proof.
  intros i H0 H1. unfold sol_ptsR. fold (angle n i) (angle n (i + 1)).
  pose proof (angle_range n i ltac:(lia)). pose proof (angle_range n (i + 1) ltac:(lia)).
  assert (L : angle n i < angle n (i + 1)).
  { assert (Hn : 0 < IZR n) by (apply IZR_lt; lia). apply (Rmult_lt_reg_l (IZR n)); auto.
    rewrite !angle_mult by lia. rewrite plus_IZR. pose proof PI_RGT_0. lra. }
  pose proof (cos_decreasing_1 (angle n i) (angle n (i + 1)) ltac:(lra) ltac:(lra) ltac:(lra) ltac:(lra) L). lra.
Qed.
Lemma sol_inside n i : (0 <= i < n)%Z -> 0 < sol_ptsR n i < 1.
Proof.
  intros Hi. unfold sol_ptsR. fold (angle n i). pose proof (angle_range n i Hi) as [Ha Hb].
  pose proof (cos_decreasing_1 0 (angle n i) ltac:(lra) ltac:(lra) ltac:(lra) ltac:(lra) Ha) as H1.
  pose proof (cos_decreasing_1 (angle n i) PI ltac:(lra) ltac:(lra) ltac:(lra) ltac:(lra) Hb) as H2.
  rewrite cos_0 in H1. rewrite cos_PI in H2. lra.
Qed.

(** The point is a root of the Chebyshev polynomial of degree n. *)
Lemma cos_half_odd i : (0 <= i)%Z -> cos (PI / 2 + IZR i * PI) = 0.
Proof.
  intros H. pattern i. apply natlike_ind; auto.
  - rewrite Rmult_0_l, Rplus_0_r. apply cos_PI2.
  - intros x _ IH. unfold Z.succ. rewrite plus_IZR.
    replace (PI / 2 + (IZR x + 1) * PI) with (PI / 2 + IZR x * PI + PI) by ring.
    rewrite neg_cos, IH. ring.
Qed.
Lemma cheb_root n i : (0 < n)%Z -> (0 <= i)%Z -> cos (IZR n * angle n i) = 0.
Proof. intros Hn Hi. rewrite angle_mult by auto. now apply cos_half_odd. Qed.

Lemma cos2 a : cos (2 * a) = 2 * (cos a * cos a) - 1.
Proof. rewrite cos_2a_cos. ring. Qed.
Lemma cos3 a : cos (3 * a) = 4 * (cos a * cos a * cos a) - 3 * cos a.
Proof.
  replace (3 * a) with (2 * a + a) by ring. rewrite cos_plus, cos2, sin_2a.
  pose proof (sin2_cos2 a) as H. unfold Rsqr in H.
  replace (2 * sin a * cos a * sin a) with (2 * cos a * (sin a * sin a)) by ring.
  replace (sin a * sin a) with (1 - cos a * cos a) by lra. ring.
Qed.
Lemma cos4 a : cos (4 * a) = 8 * (cos a * cos a * cos a * cos a) - 8 * (cos a * cos a) + 1.
Proof. replace (4 * a) with (2 * (2 * a)) by ring. rewrite !cos2. ring. Qed.
Lemma cos5 a : cos (5 * a) =
  16 * (cos a * cos a * cos a * cos a * cos a) - 20 * (cos a * cos a * cos a) + 5 * cos a.
Proof.
  replace (5 * a) with (3 * a + 2 * a) by ring. rewrite cos_plus, cos2, cos3, sin_2a.
  replace (3 * a) with (2 * a + a) by ring. rewrite sin_plus, sin_2a, cos2.
  pose proof (sin2_cos2 a) as H. unfold Rsqr in H.
  replace ((2 * sin a * cos a * cos a + (2 * (cos a * cos a) - 1) * sin a) * (2 * sin a * cos a))
    with ((4 * cos a * cos a - 1) * 2 * cos a * (sin a * sin a)) by ring.
  replace (sin a * sin a) with (1 - cos a * cos a) by lra. ring.
Qed.
Lemma cos6 a : cos (6 * a) = 32 * (cos a * cos a * cos a * cos a * cos a * cos a)
  - 48 * (cos a * cos a * cos a * cos a) + 18 * (cos a * cos a) - 1.
Proof. replace (6 * a) with (2 * (3 * a)) by ring. rewrite cos2, cos3. ring. Qed.

(** ** Flux points *)
(** Legendre polynomials of degree 0..5. *)
Definition legendre (n : Z) (x : R) : R :=
  match n with
  | 0%Z => 1
  | 1%Z => x
  | 2%Z => / 2 * (3 * x * x - 1)
  | 3%Z => / 2 * (5 * x * x * x - 3 * x)
  | 4%Z => / 8 * (35 * x * x * x * x - 30 * x * x + 3)
  | 5%Z => / 8 * (63 * x * x * x * x * x - 70 * x * x * x + 15 * x)
  | _ => 0
  end.

Lemma between (n i : Z) : (0 <= i <= n)%Z -> (n <= 6)%Z ->
  i = 0%Z \/ i = 1%Z \/ i = 2%Z \/ i = 3%Z \/ i = 4%Z \/ i = 5%Z \/ i = 6%Z.
Proof. lia. Qed.

Lemma sqrt_sq x : 0 <= x -> sqrt x * sqrt x = x.
Proof. apply sqrt_sqrt. Qed.
Lemma sqrt_between x a b : 0 <= a -> 0 <= b -> a * a < x -> x < b * b -> a < sqrt x < b.
Proof.
  intros Ha Hb H1 H2. split.
  - rewrite <- (sqrt_square a Ha). apply sqrt_lt_1; nra.
  - rewrite <- (sqrt_square b Hb). apply sqrt_lt_1; nra.
Qed.

Ltac tn :=
  change (Z.to_nat 0) with 0%nat; change (Z.to_nat 1) with 1%nat; change (Z.to_nat 2) with 2%nat;
  change (Z.to_nat 3) with 3%nat; change (Z.to_nat 4) with 4%nat; change (Z.to_nat 5) with 5%nat;
  change (Z.to_nat 6) with 6%nat.
Ltac fx := unfold flux_pts; tn; cbn [nth zero one two half lit add sub mul div sqr RArith].

Definition sq65 := sqrt (6 / 1 / (5 / 1)).
Lemma sq65_b : 1 < sq65 < 5 / 4. Proof. apply sqrt_between; lra. Qed.
Lemma sq65_s : sq65 * sq65 = 6 / 5. Proof. unfold sq65. rewrite sqrt_sq; lra. Qed.
Definition a5 := sqrt (3 / 1 / (7 / 1) + 2 / (7 / 1) * sq65).
Definition b5 := sqrt (3 / 1 / (7 / 1) - 2 / (7 / 1) * sq65).
Lemma a5_b : 4 / 5 < a5 < 1. Proof. pose proof sq65_b. apply sqrt_between; lra. Qed.
Lemma b5_b : 0 < b5 < 2 / 5. Proof. pose proof sq65_b. apply sqrt_between; lra. Qed.
Lemma a5_s : a5 * a5 = 3 / 7 + 2 / 7 * sq65. Proof. pose proof sq65_b. unfold a5. rewrite sqrt_sq; lra. Qed.
Lemma b5_s : b5 * b5 = 3 / 7 - 2 / 7 * sq65. Proof. pose proof sq65_b. unfold b5. rewrite sqrt_sq; lra. Qed.
Definition sq107 := sqrt (10 / 1 / (7 / 1)).
Lemma sq107_b : 1 < sq107 < 5 / 4. Proof. apply sqrt_between; lra. Qed.
Lemma sq107_s : sq107 * sq107 = 10 / 7. Proof. unfold sq107. rewrite sqrt_sq; lra. Qed.
Definition a6 := sqrt (5 / 1 + 2 * sq107).
Definition b6 := sqrt (5 / 1 - 2 * sq107).
Lemma a6_b : 2 < a6 < 3. Proof. pose proof sq107_b. apply sqrt_between; lra. Qed.
Lemma b6_b : 1 < b6 < 2. Proof. pose proof sq107_b. apply sqrt_between; lra. Qed.
Lemma a6_s : a6 * a6 = 5 + 2 * sq107. Proof. pose proof sq107_b. unfold a6. rewrite sqrt_sq; lra. Qed.
Lemma b6_s : b6 * b6 = 5 - 2 * sq107. Proof. pose proof sq107_b. unfold b6. rewrite sqrt_sq; lra. Qed.
Definition sq3 := sqrt (3 / 1).
Lemma sq3_b : 1 < sq3 < 2. Proof. apply sqrt_between; lra. Qed.
Lemma sq3_s : sq3 * sq3 = 3. Proof. unfold sq3. rewrite sqrt_sq; lra. Qed.
Definition i3 := 1 / sq3.
Lemma i3_s : i3 * i3 = / 3.
Proof. pose proof sq3_b. pose proof sq3_s as H3. unfold i3. replace (1 / sq3 * (1 / sq3)) with (/ (sq3 * sq3)) by (field; lra). now rewrite H3. Qed.
Lemma i3_b : 0 < i3 < 1.
Proof.
  pose proof sq3_b. assert (0 < i3) by (unfold i3; apply Rdiv_lt_0_compat; lra). split; auto.
  pose proof i3_s. nra.
Qed.
Definition sq35 := sqrt (3 / 1 / (5 / 1)).
Lemma sq35_b : 0 < sq35 < 1. Proof. apply sqrt_between; lra. Qed.
Lemma sq35_s : sq35 * sq35 = 3 / 5. Proof. unfold sq35. rewrite sqrt_sq; lra. Qed.

(** Table of the flux points, as [(1 + r) / 2]. *)
Definition flux_ref (n j : Z) : R :=
  nth (Z.to_nat j)
    match n with
    | 1%Z => [-1; 1]
    | 2%Z => [-1; 0; 1]
    | 3%Z => [-1; - i3; i3; 1]
    | 4%Z => [-1; - sq35; 0; sq35; 1]
    | 5%Z => [-1; - a5; - b5; b5; a5; 1]
    | 6%Z => [-1; - a6 / 3; - b6 / 3; 0; b6 / 3; a6 / 3; 1]
    | _ => []
    end 0.

Ltac each_n n Hn := 
  assert (n = 1 \/ n = 2 \/ n = 3 \/ n = 4 \/ n = 5 \/ n = 6)%Z as [-> | [-> | [-> | [-> | [-> | ->]]]]] by lia.
Ltac each_i i n Hi :=
  destruct (between n i ltac:(lia) ltac:(lia)) as [-> | [-> | [-> | [-> | [-> | [-> | ->]]]]]]; try (exfalso; lia).

Lemma flux_ref_eq n j : (1 <= n <= 6)%Z -> (0 <= j <= n)%Z -> flux_pts n j = (1 + flux_ref n j) / 2.
Proof.
  intros Hn Hj. pose proof sq3_b as H3. 
  each_n n Hn; each_i j j Hj; unfold flux_ref; fx;
  unfold a5, b5, a6, b6, sq65, sq107, sq35, i3; try lra; fold sq3; field; lra.
Qed.

Lemma flux_increasing n : (1 <= n <= 6)%Z -> increasing (n + 1) (flux_pts n).
Proof.
  intros Hn i H0 H1. rewrite !flux_ref_eq by lia.
  pose proof i3_b. pose proof sq35_b. pose proof a5_b. pose proof b5_b. pose proof a6_b. pose proof b6_b.
  each_n n Hn; each_i i i Hi; unfold flux_ref; cbn [Z.add Pos.add Pos.succ]; tn; cbn [nth]; lra.
Qed.
Lemma flux_ends n : (1 <= n <= 6)%Z -> flux_pts n 0 = 0 /\ flux_pts n n = 1.
Proof.
  intros Hn. rewrite !flux_ref_eq by lia.
  each_n n Hn; unfold flux_ref; tn; cbn [nth]; split; lra.
Qed.

Lemma flux_legendre n j : (1 <= n <= 6)%Z -> (0 < j < n)%Z ->
  legendre (n - 1) (2 * flux_pts n j - 1) = 0.
Proof.
  intros Hn Hj. rewrite flux_ref_eq by lia.
  replace (2 * ((1 + flux_ref n j) / 2) - 1) with (flux_ref n j) by lra.
  pose proof i3_s. pose proof sq35_s. pose proof a5_s as HA5. pose proof b5_s as HB5. pose proof sq65_s as H65.
  pose proof a6_s as HA6. pose proof b6_s as HB6. pose proof sq107_s as H107.
  assert (P4 : forall x s, x * x = 3 / 7 + 2 / 7 * s -> s * s = 6 / 5 -> 35 * x * x * x * x - 30 * x * x + 3 = 0).
  { intros x s E1 E2. replace (35 * x * x * x * x - 30 * x * x + 3) with (35 * (x * x) * (x * x) - 30 * (x * x) + 3) by ring.
    rewrite E1. replace (35 * (3 / 7 + 2 / 7 * s) * (3 / 7 + 2 / 7 * s) - 30 * (3 / 7 + 2 / 7 * s) + 3)
      with (20 / 7 * (s * s) - 24 / 7) by field. lra. }
  assert (P5 : forall x s, x * x = 5 + 2 * s -> s * s = 10 / 7 ->
    63 * (x / 3) * (x / 3) * (x / 3) * (x / 3) * (x / 3) - 70 * (x / 3) * (x / 3) * (x / 3) + 15 * (x / 3) = 0).
  { intros x s E1 E2.
    replace (63 * (x / 3) * (x / 3) * (x / 3) * (x / 3) * (x / 3) - 70 * (x / 3) * (x / 3) * (x / 3) + 15 * (x / 3))
      with (x / 27 * (7 * (x * x) * (x * x) - 70 * (x * x) + 135)) by field.
    rewrite E1. replace (7 * (5 + 2 * s) * (5 + 2 * s) - 70 * (5 + 2 * s) + 135) with (28 * (s * s) - 40) by ring.
    rewrite E2. lra. }
  each_n n Hn; each_i j j Hj; unfold flux_ref; tn; cbn [nth]; unfold legendre;
  cbn [Z.sub Z.add Z.opp Z.pos_sub Pos.pred_double Pos.pred]; try nra.
  all: try (apply Rmult_eq_0_compat_l).
  - replace (5 * - sq35 * - sq35 * - sq35 - 3 * - sq35) with (- sq35 * (5 * (sq35 * sq35) - 3)) by ring. rewrite H0. lra.
  - replace (5 * sq35 * sq35 * sq35 - 3 * sq35) with (sq35 * (5 * (sq35 * sq35) - 3)) by ring. rewrite H0. lra.
  - pose proof (P5 a6 sq107 HA6 H107). unfold Rdiv in *. lra.
  - pose proof (P5 b6 (- sq107) ltac:(lra) ltac:(lra)). unfold Rdiv in *. lra.
  - pose proof (P5 b6 (- sq107) ltac:(lra) ltac:(lra)). lra.
  - pose proof (P5 a6 sq107 HA6 H107). lra.
Qed.

(** ** Solution and flux points never coincide *)
Lemma no_common n x : (1 <= n <= 6)%Z -> legendre (n - 1) x = 0 -> cos (IZR n * acos x) = 0 -> -1 <= x <= 1 -> False.
Proof.
  intros Hn HL HC Hx.
  assert (Ex : cos (acos x) = x) by (apply cos_acos; lra).
  each_n n Hn; unfold legendre in HL; cbn [Z.sub Z.add Z.opp Z.pos_sub Pos.pred_double Pos.pred] in HL.
  - lra.
  - rewrite cos2, Ex in HC. nra.
  - rewrite cos3, Ex in HC.
    assert (E : x * x = / 3) by lra. replace (4 * (x * x * x) - 3 * x) with (x * (4 * (x * x) - 3)) in HC by ring.
    rewrite E in HC. assert (x = 0) by lra. subst x. lra.
  - rewrite cos4, Ex in HC.
    assert (E : x * (5 * (x * x) - 3) = 0) by lra.
    apply Rmult_integral in E as [E|E]; [subst x; lra|].
    assert (E2 : x * x = 3 / 5) by lra.
    replace (8 * (x * x * x * x)) with (8 * ((x * x) * (x * x))) in HC by ring. rewrite E2 in HC. lra.
  - rewrite cos5, Ex in HC.
    assert (E : x * (16 * ((x * x) * (x * x)) - 20 * (x * x) + 5) = 0) by lra.
    assert (E2 : 35 * ((x * x) * (x * x)) - 30 * (x * x) + 3 = 0) by lra.
    apply Rmult_integral in E as [E|E]; [subst x; lra|].
    set (q := x * x) in *. set (r := q * q) in *.
    assert (Eq : q = 127 / 220) by lra. assert (r = 127 / 220 * (127 / 220)) by (unfold r; now rewrite Eq). lra.
  - rewrite cos6, Ex in HC.
    assert (E : x * (63 * ((x * x) * (x * x)) - 70 * (x * x) + 15) = 0) by lra.
    apply Rmult_integral in E as [E|E]; [subst x; lra|].
    assert (E3 : 32 * (x * x * ((x * x) * (x * x))) - 48 * ((x * x) * (x * x)) + 18 * (x * x) - 1 = 0) by lra.
    clear HC HL. set (q := x * x) in *. set (r := q * q) in *.
    assert (F : q * (63 * r - 70 * q + 15) = 0) by (rewrite E; ring).
    assert (F2 : 63 * (q * r) - 70 * r + 15 * q = 0) by (unfold r in *; lra).
    assert (G : exists c, q = c /\ 63 * (c * c) - 70 * c + 15 <> 0).
    { exists (1113 / 1954).
      split; lra. }
    destruct G as (c & Hc & G). apply G. rewrite <- Hc. fold r. lra.
Qed.

Lemma sol_flux_apart n i j : (1 <= n <= 6)%Z -> (0 <= i < n)%Z -> (0 <= j <= n)%Z ->
  sol_ptsR n i <> flux_pts n j.
Proof.
  intros Hn Hi Hj E. pose proof (sol_inside n i Hi) as S. destruct (flux_ends n Hn) as [E0 E1].
  assert (j <> 0%Z) by (intros ->; lra). assert (j <> n) by (intros ->; lra).
  pose proof (flux_legendre n j Hn ltac:(lia)) as L. rewrite <- E in L.
  unfold sol_ptsR in L. fold (angle n i) in L.
  pose proof (angle_range n i Hi).
  replace (2 * (/ 2 * (1 - cos (angle n i))) - 1) with (cos (PI - angle n i)) in L
    by (rewrite cos_minus, cos_PI, sin_PI; lra).
  apply (no_common n (cos (PI - angle n i)) Hn L); [|apply COS_bound].
  rewrite acos_cos by lra.
  replace (IZR n * (PI - angle n i)) with (IZR n * angle n (n - 1 - i)).
  - apply cheb_root; lia.
  - rewrite Rmult_minus_distr_l, !angle_mult by lia. rewrite !minus_IZR. lra.
Qed.
