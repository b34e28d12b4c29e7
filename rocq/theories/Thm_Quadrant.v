(** C78: the built-in four-quadrant configurations have one elementary wave between neighbouring
    quadrants.  Specification: QuadrantSpec.v ([single_wave], [four_waves]). *)
From Coq Require Import ZArith List Bool Reals Lra Lia.
From Verif Require Import Arith Par ParProofs GridModel HydroState HydroKernels Physics MhdState MhdInit HydroInit HydroInitSpec QuadrantSpec Thm_HydroInit.
Local Open Scope R_scope.

Local Notation quad n := (four_waves (riemann_config n)).
Lemma sqrt_between (a lo hi : R) : 0 <= lo -> lo * lo <= a -> a <= hi * hi -> 0 <= hi -> lo <= sqrt a <= hi.
Proof.
  intros H1 H2 H3 H4. split.
  - rewrite <- (sqrt_square lo H1). apply sqrt_le_1_alt. exact H2.
  - rewrite <- (sqrt_square hi H4). apply sqrt_le_1_alt. exact H3.
Qed.
Lemma abs_between (a b : R) : Rabs a <= b -> - b <= a <= b.
Proof. intros H. assert (H1 := Rle_abs a). assert (H2 := Rle_abs (- a)). rewrite Rabs_Ropp in H2. lra. Qed.
Lemma w_contact l r : - / 1000 <= hU l - hU r <= / 1000 /\ - / 1000 <= hP l - hP r <= / 1000 -> single_wave l r.
Proof. intros [H1 H2]. left. split; apply Rabs_le; unfold digits; lra. Qed.
Lemma w_shock l r : - / 1000 <= hV l - hV r <= / 1000 /\ hU r < hU l /\
  - / 500 <= (hU l - hU r) * (hU l - hU r) - (hP l - hP r) * (/ hD r - / hD l) <= / 500 /\
  - (/ 200 * (hP r * (12 / 5 * hD l - 2 / 5 * hD r))) <=
    hP l * (12 / 5 * hD r - 2 / 5 * hD l) - hP r * (12 / 5 * hD l - 2 / 5 * hD r) <= / 200 * (hP r * (12 / 5 * hD l - 2 / 5 * hD r)) -> single_wave l r.
Proof.
  intros (H1 & H2 & H3 & H4). right. left. unfold shock, near, digits, gamma_air.
  replace (7 / 5 + 1) with (12 / 5) by lra. replace (7 / 5 - 1) with (2 / 5) by lra.
  split; [apply Rabs_le; lra|]. split; [exact H2|]. split; apply Rabs_le; lra.
Qed.
Lemma w_rare l r (a b c d : R) : (0 <= a /\ 0 <= b /\ 0 <= c /\ 0 <= d) /\
  a * a <= 7 / 5 * hP l / hD l <= b * b /\ c * c <= 7 / 5 * hP r / hD r <= d * d /\
  - / 1000 <= hV l - hV r <= / 1000 /\
  ((c >= b /\ - / 1000 <= hU r - hU l - 5 * (d - a) /\ hU r - hU l - 5 * (c - b) <= / 1000) \/
   (a >= d /\ - / 1000 <= hU r - hU l - 5 * (b - c) /\ hU r - hU l - 5 * (a - d) <= / 1000)) /\
  - (/ 200 * (hP r ^ 5 * hD l ^ 7)) <= hP l ^ 5 * hD r ^ 7 - hP r ^ 5 * hD l ^ 7 <= / 200 * (hP r ^ 5 * hD l ^ 7) -> single_wave l r.
Proof.
  intros ((A & B & C & D) & [L1 L2] & [R1 R2] & HV & HU & HE). right. right.
  unfold rarefaction, near, digits. split; [apply Rabs_le; lra|]. split; [|apply Rabs_le; lra].
  unfold csound, sound_speed, gamma_air.
  assert (SL := sqrt_between _ _ _ A L1 L2 B). assert (SR := sqrt_between _ _ _ C R1 R2 D).
  set (x := sqrt (7 / 5 * hP l / hD l)) in *. set (y := sqrt (7 / 5 * hP r / hD r)) in *.
  replace (2 / (7 / 5 - 1)) with 5 by lra.
  destruct HU as [(G & U1 & U2)|(G & U1 & U2)].
  - rewrite (Rabs_right (y - x)) by lra. apply Rabs_le. lra.
  - rewrite (Rabs_left1 (y - x)) by lra. apply Rabs_le. lra.
Qed.
Lemma quad_0 : quad 0.
Proof. split; [|split; [|split]]; [apply (w_rare _ _ (25951 / 25000) (20761 / 20000) (118321 / 100000) (59161 / 50000)); cbn; lra|apply (w_rare _ _ (75717 / 100000) (37859 / 50000) (22559 / 25000) (90237 / 100000)); cbn; lra|apply (w_rare _ _ (75717 / 100000) (37859 / 50000) (25951 / 25000) (20761 / 20000)); cbn; lra|apply (w_rare _ _ (22559 / 25000) (90237 / 100000) (118321 / 100000) (59161 / 50000)); cbn; lra]. Qed.
Lemma quad_1 : quad 1.
Proof. split; [|split; [|split]]; [apply (w_rare _ _ (25951 / 25000) (20761 / 20000) (118321 / 100000) (59161 / 50000)); cbn; lra|apply (w_rare _ _ (118321 / 100000) (59161 / 50000) (25951 / 25000) (20761 / 20000)); cbn; lra|apply (w_rare _ _ (118321 / 100000) (59161 / 50000) (25951 / 25000) (20761 / 20000)); cbn; lra|apply (w_rare _ _ (25951 / 25000) (20761 / 20000) (118321 / 100000) (59161 / 50000)); cbn; lra]. Qed.
Lemma quad_2 : quad 2.
Proof. split; [|split; [|split]]; [apply w_shock; cbn; lra|apply w_shock; cbn; lra|apply w_shock; cbn; lra|apply w_shock; cbn; lra]. Qed.
Lemma quad_3 : quad 3.
Proof. split; [|split; [|split]]; [apply w_shock; cbn; lra|apply w_shock; cbn; lra|apply w_shock; cbn; lra|apply w_shock; cbn; lra]. Qed.
Lemma quad_4 : quad 4.
Proof. split; [|split; [|split]]; [apply w_contact; cbn; lra|apply w_contact; cbn; lra|apply w_contact; cbn; lra|apply w_contact; cbn; lra]. Qed.
Lemma quad_6 : quad 6.
Proof. split; [|split; [|split]]; [apply (w_rare _ _ (25951 / 25000) (20761 / 20000) (118321 / 100000) (59161 / 50000)); cbn; lra|apply w_contact; cbn; lra|apply w_contact; cbn; lra|apply (w_rare _ _ (25951 / 25000) (20761 / 20000) (118321 / 100000) (59161 / 50000)); cbn; lra]. Qed.
Lemma quad_7 : quad 7.
Proof. split; [|split; [|split]]; [apply (w_rare _ _ (118321 / 100000) (59161 / 50000) (25951 / 25000) (20761 / 20000)); cbn; lra|apply w_contact; cbn; lra|apply w_contact; cbn; lra|apply (w_rare _ _ (118321 / 100000) (59161 / 50000) (25951 / 25000) (20761 / 20000)); cbn; lra]. Qed.
Lemma quad_8 : quad 8.
Proof. split; [|split; [|split]]; [apply w_contact; cbn; lra|apply w_contact; cbn; lra|apply (w_rare _ _ (14683 / 20000) (9177 / 12500) (41833 / 50000) (83667 / 100000)); cbn; lra|apply (w_rare _ _ (25951 / 25000) (20761 / 20000) (118321 / 100000) (59161 / 50000)); cbn; lra]. Qed.
Lemma quad_10 : quad 10.
Proof. split; [|split; [|split]]; [apply w_shock; cbn; lra|apply w_contact; cbn; lra|apply w_contact; cbn; lra|apply w_shock; cbn; lra]. Qed.
Lemma quad_11 : quad 11.
Proof. split; [|split; [|split]]; [apply w_shock; cbn; lra|apply w_contact; cbn; lra|apply w_contact; cbn; lra|apply w_shock; cbn; lra]. Qed.
Lemma quad_12 : quad 12.
Proof. split; [|split; [|split]]; [apply w_contact; cbn; lra|apply w_contact; cbn; lra|apply w_shock; cbn; lra|apply w_shock; cbn; lra]. Qed.
Lemma quad_13 : quad 13.
Proof. split; [|split; [|split]]; [apply w_contact; cbn; lra|apply w_contact; cbn; lra|apply w_shock; cbn; lra|apply w_shock; cbn; lra]. Qed.
Lemma quad_14 : quad 14.
Proof. split; [|split; [|split]]; [apply (w_rare _ _ (25951 / 25000) (20761 / 20000) (118321 / 100000) (59161 / 50000)); cbn; lra|apply w_contact; cbn; lra|apply w_contact; cbn; lra|apply w_shock; cbn; lra]. Qed.
Lemma quad_15 : quad 15.
Proof. split; [|split; [|split]]; [apply (w_rare _ _ (117029 / 100000) (11703 / 10000) (20533 / 20000) (51333 / 50000)); cbn; lra|apply w_contact; cbn; lra|apply w_contact; cbn; lra|apply w_shock; cbn; lra]. Qed.
Lemma quad_16 : quad 16.
Proof. split; [|split; [|split]]; [apply w_contact; cbn; lra|apply w_contact; cbn; lra|apply w_shock; cbn; lra|apply (w_rare _ _ (25951 / 25000) (20761 / 20000) (118321 / 100000) (59161 / 50000)); cbn; lra]. Qed.
Lemma quad_17 : quad 17.
Proof. split; [|split; [|split]]; [apply w_contact; cbn; lra|apply w_contact; cbn; lra|apply w_shock; cbn; lra|apply (w_rare _ _ (25951 / 25000) (20761 / 20000) (118321 / 100000) (59161 / 50000)); cbn; lra]. Qed.
Lemma quad_18 : quad 18.
Proof. split; [|split; [|split]]; [apply w_contact; cbn; lra|apply w_contact; cbn; lra|apply w_shock; cbn; lra|apply (w_rare _ _ (25951 / 25000) (20761 / 20000) (118321 / 100000) (59161 / 50000)); cbn; lra]. Qed.

Theorem C78_single_waves : forall n, (0 <= n <= 18)%Z -> n <> 5%Z -> n <> 9%Z -> four_waves (riemann_config n).
Proof.
  intros n Hn H5 H9.
  assert (H : (n = 0 \/ n = 1 \/ n = 2 \/ n = 3 \/ n = 4 \/ n = 6 \/ n = 7 \/ n = 8 \/ n = 10 \/ n = 11 \/ n = 12 \/ n = 13
               \/ n = 14 \/ n = 15 \/ n = 16 \/ n = 17 \/ n = 18)%Z) by lia.
  repeat destruct H as [->|H]; [apply quad_0|apply quad_1|apply quad_2|apply quad_3|apply quad_4|apply quad_6|apply quad_7|apply quad_8
    |apply quad_10|apply quad_11|apply quad_12|apply quad_13|apply quad_14|apply quad_15|apply quad_16|apply quad_17|subst; apply quad_18].
Qed.
Print Assumptions C78_single_waves.

(** Finding: configuration number 5 (in the literature: configuration 6) has a pressure of 1/2 in the
    upper left quadrant, and no single wave at its sides. *)
Theorem C78_config5_refuted : ~ four_waves (riemann_config 5).
Proof.
  intros (H & _). destruct H as [[_ H]|[(_ & H & _)|(_ & H & _)]].
  - unfold near, digits in H. cbn in H. apply abs_between in H. lra.
  - cbn in H. lra.
  - unfold near, digits, csound, sound_speed, gamma_air in H. cbn [hU hP hD riemann_config Z.eqb Pos.eqb] in H. cbn -[IZR sqrt] in H.
    assert (S1 := sqrt_between (7 / 5 * 1 / 1) 1 2 ltac:(lra) ltac:(lra) ltac:(lra) ltac:(lra)).
    assert (S2 := sqrt_between (7 / 5 * (5 / 10) / 2) 0 (3 / 5) ltac:(lra) ltac:(lra) ltac:(lra) ltac:(lra)).
    rewrite (Rabs_right (sqrt _ - sqrt _)) in H by lra. apply abs_between in H. lra.
Qed.
Print Assumptions C78_config5_refuted.
(** Finding: configuration number 9 (configuration 10) has the velocity -0.4259 instead of -0.4297 in
    the lower right quadrant. *)
Theorem C78_config9_refuted : ~ four_waves (riemann_config 9).
Proof.
  intros (_ & _ & _ & H). destruct H as [[H _]|[(_ & H & _)|(_ & H & _)]].
  - unfold near, digits in H. cbn in H. apply abs_between in H. lra.
  - cbn in H. lra.
  - unfold near, digits, csound, sound_speed, gamma_air in H. cbn -[IZR sqrt] in H.
    assert (S1 := sqrt_between (7 / 5 * 1 / 1) (11832 / 10000) (11833 / 10000) ltac:(lra) ltac:(lra) ltac:(lra) ltac:(lra)).
    assert (S2 := sqrt_between (7 / 5 * (3333 / 10000) / (4562 / 10000)) (10113 / 10000) (10114 / 10000) ltac:(lra) ltac:(lra) ltac:(lra) ltac:(lra)).
    rewrite (Rabs_right (sqrt _ - sqrt _)) in H by lra. apply abs_between in H. lra.
Qed.
Print Assumptions C78_config9_refuted.

(** The initial state of the problem holds the tabulated states: with C76_state, the state at each
    cell is that of the quadrant the cell centre is in. *)
Theorem C78_quadrants_stored : forall g h bx n xt yt s s' i j,
  1 < gamma0 h -> run_kernels (init_hydro RHLibm false g h bx (HFourQuadrant n xt yt)) s s' -> in_array false g i j 0 ->
  let P := position g h bx i j 0 in
  exists q, held false s' i j 0 = conservative (gamma0 h) q /\
    let '(q0, q1, q2, q3) := riemann_config n in
    (xt <= px P -> yt <= py P -> q = q0) /\ (px P < xt -> yt <= py P -> q = q1) /\
    (px P < xt -> py P < yt -> q = q2) /\ (xt <= px P -> py P < yt -> q = q3).
Proof.
  intros g h bx n xt yt s s' i j Hg Hrun Hin P.
  destruct (C76_state false g h bx (HFourQuadrant n xt yt) s s' i j 0 Hg eq_refl I Hrun Hin) as (q & Hq & E).
  exists q. split; [exact E|]. unfold prescribed in Hq. fold P in Hq. destruct (riemann_config n) as [[[q0 q1] q2] q3].
  destruct Hq as [(H1 & H2 & ->)|[(H1 & H2 & ->)|[(H1 & H2 & ->)|(H1 & H2 & ->)]]];
    repeat split; intros; try reflexivity; exfalso; lra.
Qed.
Print Assumptions C78_quadrants_stored.
Example C78_case : exists s', run_kernels (init_hydro RHLibm false egrid epar ebox (HFourQuadrant 3 (1/2) (1/2))) (fun _ => 0) s' /\ in_array false egrid 3 4 0.
Proof. destruct (run_exists RHLibm false egrid epar ebox (HFourQuadrant 3 (1/2) (1/2)) (fun _ => 0)) as [s' H]. exists s'. split; [exact H|exact ein2]. Qed.
