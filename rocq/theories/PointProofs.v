(** Limiter, primitive conversion, gravity source: proofs over the reals. *)
From Coq Require Import ZArith Reals Lra Psatz.
From Verif Require Import Arith GridModel HydroState HydroPoint Physics.
Open Scope R_scope.

Ltac ar := cbn [zero one two half lit add sub mul div opp sqr copysign1 absv minv maxv ltb leb eqb RArith] in *.

Lemma slope1_limited p q qp qm : slope_type p = 1 \/ slope_type p = 2 ->
  limited (slope_type p) q qp qm (slope1 p q qp qm) /\ faces_between q qp qm (slope1 p q qp qm).
Proof.
  intros Ht. unfold slope1. ar. set (t := slope_type p) in *.
  set (a := q - qm) in *. set (b := qp - q).
  replace (/ 2 * (qp - qm)) with ((a + b) / 2) by (unfold a, b; lra).
  assert (T1 : 1 <= t <= 2) by (destruct Ht; lra).
  assert (E : t * a * (t * b) = t * t * (a * b)) by lra.
  assert (K : forall s, ((a * b <= 0 -> s = 0) /\ 0 <= s * a /\ 0 <= s * b /\
     Rabs s <= t * Rabs a /\ Rabs s <= t * Rabs b /\ Rabs s <= Rabs ((a + b) / 2)) ->
     limited t q qp qm s /\ faces_between q qp qm s).
  { intros s (H1 & H2 & H3 & H4 & H5 & H6). split.
    - unfold limited. fold a b. replace ((qp - qm) / 2) with ((a + b) / 2) by (unfold a, b; lra). auto 10.
    - unfold faces_between. replace qp with (q + b) by (unfold b; lra). replace qm with (q - a) by (unfold a; lra).
      clearbody a b t. clear - H1 H2 H3 H4 H5 T1. revert H4 H5. unfold Rabs, Rmin, Rmax.
      repeat destruct Rcase_abs; repeat destruct Rle_dec; try nra. }
  apply K.
  destruct (Rle_dec (t * a * (t * b)) 0) as [H|H].
  - replace (Rmin 0 (Rabs ((a + b) / 2))) with 0.
    2:{ symmetry. apply Rmin_left, Rabs_pos. }
    rewrite Rmult_0_r, !Rmult_0_l, Rabs_R0. repeat split; try lra; try apply Rabs_pos;
    apply Rmult_le_pos; try apply Rabs_pos; lra.
  - assert (AB : 0 < a * b) by nra.
    assert (S : (0 < a /\ 0 < b) \/ (a < 0 /\ b < 0)).
    { destruct (Rlt_le_dec 0 a).
      - left. split; auto. nra.
      - right. assert (a <> 0) by nra. assert (a < 0) by lra. split; auto. nra. }
    set (s := (if (if Rle_dec 0 ((a + b) / 2) then true else false) then 1 else - (1)) *
       Rmin (Rmin (Rabs (t * a)) (Rabs (t * b))) (Rabs ((a + b) / 2))).
    assert (M : 0 <= Rmin (Rmin (Rabs (t * a)) (Rabs (t * b))) (Rabs ((a + b) / 2))
       /\ Rmin (Rmin (Rabs (t * a)) (Rabs (t * b))) (Rabs ((a + b) / 2)) <= Rabs (t * a)
       /\ Rmin (Rmin (Rabs (t * a)) (Rabs (t * b))) (Rabs ((a + b) / 2)) <= Rabs (t * b)
       /\ Rmin (Rmin (Rabs (t * a)) (Rabs (t * b))) (Rabs ((a + b) / 2)) <= Rabs ((a + b) / 2)).
    { pose proof (Rabs_pos (t * a)). pose proof (Rabs_pos (t * b)). pose proof (Rabs_pos ((a + b) / 2)).
      unfold Rmin. repeat destruct Rle_dec; lra. }
    destruct M as (M0 & M1 & M2 & M3). unfold s. set (m := Rmin _ _) in *. clearbody m. clear s K H E.
    rewrite !Rabs_mult in M1, M2. rewrite (Rabs_right t) in M1, M2 by lra.
    destruct S as [[Sa Sb]|[Sa Sb]].
    + destruct (Rle_dec 0 ((a + b) / 2)); [|exfalso; lra].
      rewrite Rmult_1_l, (Rabs_right m) by lra. repeat split; try nra.
    + destruct (Rle_dec 0 ((a + b) / 2)); [exfalso; lra|].
      rewrite (Rabs_left1 (- (1) * m)) by lra. replace (- (- (1) * m)) with m by lra. repeat split; try nra.
Qed.

(** Primitive conversion. *)
Lemma prim2_floors p (u : hs R) : smallr p <= hD (snd (computePrimitives2 p u)) /\
  hD (snd (computePrimitives2 p u)) * smallp p <= hP (snd (computePrimitives2 p u)).
Proof. unfold computePrimitives2. cbn [fst snd hD hP]. ar. split; apply Rmax_r. Qed.
Lemma prim3_floors p (u : hs R) : smallr p <= hD (snd (computePrimitives3 p u)) /\
  hD (snd (computePrimitives3 p u)) * smallp p <= hP (snd (computePrimitives3 p u)).
Proof. unfold computePrimitives3. cbn [fst snd hD hP]. ar. split; apply Rmax_r. Qed.

Lemma params_pos p q : params_ok p -> admissible p q -> 0 < hD q /\ 0 < hP q.
Proof. intros (H1 & H2 & H3 & H4) [A1 A2]. assert (0 < hD q) by lra. split; auto. nra. Qed.

Lemma prim2_round p q : params_ok p -> admissible p q -> planar q ->
  computePrimitives2 p (conservative (gamma0 p) q) = (sound_speed (gamma0 p) q, q).
Proof.
  intros Hp Ha Hw. destruct (params_pos p q Hp Ha) as [D P].
  destruct Hp as (H1 & H2 & H3 & H4). destruct Ha as [A1 A2]. destruct q as [d pr ux uy uz]. unfold planar in Hw. cbn [hD hP hU hV hW] in *. subst uz.
  unfold computePrimitives2, conservative, total_energy, sound_speed. cbn [hD hP hU hV hW]. ar.
  rewrite (Rmax_left d (smallr p)) by lra.
  replace (d * ux / d) with ux by (field; lra). replace (d * uy / d) with uy by (field; lra).
  assert (E : (gamma0 p - 1) * d * ((pr / (gamma0 p - 1) + d * (ux * ux + uy * uy + 0 * 0) / 2) / d - / 2 * (ux * ux + uy * uy)) = pr).
  { field. lra. }
  rewrite E. rewrite (Rmax_left pr) by lra. reflexivity.
Qed.
Lemma prim3_round p q : params_ok p -> admissible p q ->
  computePrimitives3 p (conservative (gamma0 p) q) = (sound_speed (gamma0 p) q, q).
Proof.
  intros Hp Ha. destruct (params_pos p q Hp Ha) as [D P].
  destruct Hp as (H1 & H2 & H3 & H4). destruct Ha as [A1 A2]. destruct q as [d pr ux uy uz]. cbn [hD hP hU hV hW] in *.
  unfold computePrimitives3, conservative, total_energy, sound_speed. cbn [hD hP hU hV hW]. ar.
  rewrite (Rmax_left d (smallr p)) by lra.
  replace (d * ux / d) with ux by (field; lra). replace (d * uy / d) with uy by (field; lra).
  replace (d * uz / d) with uz by (field; lra).
  assert (E : (gamma0 p - 1) * d * ((pr / (gamma0 p - 1) + d * (ux * ux + uy * uy + uz * uz) / 2) / d - / 2 * (ux * ux + uy * uy + uz * uz)) = pr).
  { field. lra. }
  rewrite E. rewrite (Rmax_left pr) by lra. reflexivity.
Qed.

Lemma prim_c2 p u : fst (computePrimitives2 p u) = sound_speed (gamma0 p) (snd (computePrimitives2 p u)).
Proof. reflexivity. Qed.
Lemma prim_c3 p u : fst (computePrimitives3 p u) = sound_speed (gamma0 p) (snd (computePrimitives3 p u)).
Proof. reflexivity. Qed.

(** Conversely, where no floor is active the conversion loses nothing. *)
Lemma prim2_inverse p u : params_ok p -> hW u = 0 ->
  smallr p <= hD u ->
  hD u * smallp p <= (gamma0 p - 1) * (hP u - (hU u * hU u + hV u * hV u) / (2 * hD u)) ->
  conservative (gamma0 p) (snd (computePrimitives2 p u)) = u.
Proof.
  intros (H1 & H2 & H3 & H4) Hw A1 A2. destruct u as [d e mx my mz]. cbn [hD hP hU hV hW] in *. subst mz.
  unfold computePrimitives2, conservative, total_energy. cbn [snd hD hP hU hV hW]. ar.
  rewrite (Rmax_left d (smallr p)) by lra. rewrite Rmax_left.
  - f_equal; field; lra.
  - eapply Rle_trans; [exact A2|]. right. field. lra.
Qed.
Lemma prim3_inverse p u : params_ok p ->
  smallr p <= hD u ->
  hD u * smallp p <= (gamma0 p - 1) * (hP u - (hU u * hU u + hV u * hV u + hW u * hW u) / (2 * hD u)) ->
  conservative (gamma0 p) (snd (computePrimitives3 p u)) = u.
Proof.
  intros (H1 & H2 & H3 & H4) A1 A2. destruct u as [d e mx my mz]. cbn [hD hP hU hV hW] in *.
  unfold computePrimitives3, conservative, total_energy. cbn [snd hD hP hU hV hW]. ar.
  rewrite (Rmax_left d (smallr p)) by lra. rewrite Rmax_left.
  - f_equal; field; lra.
  - eapply Rle_trans; [exact A2|]. right. field. lra.
Qed.

(** Gravity source of one cell. *)

Lemma gravity2_energy p dt rho (u : hs R) gx gy : 0 < smallr p -> smallr p <= hD u ->
  let u' := gravity_source2 p dt rho u gx gy in
  hD u' = hD u /\
  hU u' = hU u + dt * gx * ((rho + hD u) / 2) /\
  hV u' = hV u + dt * gy * ((rho + hD u) / 2) /\
  hP u' - kinetic2 (hD u') (hU u') (hV u') = hP u - kinetic2 (hD u) (hU u) (hV u).
Proof.
  intros H1 H2. unfold gravity_source2, kinetic2. cbn [hD hP hU hV hW]. ar. rewrite (Rmax_right (smallr p)) by lra.
  repeat split; try (field; lra); field; lra.
Qed.
Lemma gravity3_energy dt rho (u : hs R) gx gy gz : hD u <> 0 ->
  let u' := gravity_source3 dt rho u gx gy gz in
  hD u' = hD u /\
  hU u' = hU u + dt * gx * ((rho + hD u) / 2) /\
  hV u' = hV u + dt * gy * ((rho + hD u) / 2) /\
  hW u' = hW u + dt * gz * ((rho + hD u) / 2) /\
  hP u' - kinetic3 (hD u') (hU u') (hV u') (hW u') = hP u - kinetic3 (hD u) (hU u) (hV u) (hW u).
Proof.
  intros H1. unfold gravity_source3, kinetic3. cbn [hD hP hU hV hW]. ar.
  repeat split; try (field; lra); field; lra.
Qed.

(** Slopes of whole states. *)
Lemma Reqb x y : (if Req_EM_T x y then true else false) = true <-> x = y.
Proof. destruct (Req_EM_T x y); split; congruence. Qed.
Lemma slopes_limited2 p q qPX qMX qPY qMY jx jy : slope_type p = 1 \/ slope_type p = 2 ->
  let sl := slope_unsplit_hydro_2d p q qPX qMX qPY qMY jx jy in
  forall c, c = hD \/ c = hP \/ c = hU \/ c = hV ->
  (limited (slope_type p) (c q) (c qPX) (c qMX) (c (fst sl)) /\ faces_between (c q) (c qPX) (c qMX) (c (fst sl))) /\
  (limited (slope_type p) (c q) (c qPY) (c qMY) (c (snd sl)) /\ faces_between (c q) (c qPY) (c qMY) (c (snd sl))).
Proof.
  intros Ht sl c Hc.
  assert (E : sl = (slope_dir2 p q qPX qMX, slope_dir2 p q qPY qMY)).
  { unfold sl, slope_unsplit_hydro_2d. ar.
    destruct (Req_EM_T (slope_type p) 0); [destruct Ht; lra|].
    destruct (Req_EM_T (slope_type p) 1), (Req_EM_T (slope_type p) 2); cbn [orb]; try reflexivity. exfalso. destruct Ht; lra. }
  rewrite E. cbn [fst snd].
  destruct Hc as [->|[->|[->| ->]]]; cbn [slope_dir2 hD hP hU hV]; split; apply slope1_limited; auto.
Qed.
Lemma slopes_limited3 p q qPX qMX qPY qMY qPZ qMZ jx jy jz : slope_type p = 1 \/ slope_type p = 2 ->
  let sl := slope_unsplit_hydro_3d p q qPX qMX qPY qMY qPZ qMZ jx jy jz in
  forall c, c = hD \/ c = hP \/ c = hU \/ c = hV \/ c = hW ->
  (limited (slope_type p) (c q) (c qPX) (c qMX) (c (fst (fst sl))) /\ faces_between (c q) (c qPX) (c qMX) (c (fst (fst sl)))) /\
  (limited (slope_type p) (c q) (c qPY) (c qMY) (c (snd (fst sl))) /\ faces_between (c q) (c qPY) (c qMY) (c (snd (fst sl)))) /\
  (limited (slope_type p) (c q) (c qPZ) (c qMZ) (c (snd sl)) /\ faces_between (c q) (c qPZ) (c qMZ) (c (snd sl))).
Proof.
  intros Ht sl c Hc.
  assert (E : sl = (slope_dir3 p q qPX qMX, slope_dir3 p q qPY qMY, slope_dir3 p q qPZ qMZ)).
  { unfold sl, slope_unsplit_hydro_3d. ar.
    destruct (Req_EM_T (slope_type p) 0); [destruct Ht; lra|].
    destruct (Req_EM_T (slope_type p) 1), (Req_EM_T (slope_type p) 2); cbn [orb]; try reflexivity. exfalso. destruct Ht; lra. }
  rewrite E. cbn [fst snd].
  destruct Hc as [->|[->|[->|[->| ->]]]]; cbn [slope_dir3 hD hP hU hV hW]; repeat split; apply slope1_limited; auto.
Qed.
Lemma slope0_2 {T} {A : Arith T} p (q a b c d jx jy : hs T) : eqb (slope_type p) zero = true ->
  slope_unsplit_hydro_2d p q a b c d jx jy = (zero_state, zero_state).
Proof. intros H. unfold slope_unsplit_hydro_2d. rewrite H. reflexivity. Qed.
