(** Proofs about the time step. *)
From Coq Require Import ZArith List Bool Reals Permutation Lia Lra Psatz.
From Verif Require Import Arith Par ParProofs GridModel HydroState HydroPoint HydroKernels HydroField HydroSpec HydroProofs2 HydroStep2
  HydroProofs3 HydroStep3 ReduceModel Physics PointProofs.
Import ListNotations.
Open Scope R_scope.

Section Max.
Context {I : Type}.
Variable lowest : R.
Variable step : I -> R -> R.
Variable f : I -> option R.
Hypothesis step_max : forall x acc, step x acc = match f x with Some y => Rmax acc y | None => acc end.

Lemma partial_max l r : partial lowest step Rmax l r ->
  lowest <= r /\ (forall x y, In x l -> f x = Some y -> y <= r) /\
  (r = lowest \/ exists x, In x l /\ f x = Some r).
Proof.
  induction 1 as [|l acc x Hp IH|l1 l2 a b Hp1 IH1 Hp2 IH2].
  - split; [lra|]. split; [intros x y []|auto].
  - destruct IH as (I0 & I1 & I2). rewrite step_max. destruct (f x) as [y|] eqn:E.
    + split; [eapply Rle_trans; [exact I0|apply Rmax_l]|]. split.
      * intros x' y' [->|Hx] Hy; [assert (y' = y) by congruence; subst; apply Rmax_r|].
        eapply Rle_trans; [eapply I1; eauto|apply Rmax_l].
      * unfold Rmax. destruct (Rle_dec acc y); [right; exists x; cbn; auto|].
        destruct I2 as [->|(x' & Hx' & Hf)]; [auto|right; exists x'; cbn; auto].
    + split; auto. split.
      * intros x' y' [->|Hx] Hy; [congruence|eauto].
      * destruct I2 as [->|(x' & Hx' & Hf)]; [auto|right; exists x'; cbn; auto].
  - destruct IH1 as (A0 & A1 & A2), IH2 as (B0 & B1 & B2).
    split; [eapply Rle_trans; [exact A0|apply Rmax_l]|]. split.
    + intros x y Hx Hy. apply in_app_or in Hx. destruct Hx as [Hx|Hx].
      * eapply Rle_trans; [eapply A1; eauto|apply Rmax_l].
      * eapply Rle_trans; [eapply B1; eauto|apply Rmax_r].
    + unfold Rmax. destruct (Rle_dec a b).
      * destruct B2 as [->|(x & Hx & Hf)]; [auto|right; exists x; split; auto; apply in_or_app; auto].
      * destruct A2 as [->|(x & Hx & Hf)]; [auto|right; exists x; split; auto; apply in_or_app; auto].
Qed.

Lemma reduces_max items r : reduces lowest step Rmax items r ->
  (exists x y, In x items /\ f x = Some y /\ lowest <= y) ->
  (forall x y, In x items -> f x = Some y -> y <= r) /\ (exists x, In x items /\ f x = Some r).
Proof.
  intros (l & Hl & Hp) (x & y & Hx & Hf & Hy). destruct (partial_max l r Hp) as (P0 & P1 & P2).
  assert (HP : forall x, In x l <-> In x items).
  { intros z. split; apply Permutation_in; auto using Permutation_sym. }
  split.
  - intros x' y' Hx' Hf'. eapply P1; eauto. apply HP; auto.
  - destruct P2 as [->|(x' & Hx' & Hf')].
    + exists x. split; auto. rewrite Hf. f_equal. apply Rle_antisym; auto. eapply P1; eauto. apply HP; auto.
    + exists x'. split; auto. apply HP; auto.
Qed.
End Max.

(** Sum of the wave speeds over the mesh sizes. *)
Lemma sound_pos p q : params_ok p -> admissible p q -> 0 < sound_speed (gamma0 p) q.
Proof.
  intros Hp Ha. destruct (params_pos p q Hp Ha). destruct Hp as (H1 & _). unfold sound_speed. apply R_sqrt.sqrt_lt_R0.
  apply Rdiv_lt_0_compat; auto. nra.
Qed.

Section Dt.
Variable p : hparams R.
Variable g : grid.
Variable lowest : R.
Hypothesis Hp : params_ok p.
Hypothesis Hdx : 0 < dx p.
Hypothesis Hdy : 0 < dy p.
Hypothesis Hdz : 0 < dz p.
Hypothesis Hcfl : 0 < cfl p.
Hypothesis Hlow : lowest <= 0.

Lemma adm2 u : admissible p (snd (computePrimitives2 p u)).
Proof. destruct (prim2_floors p u). split; auto. Qed.
Lemma adm3 u : admissible p (snd (computePrimitives3 p u)).
Proof. destruct (prim3_floors p u). split; auto. Qed.

Definition rate2 (u : hs R) : R := signal_rate2 p (snd (computePrimitives2 p u)).
Definition rate3 (u : hs R) : R := signal_rate3 p (snd (computePrimitives3 p u)).
Lemma rate2_pos u : 0 < rate2 u.
Proof.
  clear Hcfl Hlow Hdz. unfold rate2, signal_rate2. set (q := snd _). pose proof (sound_pos p q Hp (adm2 u)).
  pose proof (Rabs_pos (hU q)). pose proof (Rabs_pos (hV q)).
  apply Rplus_lt_0_compat; apply Rdiv_lt_0_compat; lra.
Qed.
Lemma rate3_pos u : 0 < rate3 u.
Proof.
  clear Hcfl Hlow. unfold rate3, signal_rate3. set (q := snd _). pose proof (sound_pos p q Hp (adm3 u)).
  pose proof (Rabs_pos (hU q)). pose proof (Rabs_pos (hV q)). pose proof (Rabs_pos (hW q)).
  repeat apply Rplus_lt_0_compat; apply Rdiv_lt_0_compat; lra.
Qed.
Lemma invdt2 u : invdt_cell2 p u = rate2 u. Proof. reflexivity. Qed.
Lemma invdt3 u : invdt_cell3 p u = rate3 u. Proof. reflexivity. Qed.

Lemma cells2_in i j : inside2 g i j -> (0 <= gw g)%Z -> In (i, j, 0%Z) (cells2 g) /\ interior2 g i j = true.
Proof.
  clear. intros H Hg. split; [|apply interior2_inside; auto]. apply in2; unfold inside2, isize, jsize, imax, imin, jmax, jmin in *; lia.
Qed.
Lemma cells3_in i j k : inside3 g i j k -> (0 <= gw g)%Z -> In (i, j, k) (cells3 g) /\ interior3 g i j k = true.
Proof.
  clear. intros H Hg. split; [|apply interior3_inside; auto].
  apply in3; unfold inside3, isize, jsize, ksize, imax, imin, jmax, jmin, kmax, kmin in *; lia.
Qed.
Lemma cells2_k c : In c (cells2 g) -> exists i j, c = (i, j, 0%Z).
Proof.
  clear. intros H. destruct c as [[i j] k]. unfold cells2 in H. apply in_prod_iff in H. destruct H as [_ [<-|[]]]. eauto.
Qed.

Theorem dt_cfl2 (s : store R) a dt : hydro_grid2 g ->
  compute_dt_local2 p g lowest false s a dt ->
  0 < dt /\
  (forall i j, inside2 g i j -> dt * rate2 (load_hs2 s a i j) <= cfl p) /\
  (exists i j, inside2 g i j /\ dt * rate2 (load_hs2 s a i j) = cfl p).
Proof.
  intros (G1 & G2 & G3 & G4) (r & Hr & ->). cbn [div RArith] in *.
  pose (f := fun c : Z * Z * Z => let '(i, j, _) := c in if interior2 g i j then Some (rate2 (load_hs2 s a i j)) else None).
  destruct (reduces_max lowest (dt_body2 p g false s a) f) with (items := cells2 g) (r := r) as [M1 M2]; auto.
  - intros [[i j] k] acc. unfold dt_body2, f. cbv zeta. destruct (interior2 g i j); reflexivity.
  - assert (Hin : inside2 g 2 2) by (unfold inside2; lia). destruct (cells2_in 2 2 Hin ltac:(lia)) as [C1 C2].
    exists (2, 2, 0)%Z, (rate2 (load_hs2 s a 2 2)). split; auto. unfold f. rewrite C2. split; auto.
    pose proof (rate2_pos (load_hs2 s a 2 2)). lra.
  - destruct M2 as (c & Hc & Hf). destruct (cells2_k c Hc) as (i0 & j0 & ->). unfold f in Hf.
    destruct (interior2 g i0 j0) eqn:E; [|discriminate]. injection Hf as Hf.
    pose proof (rate2_pos (load_hs2 s a i0 j0)) as P0. rewrite Hf in P0.
    assert (P : 0 < cfl p / r) by (apply Rdiv_lt_0_compat; auto). split; auto. split.
    + intros i j Hi. destruct (cells2_in i j Hi ltac:(lia)) as [C1 C2].
      assert (L : rate2 (load_hs2 s a i j) <= r) by (apply (M1 (i, j, 0%Z)); auto; unfold f; rewrite C2; auto).
      replace (cfl p) with (cfl p / r * r) at 2 by (field; lra). apply Rmult_le_compat_l; lra.
    + exists i0, j0. split; [apply interior2_inside; auto|]. rewrite Hf. field. lra.
Qed.

Theorem dt_cfl3 (s : store R) a dt : hydro_grid3 g ->
  compute_dt_local3 p g lowest false s a dt ->
  0 < dt /\
  (forall i j k, inside3 g i j k -> dt * rate3 (load_hs3 s a i j k) <= cfl p) /\
  (exists i j k, inside3 g i j k /\ dt * rate3 (load_hs3 s a i j k) = cfl p).
Proof.
  intros (G1 & G2 & G3 & G4 & G5) (r & Hr & ->). cbn [div RArith] in *.
  pose (f := fun c : Z * Z * Z => let '(i, j, k) := c in if interior3 g i j k then Some (rate3 (load_hs3 s a i j k)) else None).
  destruct (reduces_max lowest (dt_body3 p g false s a) f) with (items := cells3 g) (r := r) as [M1 M2]; auto.
  - intros [[i j] k] acc. unfold dt_body3, f. cbv zeta. destruct (interior3 g i j k); reflexivity.
  - assert (Hin : inside3 g 2 2 2) by (unfold inside3; lia). destruct (cells3_in 2 2 2 Hin ltac:(lia)) as [C1 C2].
    exists (2, 2, 2)%Z, (rate3 (load_hs3 s a 2 2 2)). split; auto. unfold f. rewrite C2. split; auto.
    pose proof (rate3_pos (load_hs3 s a 2 2 2)). lra.
  - destruct M2 as ([[i0 j0] k0] & Hc & Hf). unfold f in Hf.
    destruct (interior3 g i0 j0 k0) eqn:E; [|discriminate]. injection Hf as Hf.
    pose proof (rate3_pos (load_hs3 s a i0 j0 k0)) as P0. rewrite Hf in P0.
    assert (P : 0 < cfl p / r) by (apply Rdiv_lt_0_compat; auto). split; auto. split.
    + intros i j k Hi. destruct (cells3_in i j k Hi ltac:(lia)) as [C1 C2].
      assert (L : rate3 (load_hs3 s a i j k) <= r) by (apply (M1 (i, j, k)); auto; unfold f; rewrite C2; auto).
      replace (cfl p) with (cfl p / r * r) at 2 by (field; lra). apply Rmult_le_compat_l; lra.
    + exists i0, j0, k0. split; [apply interior3_inside; auto|]. rewrite Hf. field. lra.
Qed.

(** With gravity: g dt^2 / (2 d) + u dt / d <= cfl. *)
Lemma gravity_corrected_bound (u gs d r dt : R) : 0 < u -> 0 <= gs -> 0 < d ->
  gravity_corrected p u gs d <= r -> dt = cfl p / r ->
  0 < r /\ gs * (dt * dt) / (2 * d) + u * dt / d <= cfl p.
Proof.
  clear Hdx Hdy Hdz Hlow Hp. intros Hu Hg Hd Hr Hdt. unfold gravity_corrected in Hr. ar.
  set (k0 := gs * (cfl p * d / (u * u))) in *. set (k := Rmax k0 (1 / 10000)) in *.
  assert (Hk0 : k0 <= k) by apply Rmax_l. assert (Hk : 0 < k) by (pose proof (Rmax_r k0 (1/10000)); fold k in H; lra).
  clearbody k. set (sq := R_sqrt.sqrt (1 + 2 * k)) in *.
  assert (Hs2 : sq * sq = 1 + 2 * k) by (apply R_sqrt.sqrt_sqrt; lra).
  assert (Hs0 : 0 <= sq) by apply R_sqrt.sqrt_pos.
  assert (Hs1 : 1 < sq) by nra. clearbody sq.
  assert (E : u * (k / (sq - 1)) / d = u * (sq + 1) / (2 * d)).
  { apply Rmult_eq_reg_r with (2 * d * (sq - 1)); [|nra]. field_simplify; [nra| lra..]. }
  rewrite E in Hr.
  assert (V : 0 < u * (sq + 1) / (2 * d)) by (apply Rdiv_lt_0_compat; nra).
  assert (Pr : 0 < r) by lra. split; auto.
  set (x := u * dt / d).
  assert (X : x * (sq + 1) <= 2 * cfl p).
  { unfold x. rewrite Hdt. replace (u * (cfl p / r) / d * (sq + 1)) with (cfl p / r * (2 * (u * (sq + 1) / (2 * d)))) by (field; lra).
    replace (2 * cfl p) with (cfl p / r * (2 * r)) by (field; lra).
    apply Rmult_le_compat_l; [apply Rlt_le, Rdiv_lt_0_compat; lra|lra]. }
  assert (Pdt : 0 < dt) by (rewrite Hdt; apply Rdiv_lt_0_compat; auto).
  assert (Px : 0 < x) by (unfold x; apply Rdiv_lt_0_compat; nra).
  assert (Gk : gs * (dt * dt) / (2 * d) = k0 * (x * x) / (2 * cfl p)).
  { unfold k0, x. field. lra. }
  rewrite Gk. 
  assert (L : k0 * (x * x) / (2 * cfl p) <= k * (x * x) / (2 * cfl p)).
  { unfold Rdiv. apply Rmult_le_compat_r; [apply Rlt_le, Rinv_0_lt_compat; lra|]. nra. }
  assert (L2 : k * (x * x) / (2 * cfl p) + x <= cfl p).
  { apply Rmult_le_reg_r with (2 * cfl p); [lra|].
    replace ((k * (x * x) / (2 * cfl p) + x) * (2 * cfl p)) with (k * (x * x) + 2 * cfl p * x) by (field; lra).
    replace k with ((sq * sq - 1) / 2) by lra.
    set (y := x * (sq + 1)) in *. set (z := x * (sq - 1)).
    replace ((sq * sq - 1) / 2 * (x * x)) with (y * z / 2) by (unfold y, z; field).
    replace x with ((y - z) / 2) by (unfold y, z; field).
    assert (0 <= z) by (unfold z; nra). assert (z <= y) by (unfold z, y; nra). nra. }
  lra.
Qed.

Definition wave2 (u : hs R) : R := signal_sum2 p (snd (computePrimitives2 p u)).
Definition wave3 (u : hs R) : R := signal_sum3 p (snd (computePrimitives3 p u)).
Lemma wave2_pos u : 0 < wave2 u.
Proof.
  clear - Hp. unfold wave2, signal_sum2. set (q := snd _). pose proof (sound_pos p q Hp (adm2 u)).
  pose proof (Rabs_pos (hU q)). pose proof (Rabs_pos (hV q)). lra.
Qed.
Lemma wave3_pos u : 0 < wave3 u.
Proof.
  clear - Hp. unfold wave3, signal_sum3. set (q := snd _). pose proof (sound_pos p q Hp (adm3 u)).
  pose proof (Rabs_pos (hU q)). pose proof (Rabs_pos (hV q)). pose proof (Rabs_pos (hW q)). lra.
Qed.
Lemma invdtg2 u gx gy : invdt_cell_gravity2 p u gx gy = gravity_corrected p (wave2 u) (Rabs gx + Rabs gy) (Rmin (dx p) (dy p)).
Proof. clear. unfold invdt_cell_gravity2, wave2, signal_sum2. cbn [add sub mul div RArith computePrimitives2 fst snd]. ar. rewrite Rplus_0_l. reflexivity. Qed.
Lemma invdtg3 u gx gy gz : invdt_cell_gravity3 p u gx gy gz =
  gravity_corrected p (wave3 u) (Rabs gx + Rabs gy + Rabs gz) (Rmin (Rmin (dx p) (dy p)) (dz p)).
Proof. clear. unfold invdt_cell_gravity3, wave3, signal_sum3. cbn [add sub mul div RArith computePrimitives3 fst snd]. ar. rewrite Rplus_0_l. reflexivity. Qed.

Lemma gc_pos u gs d : 0 < u -> 0 < d -> 0 < gravity_corrected p u gs d.
Proof.
  clear. intros Hu Hd. unfold gravity_corrected. ar. set (k := Rmax _ _).
  assert (Hk : 0 < k) by (unfold k; pose proof (Rmax_r (gs * (cfl p * d / (u * u))) (1/10000)); lra).
  assert (Hs : 1 < R_sqrt.sqrt (1 + 2 * k)).
  { rewrite <- R_sqrt.sqrt_1 at 1. apply R_sqrt.sqrt_lt_1; lra. }
  apply Rdiv_lt_0_compat; auto. apply Rmult_lt_0_compat; auto. apply Rdiv_lt_0_compat; lra.
Qed.

Theorem dt_gravity2 (s : store R) a dt : hydro_grid2 g ->
  compute_dt_local2 p g lowest true s a dt ->
  0 < dt /\
  (forall i j, inside2 g i j ->
     (Rabs (s (Loc aG i j 0 IX)) + Rabs (s (Loc aG i j 0 IY))) * (dt * dt) / (2 * Rmin (dx p) (dy p))
     + wave2 (load_hs2 s a i j) * dt / Rmin (dx p) (dy p) <= cfl p).
Proof.
  intros (G1 & G2 & G3 & G4) (r & Hr & Hdt). cbn [div RArith] in *.
  assert (Hd : 0 < Rmin (dx p) (dy p)) by (unfold Rmin; destruct Rle_dec; lra).
  pose (F := fun i j => gravity_corrected p (wave2 (load_hs2 s a i j)) (Rabs (s (Loc aG i j 0 IX)) + Rabs (s (Loc aG i j 0 IY))) (Rmin (dx p) (dy p))).
  pose (f := fun c : Z * Z * Z => let '(i, j, _) := c in if interior2 g i j then Some (F i j) else None).
  destruct (reduces_max lowest (dt_body2 p g true s a) f) with (items := cells2 g) (r := r) as [M1 M2]; auto.
  - intros [[i j] k] acc. unfold dt_body2, f. cbv zeta. rewrite invdtg2. destruct (interior2 g i j); reflexivity.
  - assert (Hin : inside2 g 2 2) by (unfold inside2; lia). destruct (cells2_in 2 2 Hin ltac:(lia)) as [C1 C2].
    exists (2, 2, 0)%Z, (F 2%Z 2%Z). split; auto. unfold f. rewrite C2. split; auto.
    pose proof (gc_pos (wave2 (load_hs2 s a 2 2)) (Rabs (s (Loc aG 2 2 0 IX)) + Rabs (s (Loc aG 2 2 0 IY))) _ (wave2_pos _) Hd). unfold F. lra.
  - assert (B : forall i j, inside2 g i j -> 0 < r /\
     (Rabs (s (Loc aG i j 0 IX)) + Rabs (s (Loc aG i j 0 IY))) * (dt * dt) / (2 * Rmin (dx p) (dy p))
     + wave2 (load_hs2 s a i j) * dt / Rmin (dx p) (dy p) <= cfl p).
    { intros i j Hi. destruct (cells2_in i j Hi ltac:(lia)) as [C1 C2].
      apply (gravity_corrected_bound (wave2 (load_hs2 s a i j)) _ _ r dt); auto.
      - apply wave2_pos.
      - pose proof (Rabs_pos (s (Loc aG i j 0 IX))). pose proof (Rabs_pos (s (Loc aG i j 0 IY))). lra.
      - apply (M1 (i, j, 0%Z)); auto. unfold f. rewrite C2. reflexivity. }
    split; [|intros; apply B; auto]. destruct (B 2%Z 2%Z) as [P _]; [unfold inside2; lia|].
    rewrite Hdt. apply Rdiv_lt_0_compat; auto.
Qed.
Theorem dt_gravity3 (s : store R) a dt : hydro_grid3 g ->
  compute_dt_local3 p g lowest true s a dt ->
  0 < dt /\
  (forall i j k, inside3 g i j k ->
     (Rabs (s (Loc aG i j k IX)) + Rabs (s (Loc aG i j k IY)) + Rabs (s (Loc aG i j k IZ))) * (dt * dt)
       / (2 * Rmin (Rmin (dx p) (dy p)) (dz p))
     + wave3 (load_hs3 s a i j k) * dt / Rmin (Rmin (dx p) (dy p)) (dz p) <= cfl p).
Proof.
  intros (G1 & G2 & G3 & G4 & G5) (r & Hr & Hdt). cbn [div RArith] in *.
  assert (Hd : 0 < Rmin (Rmin (dx p) (dy p)) (dz p)) by (unfold Rmin; repeat destruct Rle_dec; lra).
  pose (F := fun i j k => gravity_corrected p (wave3 (load_hs3 s a i j k))
     (Rabs (s (Loc aG i j k IX)) + Rabs (s (Loc aG i j k IY)) + Rabs (s (Loc aG i j k IZ))) (Rmin (Rmin (dx p) (dy p)) (dz p))).
  pose (f := fun c : Z * Z * Z => let '(i, j, k) := c in if interior3 g i j k then Some (F i j k) else None).
  destruct (reduces_max lowest (dt_body3 p g true s a) f) with (items := cells3 g) (r := r) as [M1 M2]; auto.
  - intros [[i j] k] acc. unfold dt_body3, f. cbv zeta. rewrite invdtg3. destruct (interior3 g i j k); reflexivity.
  - assert (Hin : inside3 g 2 2 2) by (unfold inside3; lia). destruct (cells3_in 2 2 2 Hin ltac:(lia)) as [C1 C2].
    exists (2, 2, 2)%Z, (F 2 2 2)%Z. split; auto. unfold f. rewrite C2. split; auto.
    pose proof (gc_pos (wave3 (load_hs3 s a 2 2 2)) (Rabs (s (Loc aG 2 2 2 IX)) + Rabs (s (Loc aG 2 2 2 IY)) + Rabs (s (Loc aG 2 2 2 IZ))) _ (wave3_pos _) Hd). unfold F. lra.
  - assert (B : forall i j k, inside3 g i j k -> 0 < r /\
     (Rabs (s (Loc aG i j k IX)) + Rabs (s (Loc aG i j k IY)) + Rabs (s (Loc aG i j k IZ))) * (dt * dt)
       / (2 * Rmin (Rmin (dx p) (dy p)) (dz p))
     + wave3 (load_hs3 s a i j k) * dt / Rmin (Rmin (dx p) (dy p)) (dz p) <= cfl p).
    { intros i j k Hi. destruct (cells3_in i j k Hi ltac:(lia)) as [C1 C2].
      apply (gravity_corrected_bound (wave3 (load_hs3 s a i j k)) _ _ r dt); auto.
      - apply wave3_pos.
      - pose proof (Rabs_pos (s (Loc aG i j k IX))). pose proof (Rabs_pos (s (Loc aG i j k IY))). pose proof (Rabs_pos (s (Loc aG i j k IZ))). lra.
      - apply (M1 (i, j, k)); auto. unfold f. rewrite C2. reflexivity. }
    split; [|intros; apply B; auto]. destruct (B 2%Z 2%Z 2%Z) as [P _]; [unfold inside3; lia|].
    rewrite Hdt. apply Rdiv_lt_0_compat; auto.
Qed.
End Dt.

(** The result does not depend on how the reduction is scheduled. *)
Lemma reduces_unique {I} lowest (step : I -> R -> R) (f : I -> option R) items r r' :
  (forall x acc, step x acc = match f x with Some y => Rmax acc y | None => acc end) ->
  (exists x y, In x items /\ f x = Some y /\ lowest <= y) ->
  reduces lowest step Rmax items r -> reduces lowest step Rmax items r' -> r = r'.
Proof.
  intros Hs He H1 H2.
  destruct (reduces_max lowest step f Hs items r H1 He) as [A1 (x & X1 & X2)].
  destruct (reduces_max lowest step f Hs items r' H2 He) as [B1 (y & Y1 & Y2)].
  apply Rle_antisym; eauto.
Qed.

Lemma dt_det2 p g lowest ge (s : store R) a dt dt' : params_ok p -> 0 < dx p -> 0 < dy p -> lowest <= 0 -> hydro_grid2 g ->
  compute_dt_local2 p g lowest ge s a dt -> compute_dt_local2 p g lowest ge s a dt' -> dt = dt'.
Proof.
  intros Hp Hdx Hdy Hl (G1 & G2 & G3 & G4) (r & Hr & ->) (r' & Hr' & ->). f_equal.
  pose (val := fun i j => if ge then invdt_cell_gravity2 p (load_hs2 s a i j) (s (Loc aG i j 0 IX)) (s (Loc aG i j 0 IY))
    else invdt_cell2 p (load_hs2 s a i j)).
  pose (f := fun c : Z * Z * Z => let '(i, j, _) := c in if interior2 g i j then Some (val i j) else None).
  assert (Hin : inside2 g 2 2) by (unfold inside2; lia). destruct (cells2_in g 2 2 Hin ltac:(lia)) as [C1 C2].
  apply (reduces_unique lowest (dt_body2 p g ge s a) f (cells2 g)); auto.
  - intros [[i j] k] acc. unfold dt_body2, f. cbv zeta. destruct (interior2 g i j); reflexivity.
  - exists (2, 2, 0)%Z, (val 2 2)%Z. split; auto. unfold f. rewrite C2. split; auto. unfold val. destruct ge.
    + rewrite invdtg2. assert (0 < Rmin (dx p) (dy p)) by (unfold Rmin; destruct Rle_dec; lra).
      pose proof (gc_pos p (wave2 p (load_hs2 s a 2 2)) (Rabs (s (Loc aG 2 2 0 IX)) + Rabs (s (Loc aG 2 2 0 IY))) _ (wave2_pos p Hp _) H). lra.
    + rewrite invdt2. pose proof (rate2_pos p Hp Hdx Hdy (load_hs2 s a 2 2)). lra.
Qed.
Lemma dt_det3 p g lowest ge (s : store R) a dt dt' : params_ok p -> 0 < dx p -> 0 < dy p -> 0 < dz p -> lowest <= 0 -> hydro_grid3 g ->
  compute_dt_local3 p g lowest ge s a dt -> compute_dt_local3 p g lowest ge s a dt' -> dt = dt'.
Proof.
  intros Hp Hdx Hdy Hdz Hl (G1 & G2 & G3 & G4 & G5) (r & Hr & ->) (r' & Hr' & ->). f_equal.
  pose (val := fun i j k => if ge then invdt_cell_gravity3 p (load_hs3 s a i j k) (s (Loc aG i j k IX)) (s (Loc aG i j k IY)) (s (Loc aG i j k IZ))
    else invdt_cell3 p (load_hs3 s a i j k)).
  pose (f := fun c : Z * Z * Z => let '(i, j, k) := c in if interior3 g i j k then Some (val i j k) else None).
  assert (Hin : inside3 g 2 2 2) by (unfold inside3; lia). destruct (cells3_in g 2 2 2 Hin ltac:(lia)) as [C1 C2].
  apply (reduces_unique lowest (dt_body3 p g ge s a) f (cells3 g)); auto.
  - intros [[i j] k] acc. unfold dt_body3, f. cbv zeta. destruct (interior3 g i j k); reflexivity.
  - exists (2, 2, 2)%Z, (val 2 2 2)%Z. split; auto. unfold f. rewrite C2. split; auto. unfold val. destruct ge.
    + rewrite invdtg3. assert (0 < Rmin (Rmin (dx p) (dy p)) (dz p)) by (unfold Rmin; repeat destruct Rle_dec; lra).
      pose proof (gc_pos p (wave3 p (load_hs3 s a 2 2 2)) (Rabs (s (Loc aG 2 2 2 IX)) + Rabs (s (Loc aG 2 2 2 IY)) + Rabs (s (Loc aG 2 2 2 IZ))) _ (wave3_pos p Hp _) H). lra.
    + rewrite invdt3. pose proof (rate3_pos p Hp Hdx Hdy Hdz (load_hs3 s a 2 2 2)). lra.
Qed.
Lemma partial_seq {I T} (ident : T) (step : I -> T -> T) join items : partial ident step join items (fold_right step ident items).
Proof. induction items; cbn; constructor; auto. Qed.
