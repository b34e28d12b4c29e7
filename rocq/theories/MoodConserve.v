(** Conservation and Runge-Kutta weights of the MOOD solver (exact arithmetic). *)
From Coq Require Import ZArith List Bool Reals Lia Lra.
From Verif Require Import Arith Par ParProofs GridModel BoundaryModel BoundarySpec BoundaryProofs
  HydroState RiemannModel HydroPoint HydroKernels CellKernels HydroField HydroExec HydroSpec HydroProofs2
  HydroProofs3 HydroStep2 HydroSums HydroConserve MoodPoly MoodKernels MoodProofs MoodStage MoodSpec MoodRun.
Import ListNotations.
Open Scope Z_scope.

(** ** Components *)
Section Comp.
Context {T : Type} {A : Arith T}.
Lemma comp_each (f : (hs T -> T) -> T) v : 0 <= v < 5 -> comp (each f) v = f (fun q => comp q v).
Proof. intros H. apply v5 in H. destruct H as [->|[->|[->|[->| ->]]]]; reflexivity. Qed.
Lemma nv_cases b v : 0 <= v < nv b -> 0 <= v < 5 /\ (b = false -> 0 <= v < 4).
Proof. unfold nv. destruct b; intros; split; try lia; discriminate. Qed.
Lemma comp_wn b (q : hs T) v : 0 <= v < nv b -> comp (wn b q) v = comp q v.
Proof.
  intros H. apply nv_cases in H. destruct H as [H1 H2]. unfold wn. destruct b; [reflexivity|].
  apply comp_w0. auto.
Qed.
Lemma comp_stF b (V : cell -> Z -> T) c v : 0 <= v < nv b -> comp (stF b V c) v = V c v.
Proof.
  intros H. apply nv_cases in H. destruct H as [H1 H2]. destruct b.
  - apply v5 in H1. destruct H1 as [->|[->|[->|[->| ->]]]]; reflexivity.
  - specialize (H2 eq_refl). apply v4 in H2. destruct H2 as [->|[->|[->| ->]]]; reflexivity.
Qed.
End Comp.

(** ** Telescoping sums *)
Open Scope R_scope.
Lemma telescope2 g (new old : Z -> Z -> R) (X Y : Z -> Z -> R) : (0 <= nx g)%Z -> (0 <= ny g)%Z ->
  (forall i j, (gw g <= i < gw g + nx g)%Z -> (gw g <= j < gw g + ny g)%Z ->
     new i j = old i j + (X i j - X (i + 1)%Z j) + (Y i j - Y i (j + 1)%Z)) ->
  sumZ (gw g) (gw g + nx g) (fun i => sumZ (gw g) (gw g + ny g) (fun j => new i j)) =
  sumZ (gw g) (gw g + nx g) (fun i => sumZ (gw g) (gw g + ny g) (fun j => old i j))
  + (sumZ (gw g) (gw g + ny g) (fun j => X (gw g) j - X (gw g + nx g)%Z j)
  + sumZ (gw g) (gw g + nx g) (fun i => Y i (gw g) - Y i (gw g + ny g)%Z)).
Proof.
  intros Hx Hy H.
  rewrite (sumZ_ext _ _ _ (fun i => sumZ (gw g) (gw g + ny g) (fun j => old i j)
      + sumZ (gw g) (gw g + ny g) (fun j => X i j - X (i + 1)%Z j)
      + sumZ (gw g) (gw g + ny g) (fun j => Y i j - Y i (j + 1)%Z))).
  2:{ intros i Hi'. rewrite <- !sumZ_add. apply sumZ_ext. intros j Hj'. rewrite H by auto. lra. }
  rewrite !sumZ_add.
  rewrite (sumZ_swap _ _ _ _ (fun i j => X i j - X (i + 1)%Z j)).
  rewrite Rplus_assoc. f_equal. f_equal.
  - apply sumZ_ext. intros j Hj. apply (sumZ_tele _ _ (fun i => X i j)). lia.
  - apply sumZ_ext. intros i Hi'. apply (sumZ_tele _ _ (fun j => Y i j)). lia.
Qed.
Lemma telescope3 g (new old : Z -> Z -> Z -> R) (X Y W : Z -> Z -> Z -> R) :
  (0 <= nx g)%Z -> (0 <= ny g)%Z -> (0 <= nz g)%Z ->
  (forall i j k, (gw g <= i < gw g + nx g)%Z -> (gw g <= j < gw g + ny g)%Z -> (gw g <= k < gw g + nz g)%Z ->
     new i j k = old i j k + (X i j k - X (i + 1)%Z j k) + (Y i j k - Y i (j + 1)%Z k) + (W i j k - W i j (k + 1)%Z)) ->
  sumZ (gw g) (gw g + nx g) (fun i => sumZ (gw g) (gw g + ny g) (fun j => sumZ (gw g) (gw g + nz g) (fun k => new i j k))) =
  sumZ (gw g) (gw g + nx g) (fun i => sumZ (gw g) (gw g + ny g) (fun j => sumZ (gw g) (gw g + nz g) (fun k => old i j k)))
  + (sumZ (gw g) (gw g + ny g) (fun j => sumZ (gw g) (gw g + nz g) (fun k => X (gw g) j k - X (gw g + nx g)%Z j k))
  + sumZ (gw g) (gw g + nx g) (fun i => sumZ (gw g) (gw g + nz g) (fun k => Y i (gw g) k - Y i (gw g + ny g)%Z k))
  + sumZ (gw g) (gw g + nx g) (fun i => sumZ (gw g) (gw g + ny g) (fun j => W i j (gw g) - W i j (gw g + nz g)%Z))).
Proof.
  intros Hx Hy Hz H.
  rewrite (sumZ_ext _ _ _ (fun i => sumZ (gw g) (gw g + ny g) (fun j => sumZ (gw g) (gw g + nz g) (fun k =>
      old i j k + (X i j k - X (i + 1)%Z j k) + (Y i j k - Y i (j + 1)%Z k)
      + (W i j k - W i j (k + 1)%Z))))).
  2:{ intros i Hi'. apply sumZ_ext. intros j Hj'. apply sumZ_ext. intros k Hk'. apply H; auto. }
  rewrite !sumZ3_add. rewrite !Rplus_assoc. f_equal. f_equal; [|f_equal].
  - rewrite (sumZ_swap _ _ _ _ (fun i j => sumZ (gw g) (gw g + nz g) (fun k => X i j k - X (i + 1)%Z j k))).
    apply sumZ_ext. intros j Hj. rewrite (sumZ_swap _ _ _ _ (fun i k => X i j k - X (i + 1)%Z j k)).
    apply sumZ_ext. intros k Hk'. apply (sumZ_tele _ _ (fun i => X i j k)). lia.
  - apply sumZ_ext. intros i Hi'. rewrite (sumZ_swap _ _ _ _ (fun j k => Y i j k - Y i (j + 1)%Z k)).
    apply sumZ_ext. intros k Hk'. apply (sumZ_tele _ _ (fun j => Y i j k)). lia.
  - apply sumZ_ext. intros i Hi'. apply sumZ_ext. intros j Hj'. apply (sumZ_tele _ _ (fun k => W i j k)). lia.
Qed.

Section MC.
Variable m : mcfg R.
Variable g : grid.
Notation b3 := (d3 m).
Variable p : hparams R.
Variable dt : R.
Variable junk : cell -> Z -> hs R.
Variable junkR : cell -> Z -> nat -> R.

(** Flux form of the forward Euler step, in terms of the flux arrays it leaves. *)
Lemma fe_flux_form aIn aOut (s s' : store R) c v : mood_ok m g -> stateA aIn -> stateA aOut -> aIn <> aOut ->
  run_kernels (time_integration m p g dt junk junkR FE aIn aOut) s s' ->
  interior m g c = true -> (b3 = false -> coord c IZ = 0%Z) -> (0 <= v < nv b3)%Z ->
  s' (at_cell aOut c v) = fold_left (fun acc dir => acc + s' (at_cell (aFlux dir) c v)
     - s' (at_cell (aFlux dir) (along_dir dir 1 c) v)) (dirs b3) (s (at_cell aIn c v)).
Proof.
  intros Hm H1 H2 Hne Hk Hi Hz Hv.
  apply step_fe_spec in Hk; auto. destruct Hk as (K1 & _ & _ & _ & _ & K6 & _).
  specialize (K1 c Hi Hz). apply (f_equal (fun q => comp q v)) in K1. cbv beta in K1.
  rewrite comp_stF in K1 by auto. unfold fv in K1 at 1. rewrite K1. unfold eulerF, updF.
  rewrite comp_wn by auto. rewrite comp_each by (apply nv_cases in Hv; lia).
  rewrite comp_stF by auto. rewrite fillF_interior by auto. change (fv s aIn c v) with (s (at_cell aIn c v)).
  pose proof (mood_gw m g Hm) as Hgw.
  rewrite <- (facesF_stage m g junk junkR s' (stageF m g p dt junk junkR (polyS m s) (fillF m g (fv s aIn))) c) by auto.
  unfold add_faces, facesF. clear K1 K6. generalize (s (at_cell aIn c v)). induction (dirs b3) as [|d ds IH]; intros x; [reflexivity|].
  cbn [map fold_left]. rewrite IH. f_equal. cbn [fst snd add sub RArith].
  unfold fluxS. rewrite !comp_stF by auto. unfold fv. reflexivity.
Qed.

Lemma balance_fe2 aIn aOut (s s' : store R) v : mood_ok m g -> b3 = false -> stateA aIn -> stateA aOut -> aIn <> aOut ->
  run_kernels (time_integration m p g dt junk junkR FE aIn aOut) s s' -> (0 <= v < 4)%Z ->
  total2 g s' aOut v = total2 g s aIn v
    + (sumZ (gw g) (gw g + ny g) (fun j => s' (Loc aFx (gw g) j 0 v) - s' (Loc aFx (gw g + nx g) j 0 v))
    + sumZ (gw g) (gw g + nx g) (fun i => s' (Loc aFy i (gw g) 0 v) - s' (Loc aFy i (gw g + ny g) 0 v))).
Proof.
  intros Hm H2 Ha1 Ha2 Hne Hk Hv. unfold total2.
  pose proof Hm as (_ & _ & Hg & _). rewrite H2 in Hg. destruct Hg as (G1 & G2 & G3 & G4).
  apply (telescope2 g (fun i j => s' (Loc aOut i j 0 v)) (fun i j => s (Loc aIn i j 0 v))
    (fun i j => s' (Loc aFx i j 0 v)) (fun i j => s' (Loc aFy i j 0 v))); [lia|lia|].
  intros i j Hi Hj.
  pose proof (fe_flux_form aIn aOut s s' (i, j, 0%Z) v Hm Ha1 Ha2 Hne Hk) as E. cbn [at_cell] in E.
  rewrite E.
  - rewrite H2. cbn. rewrite !Z.add_0_r. lra.
  - apply interior_coords. rewrite H2. split; [lia|split; [lia|discriminate]].
  - reflexivity.
  - rewrite H2. exact Hv.
Qed.

Lemma balance_fe3 aIn aOut (s s' : store R) v : mood_ok m g -> b3 = true -> stateA aIn -> stateA aOut -> aIn <> aOut ->
  run_kernels (time_integration m p g dt junk junkR FE aIn aOut) s s' -> (0 <= v < 5)%Z ->
  total3 g s' aOut v = total3 g s aIn v
    + (sumZ (gw g) (gw g + ny g) (fun j => sumZ (gw g) (gw g + nz g) (fun k =>
         s' (Loc aFx (gw g) j k v) - s' (Loc aFx (gw g + nx g) j k v)))
    + sumZ (gw g) (gw g + nx g) (fun i => sumZ (gw g) (gw g + nz g) (fun k =>
         s' (Loc aFy i (gw g) k v) - s' (Loc aFy i (gw g + ny g) k v)))
    + sumZ (gw g) (gw g + nx g) (fun i => sumZ (gw g) (gw g + ny g) (fun j =>
         s' (Loc aFz i j (gw g) v) - s' (Loc aFz i j (gw g + nz g) v)))).
Proof.
  intros Hm H2 Ha1 Ha2 Hne Hk Hv. unfold total3.
  pose proof Hm as (_ & _ & Hg & _). rewrite H2 in Hg. destruct Hg as ((G1 & G2 & G3 & G4) & G5).
  apply (telescope3 g (fun i j k => s' (Loc aOut i j k v)) (fun i j k => s (Loc aIn i j k v))
    (fun i j k => s' (Loc aFx i j k v)) (fun i j k => s' (Loc aFy i j k v)) (fun i j k => s' (Loc aFz i j k v))); [lia..|].
  intros i j k Hi Hj Hk3.
  pose proof (fe_flux_form aIn aOut s s' (i, j, k) v Hm Ha1 Ha2 Hne Hk) as E. cbn [at_cell] in E.
  rewrite E.
  - rewrite H2. cbn. rewrite !Z.add_0_r. lra.
  - apply interior_coords. rewrite H2. split; [lia|split; [lia|intros _; lia]].
  - rewrite H2. discriminate.
  - rewrite H2. exact Hv.
Qed.

(** ** Periodic domains, 2D *)
Lemma fill_px (V : cell -> Z -> R) i j k v : b3 = false -> all_periodic g -> (- nx g <= i - gw g < nx g)%Z ->
  fillF m g V (i + nx g, j, k)%Z v = fillF m g V (i, j, k) v.
Proof.
  intros H2 Hp Hi. destruct (periodic_kinds g Hp) as (E1 & E2 & E3 & E4 & _).
  unfold fillF. rewrite H2. unfold filled2d. cbv zeta. rewrite E1, E2, E3, E4, !along_periodic.
  replace (i + nx g - gw g)%Z with (i - gw g + nx g)%Z by lia. rewrite image_periodic by auto. reflexivity.
Qed.
Lemma fill_py (V : cell -> Z -> R) i j k v : b3 = false -> all_periodic g -> (- ny g <= j - gw g < ny g)%Z ->
  fillF m g V (i, j + ny g, k)%Z v = fillF m g V (i, j, k) v.
Proof.
  intros H2 Hp Hi. destruct (periodic_kinds g Hp) as (E1 & E2 & E3 & E4 & _).
  unfold fillF. rewrite H2. unfold filled2d. cbv zeta. rewrite E1, E2, E3, E4, !along_periodic.
  replace (j + ny g - gw g)%Z with (j - gw g + ny g)%Z by lia. rewrite image_periodic by auto. reflexivity.
Qed.

Lemma polyF_shift (V : cell -> Z -> R) c d : mood_ok m g ->
  (forall x y z v, (0 <= v < nv b3)%Z -> In (x, y, z) ((0, 0, 0)%Z :: os m) ->
     V (shift (shift c d) (x, y, z)) v = V (shift c (x, y, z)) v) ->
  polyF m junkR V (shift c d) = polyF m junkR V c.
Proof.
  intros Hm H.
  assert (E : forall v, (0 <= v < nv b3)%Z -> coefsF m junkR V (shift c d) v = coefsF m junkR V c v).
  { intros v Hv. unfold coefsF. destruct Hm as (_ & H2 & _). rewrite H2.
    rewrite (poly_coefs_junk _ _ _ _ _ (junkR c v)). apply poly_coefs_ext.
    - apply H; auto. left; auto.
    - intros [[x y] z] Hin. apply H; auto. right; auto. }
  unfold polyF. rewrite !E by (unfold nv, ID, IP, IU, IV; destruct b3; lia).
  destruct b3 eqn:E3; [rewrite E by (unfold nv, IW; lia)|]; reflexivity.
Qed.

Lemma sum_points_ext (f f' : nat -> R) : (forall iq, f iq = f' iq) -> sum_points m f = sum_points m f'.
Proof.
  intros H.
  assert (G : forall (h : R -> nat -> R -> R) l x, fold_left (fun acc iq => h acc iq (f iq)) l x = fold_left (fun acc iq => h acc iq (f' iq)) l x).
  { intros h l. induction l as [|a l IH]; intros x; [reflexivity|]. cbn [fold_left]. rewrite H. apply IH. }
  unfold sum_points, face_sum2, face_sum3.
  destruct b3; destruct (nbq m) as [|[|n]]; rewrite ?H; try reflexivity.
  - apply (G (fun acc iq y => add acc (mul (mul y (weight (S (S n)) (iq / S (S n)))) (weight (S (S n)) (iq - iq / S (S n) * S (S n)))))).
  - apply (G (fun acc iq y => add acc (mul y (weight (S (S n)) iq)))).
Qed.

Lemma high_flux_junk PL PR dir j j' : (if b3 then riemann_ok3 p else riemann_ok2 p) ->
  high_flux m p dt PL PR dir j = high_flux m p dt PL PR dir j'.
Proof.
  intros Hr. unfold high_flux. cbv zeta.
  assert (E : forall ql qr, riemann m p ql qr j = riemann m p ql qr j').
  { intros ql qr. unfold riemann. destruct b3.
    - rewrite (riemann3_junk p ql qr j), (riemann3_junk p ql qr j') by (apply riemann_ok3_spec; auto). reflexivity.
    - rewrite (riemann2_junk p ql qr j), (riemann2_junk p ql qr j') by (apply riemann_ok2_spec; auto). reflexivity. }
  f_equal. f_equal.
  f_equal; apply sum_points_ext; intros iq; destruct (pick m p PL PR dir iq) as [UL UR]; rewrite E; reflexivity.
Qed.

(** Candidate fluxes on opposite sides of a periodic domain are the same. *)
Lemma high_periodic O V0 dir c n : mood_ok m g -> b3 = false -> all_periodic g -> riemann_ok2 p ->
  In dir (dirs b3) -> n = (if (dir =? IX)%Z then nx g else ny g) -> coord c dir = gw g -> coord c IZ = 0%Z ->
  face_guard m g dir c = true ->
  highP m p dt junk (polyG m g junkR O (fillF m g V0)) dir (along_dir dir n c) =
  highP m p dt junk (polyG m g junkR O (fillF m g V0)) dir c.
Proof.
  intros Hm H2 Hp Hr Hd Hn Hc Hz Hf. set (V := fillF m g V0).
  pose proof Hm as (_ & _ & Hg & _ & Ho). rewrite H2 in Hg. destruct Hg as (G1 & G2 & G3 & G4).
  destruct c as [[i j] k]. cbn in Hz. subst k.
  unfold face_guard in Hf. apply guard_coords in Hf. destruct Hf as (F1 & F2 & _).
  assert (Hd2 := Hd). rewrite H2 in Hd2.
  assert (EP : forall e, e = 0%Z \/ e = (-1)%Z ->
     polyG m g junkR O V (shift (along_dir dir e (i, j, 0%Z)) (unit_vec dir n)) = polyG m g junkR O V (along_dir dir e (i, j, 0%Z))).
  { intros e He. unfold polyG.
    apply dirs_cases in Hd2. destruct Hd2 as [->|[->|[_ X]]]; [| |discriminate X].
    - cbn in Hn, Hc. cbn [along_dir unit_vec shift] in *. change (IX =? IX)%Z with true in *. cbv iota in *. subst n.
      unfold along_dir, unit_vec. change (IX =? IX)%Z with true. cbv iota. cbn [shift]. rewrite !Z.add_0_r.
      change (IX =? IX)%Z with true in F1. change (IY =? IX)%Z with false in F2. cbv iota in F1, F2.
      assert (R1 : recon_guard m g (i + e + nx g, j, 0)%Z = true).
      { unfold recon_guard. apply guard_coords. rewrite H2. split; [lia|split; [lia|discriminate]]. }
      assert (R2 : recon_guard m g (i + e, j, 0)%Z = true).
      { unfold recon_guard. apply guard_coords. rewrite H2. split; [lia|split; [lia|discriminate]]. }
      rewrite R1, R2.
      pose proof (polyF_shift V (i + e, j, 0)%Z (nx g, 0, 0)%Z Hm) as S. cbn [shift] in S. rewrite !Z.add_0_r in S.
      apply S. intros x y z v Hv Hin.
      assert (B : (Z.abs x < gw g)%Z /\ z = 0%Z).
      { destruct Hin as [E|Hin]; [injection E as <- <- <-; lia|]. apply Ho in Hin. destruct Hin as (B1 & B2 & B3 & B4). auto. }
      destruct B as [B1 ->]. cbn [shift]. rewrite Z.add_0_r.
      replace (i + e + nx g + x)%Z with (i + e + x + nx g)%Z by lia. apply fill_px; auto. lia.
    - cbn in Hn, Hc. subst n.
      unfold along_dir, unit_vec. change (IY =? IX)%Z with false. change (IY =? IY)%Z with true. cbv iota. cbn [shift]. rewrite !Z.add_0_r.
      change (IX =? IY)%Z with false in F1. change (IY =? IY)%Z with true in F2. cbv iota in F1, F2.
      assert (R1 : recon_guard m g (i, j + e + ny g, 0)%Z = true).
      { unfold recon_guard. apply guard_coords. rewrite H2. split; [lia|split; [lia|discriminate]]. }
      assert (R2 : recon_guard m g (i, j + e, 0)%Z = true).
      { unfold recon_guard. apply guard_coords. rewrite H2. split; [lia|split; [lia|discriminate]]. }
      rewrite R1, R2.
      pose proof (polyF_shift V (i, j + e, 0)%Z (0, ny g, 0)%Z Hm) as S. cbn [shift] in S. rewrite !Z.add_0_r in S.
      apply S. intros x y z v Hv Hin.
      assert (B : (Z.abs y < gw g)%Z /\ z = 0%Z).
      { destruct Hin as [E|Hin]; [injection E as <- <- <-; lia|]. apply Ho in Hin. destruct Hin as (B1 & B2 & B3 & B4). auto. }
      destruct B as [B1 ->]. cbn [shift]. rewrite Z.add_0_r.
      replace (j + e + ny g + y)%Z with (j + e + y + ny g)%Z by lia. apply fill_py; auto. lia. }
  unfold highP. f_equal.
  assert (E0 : along_dir dir n (i, j, 0%Z) = shift (along_dir dir 0 (i, j, 0%Z)) (unit_vec dir n)).
  { unfold along_dir, unit_vec. destruct (dir =? IX)%Z; [|destruct (dir =? IY)%Z]; rewrite shift_0; reflexivity. }
  assert (E1 : along_dir dir (-1) (along_dir dir n (i, j, 0%Z)) = shift (along_dir dir (-1) (i, j, 0%Z)) (unit_vec dir n)).
  { unfold along_dir, unit_vec. destruct (dir =? IX)%Z; [|destruct (dir =? IY)%Z]; cbn [shift]; (apply f_equal2; [apply f_equal2|]); lia. }
  assert (E2 : along_dir dir 0 (i, j, 0%Z) = (i, j, 0%Z)).
  { unfold along_dir, unit_vec. destruct (dir =? IX)%Z; [|destruct (dir =? IY)%Z]; apply shift_0. }
  rewrite E1, E0, !EP by auto. rewrite E2. apply high_flux_junk. rewrite H2. exact Hr.
Qed.

(** Defect of the totals on a periodic 2D domain: it comes from the cells of the
    first column and the first row that are flagged. *)
Lemma side_defect aIn aOut (s s' : store R) dir c n v : mood_ok m g -> b3 = false -> all_periodic g -> riemann_ok2 p ->
  stateA aIn -> stateA aOut -> aIn <> aOut ->
  run_kernels (time_integration m p g dt junk junkR FE aIn aOut) s s' ->
  In dir (dirs b3) -> n = (if (dir =? IX)%Z then nx g else ny g) -> coord c dir = gw g -> interior m g c = true ->
  coord c IZ = 0%Z -> (0 <= v < 4)%Z -> s' (at_cell aFlags c 0) = 0 ->
  s' (at_cell (aFlux dir) c v) = s' (at_cell (aFlux dir) (along_dir dir n c) v).
Proof.
  intros Hm H2 Hp Hr Ha1 Ha2 Hne Hk Hd Hn Hc Hi Hz Hv Hfl.
  apply step_fe_spec in Hk; auto. destruct Hk as (_ & _ & _ & _ & _ & K6 & K7).
  pose proof (mood_gw m g Hm) as Hgw.
  assert (Hf : face_guard m g dir c = true).
  { assert (E2 : along_dir dir 0 c = c) by (unfold along_dir, unit_vec; destruct (dir =? IX)%Z; [|destruct (dir =? IY)%Z]; apply shift_0).
    rewrite <- E2. apply interior_face; auto. }
  assert (Hc' : In c (cellsD b3 g)) by (apply interior_in; auto).
  pose proof Hm as (_ & _ & Hg & _ & Ho). rewrite H2 in Hg. destruct Hg as (G1 & G2 & G3 & G4).
  assert (HN : interior m g (along_dir dir n c) = false /\ face_guard m g dir (along_dir dir n c) = true /\ coord (along_dir dir n c) IZ = 0%Z).
  { destruct c as [[i j] k]. apply interior_coords in Hi. destruct Hi as (I1 & I2 & _). cbn in Hz. subst k.
    rewrite H2 in Hd. apply dirs_cases in Hd. destruct Hd as [->|[->|[_ X]]]; [| |discriminate X].
    - change (coord (i, j, 0%Z) IX) with i in Hc. change (IX =? IX)%Z with true in Hn. cbv iota in Hn. subst n i.
      cbn. rewrite !Z.add_0_r. split; [|split; [|reflexivity]].
      + apply not_true_iff_false. rewrite interior_coords. lia.
      + unfold face_guard. apply guard_coords. cbn [Z.eqb IX IY]. change (IX =? IX)%Z with true. change (IY =? IX)%Z with false. cbv iota.
        rewrite H2. split; [lia|split; [lia|discriminate]].
    - change (coord (i, j, 0%Z) IY) with j in Hc. change (IY =? IX)%Z with false in Hn. cbv iota in Hn. subst n j.
      cbn. rewrite !Z.add_0_r. split; [|split; [|reflexivity]].
      + apply not_true_iff_false. rewrite interior_coords. lia.
      + unfold face_guard. apply guard_coords. change (IX =? IY)%Z with false. change (IY =? IY)%Z with true. cbv iota.
        rewrite H2. split; [lia|split; [lia|discriminate]]. }
  destruct HN as (HN1 & HN2 & HN3).
  assert (HcN : In (along_dir dir n c) (cellsD b3 g)) by (eapply face_guard_in; eauto).
  assert (EN : forall q, comp (fluxS m s' dir q) v = s' (at_cell (aFlux dir) q v)).
  { intros q. unfold fluxS. rewrite comp_stF by (rewrite H2; auto). reflexivity. }
  rewrite <- !EN. f_equal. rewrite !K6 by auto. unfold stageF, finalF, flagP.
  rewrite K7 in Hfl by auto. unfold stageFlag in Hfl. rewrite Hfl.
  unfold flagF at 1. rewrite HN1.
  assert (L : ltb (zero : R) zero = false) by (cbn; destruct (Rlt_dec 0 0); [lra|reflexivity]).
  change 0 with (zero : R). rewrite L. symmetry. apply high_periodic; auto.
Qed.

Lemma conserve_fe2 aIn aOut (s s' : store R) v : mood_ok m g -> b3 = false -> all_periodic g -> riemann_ok2 p ->
  stateA aIn -> stateA aOut -> aIn <> aOut ->
  run_kernels (time_integration m p g dt junk junkR FE aIn aOut) s s' -> (0 <= v < 4)%Z ->
  (forall i j, (gw g <= i < gw g + nx g)%Z -> (gw g <= j < gw g + ny g)%Z -> i = gw g \/ j = gw g ->
     s' (Loc aFlags i j 0 0) = 0) ->
  total2 g s' aOut v = total2 g s aIn v.
Proof.
  intros Hm H2 Hp Hr Ha1 Ha2 Hne Hk Hv Hfl. rewrite (balance_fe2 aIn aOut s s') by auto.
  pose proof Hm as (_ & _ & Hg & _ & Ho). rewrite H2 in Hg. destruct Hg as (G1 & G2 & G3 & G4).
  rewrite (sumZ_zero (gw g) (gw g + ny g)), (sumZ_zero (gw g) (gw g + nx g)); [lra| |].
  - intros i Hi.
    pose proof (side_defect aIn aOut s s' IY (i, gw g, 0%Z) (ny g) v Hm H2 Hp Hr Ha1 Ha2 Hne Hk) as E.
    cbn in E. rewrite !Z.add_0_r in E. rewrite E; auto; [lra| | |].
    + rewrite H2. cbn. auto.
    + apply interior_coords. rewrite H2. split; [lia|split; [lia|discriminate]].
    + apply Hfl; auto; lia.
  - intros j Hj.
    pose proof (side_defect aIn aOut s s' IX (gw g, j, 0%Z) (nx g) v Hm H2 Hp Hr Ha1 Ha2 Hne Hk) as E.
    cbn in E. rewrite !Z.add_0_r in E. rewrite E; auto; [lra| | |].
    + rewrite H2. cbn. auto.
    + apply interior_coords. rewrite H2. split; [lia|split; [lia|discriminate]].
    + apply Hfl; auto; lia.
Qed.

(** ** Runge-Kutta weights *)
Lemma comp_updF (V : cell -> Z -> R) (F : Z -> cell -> hs R) c v : (0 <= v < nv b3)%Z ->
  comp (wn b3 (updF m V F c)) v = add_faces (fun q => comp q v) (facesF m F c) (V c v).
Proof.
  intros Hv. rewrite comp_wn by auto. unfold updF. rewrite comp_each by (apply nv_cases in Hv; lia).
  rewrite comp_stF by auto. reflexivity.
Qed.
Lemma add_faces_R sel fs x : add_faces sel fs x = x + add_faces sel fs 0.
Proof.
  unfold add_faces. revert x. induction fs as [|f fs IH]; intros x; cbn [fold_left]; [lra|].
  rewrite IH. rewrite (IH (sub (add 0 (sel (fst f))) (sel (snd f)))). cbn. lra.
Qed.
Lemma faces_only_R sel fs : faces_only sel fs = add_faces sel fs 0.
Proof.
  destruct fs as [|f fs]; [reflexivity|]. cbn [faces_only]. unfold add_faces at 2. cbn [fold_left].
  fold (add_faces sel fs (sub (add 0 (sel (fst f))) (sel (snd f)))). f_equal. cbn. lra.
Qed.

Lemma field_of_state (V V' : cell -> Z -> R) c v : stF b3 V c = stF b3 V' c -> (0 <= v < nv b3)%Z -> V c v = V' c v.
Proof. intros E Hv. rewrite <- (comp_stF b3 V c v), <- (comp_stF b3 V' c v), E; auto. Qed.

Lemma fill_agree (W W' : cell -> Z -> R) : mood_ok m g ->
  (forall c v, interior m g c = true -> (b3 = false -> coord c IZ = 0%Z) -> (0 <= v < nv b3)%Z -> W c v = W' c v) ->
  agree m g (fillF m g W) (fillF m g W').
Proof.
  intros (_ & _ & Hg & _) H c v Hc Hv. apply fillF_ext; auto.
Qed.

Notation step := (time_integration m p g dt junk junkR).

Lemma rk2_weights aIn aOut (s s' s1 s2 : store R) c v : mood_ok m g -> io aIn aOut ->
  run_kernels (step RK2 aIn aOut) s s' ->
  run_kernels (step FE aIn aRK1) s s1 -> run_kernels (step FE aRK1 aOut) s1 s2 ->
  interior m g c = true -> (b3 = false -> coord c IZ = 0%Z) -> (0 <= v < nv b3)%Z ->
  s' (at_cell aOut c v) = / 2 * s (at_cell aIn c v) + / 2 * s2 (at_cell aOut c v).
Proof.
  intros Hm Hio K K1 K2 Hi Hz Hv.
  assert (N : stateA aIn /\ stateA aOut /\ stateA aRK1 /\ aIn <> aRK1 /\ aRK1 <> aOut) by (unfold io in Hio; ma; lia).
  destruct N as (N1 & N2 & N3 & N4 & N5).
  apply step_rk2_spec in K; auto. destruct K as (W & A1 & A2 & _).
  apply step_fe_spec in K1; auto. destruct K1 as (B1 & _ & _ & _ & B5 & _).
  apply step_fe_spec in K2; auto. destruct K2 as (C1 & _).
  set (V := fillF m g (fv s aIn)) in *. set (O := polyS m s) in *.
  assert (EW : forall c v, interior m g c = true -> (b3 = false -> coord c IZ = 0%Z) -> (0 <= v < nv b3)%Z -> fv s1 aRK1 c v = W c v).
  { intros c' v' Hi' Hz' Hv'. apply (field_of_state (fv s1 aRK1) W); auto. rewrite A1, B1; auto. }
  assert (Hag : agree m g (fillF m g (fv s1 aRK1)) (fillF m g W)) by (apply fill_agree; auto).
  pose proof (f_equal (fun q => comp q v) (A2 c Hi Hz)) as EA. pose proof (f_equal (fun q => comp q v) (C1 c Hi Hz)) as EC.
  cbv beta in EA, EC. rewrite comp_stF in EA, EC by auto. unfold fv at 1 in EA. unfold fv at 1 in EC.
  rewrite EA, EC. unfold eulerF. rewrite comp_updF by auto. rewrite comp_wn by auto. unfold updF2.
  rewrite comp_each by (apply nv_cases in Hv; lia). rewrite !comp_stF by auto.
  rewrite (facesF_agree m g p dt junk junkR (polyS m s1) O (fillF m g (fv s1 aRK1)) (fillF m g W)) by auto.
  unfold V. rewrite !fillF_interior by auto. rewrite EW by auto.
  rewrite (add_faces_R _ _ (W c v)), (add_faces_R _ _ (add _ _)). unfold fv. cbn. lra.
Qed.

Lemma rk3_weights aIn aOut (s s' s1 s2 s3 s4 : store R) c v : mood_ok m g -> io aIn aOut ->
  run_kernels (step RK3 aIn aOut) s s' ->
  run_kernels (step FE aIn aRK1) s s1 -> run_kernels (step FE aRK1 aRK2) s1 s2 ->
  (forall l, la l <> aRK2 -> s3 l = s2 l) ->
  (forall c v, interior m g c = true -> (b3 = false -> coord c IZ = 0%Z) -> (0 <= v < nv b3)%Z ->
     s3 (at_cell aRK2 c v) = 3 / 4 * s (at_cell aIn c v) + / 4 * s2 (at_cell aRK2 c v)) ->
  run_kernels (step FE aRK2 aOut) s3 s4 ->
  interior m g c = true -> (b3 = false -> coord c IZ = 0%Z) -> (0 <= v < nv b3)%Z ->
  s' (at_cell aOut c v) = / 3 * s (at_cell aIn c v) + 2 / 3 * s4 (at_cell aOut c v).
Proof.
  intros Hm Hio K K1 K2 K3 K4 K5 Hi Hz Hv.
  assert (N : stateA aIn /\ stateA aOut /\ stateA aRK1 /\ stateA aRK2 /\ aIn <> aRK1 /\ aRK1 <> aOut /\ aRK2 <> aOut /\ aRK1 <> aRK2)
    by (unfold io in Hio; ma; lia).
  destruct N as (N1 & N2 & N3 & N4 & N5 & N6 & N7 & N8).
  apply step_rk3_spec in K; auto. destruct K as (W1 & W2 & A1 & A2 & A3 & _).
  apply step_fe_spec in K1; auto. destruct K1 as (B1 & _ & _ & _ & B5 & _).
  apply step_fe_spec in K2; auto. destruct K2 as (C1 & _ & _ & _ & C5 & _).
  apply step_fe_spec in K5; auto. destruct K5 as (D1 & _).
  set (V := fillF m g (fv s aIn)) in *. set (O := polyS m s) in *.
  assert (EW1 : forall c v, interior m g c = true -> (b3 = false -> coord c IZ = 0%Z) -> (0 <= v < nv b3)%Z -> fv s1 aRK1 c v = W1 c v).
  { intros c' v' Hi' Hz' Hv'. apply (field_of_state (fv s1 aRK1) W1); auto. rewrite A1, B1; auto. }
  assert (Hag1 : agree m g (fillF m g (fv s1 aRK1)) (fillF m g W1)) by (apply fill_agree; auto).
  assert (EW2 : forall c v, interior m g c = true -> (b3 = false -> coord c IZ = 0%Z) -> (0 <= v < nv b3)%Z -> fv s3 aRK2 c v = W2 c v).
  { intros c' v' Hi' Hz' Hv'. unfold fv at 1. rewrite K4 by auto.
    pose proof (f_equal (fun q => comp q v') (A2 c' Hi' Hz')) as EA. pose proof (f_equal (fun q => comp q v') (C1 c' Hi' Hz')) as EC.
    cbv beta in EA, EC. rewrite comp_stF in EA, EC by auto. unfold fv at 1 in EC.
    rewrite EA, EC. unfold eulerF. rewrite comp_updF by auto. rewrite comp_wn by auto. unfold updFw.
    rewrite comp_each by (apply nv_cases in Hv'; lia). rewrite !comp_stF by auto.
    rewrite (facesF_agree m g p dt junk junkR (polyS m s1) O (fillF m g (fv s1 aRK1)) (fillF m g W1)) by auto.
    unfold V. rewrite !fillF_interior by auto. rewrite EW1 by auto.
    rewrite (add_faces_R _ _ (W1 c' v')), faces_only_R. unfold fv. cbn. lra. }
  assert (Hag2 : agree m g (fillF m g (fv s3 aRK2)) (fillF m g W2)) by (apply fill_agree; auto).
  assert (HO : forall c, In c (cellsD b3 g) -> recon_guard m g c = false -> polyS m s3 c = O c).
  { intros c' Hc' Hr'. rewrite (polyS_frame m junk junkR s2 s3); [rewrite C5, B5; auto|].
    intros l Hl. apply K3. ma. lia. }
  pose proof (f_equal (fun q => comp q v) (A3 c Hi Hz)) as EA. pose proof (f_equal (fun q => comp q v) (D1 c Hi Hz)) as EC.
  cbv beta in EA, EC. rewrite comp_stF in EA, EC by auto. unfold fv at 1 in EA. unfold fv at 1 in EC.
  rewrite EA, EC. unfold eulerF. rewrite comp_updF by auto. rewrite comp_wn by auto. unfold updFw.
  rewrite comp_each by (apply nv_cases in Hv; lia). rewrite !comp_stF by auto.
  rewrite (facesF_agree m g p dt junk junkR (polyS m s3) O (fillF m g (fv s3 aRK2)) (fillF m g W2)) by auto.
  unfold V. rewrite !fillF_interior by auto. rewrite EW2 by auto.
  rewrite (add_faces_R _ _ (W2 c v)), faces_only_R. unfold fv. cbn. lra.
Qed.
End MC.
