(** One time step of the MOOD solver with each integrator. *)
From Coq Require Import ZArith List Bool Lia.
From Verif Require Import Arith Par ParProofs GridModel BoundaryModel BoundarySpec BoundaryProofs
  HydroState RiemannModel HydroPoint HydroKernels CellKernels HydroField HydroExec HydroSpec HydroProofs2
  HydroProofs3 HydroStep2 HydroConserve MoodPoly MoodKernels MoodProofs MoodStage MoodSpec.
Import ListNotations.
Open Scope Z_scope.
Open Scope prog_scope.

Section MR.
Context {T : Type} {A : Arith T}.
Notation store := (store T).
Variable m : mcfg T.
Variable g : grid.
Notation b3 := (d3 m).
Notation NC := (ncoefs m).

Lemma state4_A a : state4 a -> stateA a.
Proof. unfold state4, stateA. cbn [In]. intuition. Qed.

(** ** Boundary fill and copy *)
Definition fillF (V : cell -> Z -> T) (c : cell) (v : Z) : T :=
  let '(i, j, k) := c in
  if b3 then filled3d false g (fun i j k v => V (i, j, k) v) i j k v
  else filled2d false g (fun i j v => V (i, j, 0) v) i j v.

Lemma guard_coords lo hi i j k : guard b3 g lo hi (i, j, k) = true <->
  gw g + lo <= i < nx g + gw g + hi IX /\ gw g + lo <= j < ny g + gw g + hi IY /\
  (b3 = true -> gw g + lo <= k < nz g + gw g + hi IZ).
Proof.
  rewrite guard_spec.
  assert (EX : sizeA g IX = nx g + 2 * gw g) by (change (sizeA g IX) with (isize g); unfold isize, imax, imin; lia).
  assert (EY : sizeA g IY = ny g + 2 * gw g) by (change (sizeA g IY) with (jsize g); unfold jsize, jmax, jmin; lia).
  assert (EZ : sizeA g IZ = nz g + 2 * gw g) by (change (sizeA g IZ) with (ksize g); unfold ksize, kmax, kmin; lia).
  split.
  - intros H. assert (HX := H IX ltac:(destruct b3; cbn; auto)). assert (HY := H IY ltac:(destruct b3; cbn; auto)).
    rewrite EX in HX. rewrite EY in HY.
    change (coord (i, j, k) IX) with i in HX. change (coord (i, j, k) IY) with j in HY.
    split; [lia|split; [lia|]]. intros E. assert (HZ := H IZ ltac:(rewrite E; cbn; auto)). rewrite EZ in HZ.
    change (coord (i, j, k) IZ) with k in HZ. lia.
  - intros (HX & HY & HZ) a Ha. apply dirs_cases in Ha. destruct Ha as [->|[->|[-> E]]].
    + rewrite EX. change (coord (i, j, k) IX) with i. lia.
    + rewrite EY. change (coord (i, j, k) IY) with j. lia.
    + rewrite EZ. change (coord (i, j, k) IZ) with k. specialize (HZ E). lia.
Qed.
Lemma interior_coords i j k : interior m g (i, j, k) = true <->
  gw g <= i < gw g + nx g /\ gw g <= j < gw g + ny g /\ (b3 = true -> gw g <= k < gw g + nz g).
Proof.
  unfold interior. rewrite guard_coords. split; intros (H1 & H2 & H3); (split; [lia|split; [lia|]]);
    intros E; specialize (H3 E); lia.
Qed.
Lemma cell_coords i j k : In (i, j, k) (cellsD b3 g) <->
  0 <= i < nx g + 2 * gw g /\ 0 <= j < ny g + 2 * gw g /\ (b3 = true -> 0 <= k < nz g + 2 * gw g) /\ (b3 = false -> k = 0).
Proof.
  assert (EX : isize g = nx g + 2 * gw g) by (unfold isize, imax, imin; lia).
  assert (EY : jsize g = ny g + 2 * gw g) by (unfold jsize, jmax, jmin; lia).
  assert (EZ : ksize g = nz g + 2 * gw g) by (unfold ksize, kmax, kmin; lia).
  rewrite In_cellsD. unfold in_grid. split.
  - intros [H Hz]. assert (HX := H IX ltac:(destruct b3; cbn; auto)). assert (HY := H IY ltac:(destruct b3; cbn; auto)).
    change (sizeA g IX) with (isize g) in HX. change (sizeA g IY) with (jsize g) in HY.
    change (coord (i, j, k) IX) with i in HX. change (coord (i, j, k) IY) with j in HY.
    split; [lia|split; [lia|split]]; [|exact Hz]. intros E. assert (HZ := H IZ ltac:(rewrite E; cbn; auto)).
    change (coord (i, j, k) IZ) with k in HZ. change (sizeA g IZ) with (ksize g) in HZ. lia.
  - intros (HX & HY & HZ & Hz). split; [|exact Hz]. intros a Ha. apply dirs_cases in Ha. destruct Ha as [->|[->|[-> E]]].
    + change (sizeA g IX) with (isize g). change (coord (i, j, k) IX) with i. lia.
    + change (sizeA g IY) with (jsize g). change (coord (i, j, k) IY) with j. lia.
    + change (sizeA g IZ) with (ksize g). change (coord (i, j, k) IZ) with k. specialize (HZ E). lia.
Qed.

Lemma fillF_interior V c v : interior m g c = true -> (b3 = false -> coord c IZ = 0) -> fillF V c v = V c v.
Proof.
  destruct c as [[i j] k]. rewrite interior_coords. intros (HX & HY & HZ) Hz. unfold fillF.
  change (coord (i, j, k) IZ) with k in Hz.
  destruct b3; [specialize (HZ eq_refl)|specialize (Hz eq_refl)].
  - rewrite filled3d_interior; [reflexivity|lia..].
  - rewrite filled2d_interior by lia. rewrite Hz. reflexivity.
Qed.

Lemma fillF_ext V V' c v :
  (if b3 then grid_ok3d g else grid_ok2d g) -> In c (cellsD b3 g) ->
  (forall c', interior m g c' = true -> (b3 = false -> coord c' IZ = 0) -> V c' v = V' c' v) -> fillF V c v = fillF V' c v.
Proof.
  destruct c as [[i j] k]. intros Hg Hc H. apply cell_coords in Hc. destruct Hc as (HX & HY & HZ & Hz).
  assert (G0 : 0 < gw g /\ gw g <= nx g /\ gw g <= ny g) by (destruct b3; [destruct Hg as ((?&?&?&_)&_)|destruct Hg as (?&?&?&_)]; lia).
  pose proof (image_interior (kx0 g) (kx1 g) (nx g) (gw g) (i - gw g)).
  pose proof (image_interior (ky0 g) (ky1 g) (ny g) (gw g) (j - gw g)).
  unfold fillF. destruct b3 eqn:E.
  - specialize (HZ eq_refl). destruct Hg as (_ & Hz').
    pose proof (image_interior (kz0 g) (kz1 g) (nz g) (gw g) (k - gw g)).
    unfold filled3d. cbv zeta. rewrite H; [reflexivity| |discriminate].
    apply interior_coords. repeat split; intros; lia.
  - unfold filled2d. cbv zeta. rewrite H; [reflexivity| |reflexivity].
    apply interior_coords. rewrite E. split; [lia|split; [lia|discriminate]].
Qed.

Lemma fill_spec a (s s' : store) : mood_ok m g -> run_kernels (boundaries m g a) s s' ->
  (forall c v, In c (cellsD b3 g) -> 0 <= v < nv b3 -> fv s' a c v = fillF (fv s a) c v) /\
  (forall l, la l <> a -> s' l = s l) /\
  (forall l, ~ In (at_of l) (cellsD b3 g) -> s' l = s l).
Proof.
  intros (_ & _ & Hg & Hv & _) Hk. unfold boundaries in Hk. unfold fv, fillF.
  assert (Hsz := cell_coords).
  destruct b3 eqn:E.
  - apply fill3_spec in Hk; auto. destruct Hk as [K1 K2]. split; [|split].
    + intros [[i j] k] v Hc Hvv. cbn [at_cell].
      apply Hsz in Hc. destruct Hc as (HX & HY & HZ & _). specialize (HZ eq_refl).
      rewrite K1 by (unfold nv in *; lia). reflexivity.
    + intros l Hl. apply K2. unfold alloc3d. tauto.
    + intros l Hl. apply K2. intros (_ & H1 & H2 & H3 & _). apply Hl.
      unfold at_of. apply Hsz. split; [lia|split; [lia|split; [intros _; lia|discriminate]]].
  - apply fill2_spec in Hk; auto. destruct Hk as [K1 K2]. split; [|split].
    + intros [[i j] k] v Hc Hvv. cbn [at_cell].
      apply Hsz in Hc. destruct Hc as (HX & HY & _ & Hz). rewrite Hz by auto.
      rewrite K1 by (unfold nv in *; lia). reflexivity.
    + intros l Hl. apply K2. unfold alloc2d. tauto.
    + intros l Hl. apply K2. intros (_ & H1 & H2 & H3 & _). apply Hl.
      unfold at_of. apply Hsz. split; [lia|split; [lia|split; [discriminate|intros _; lia]]].
Qed.

Lemma copy_spec dst src (s s' : store) : mood_ok m g -> dst <> src -> par_exec s (copy m g dst src) s' ->
  (forall c v, In c (cellsD b3 g) -> 0 <= v < nv b3 -> fv s' dst c v = fv s src c v) /\
  (forall l, la l <> dst -> s' l = s l) /\
  (forall l, ~ In (at_of l) (cellsD b3 g) -> s' l = s l).
Proof.
  intros (_ & _ & Hg & Hv & _) Hne Hk. unfold copy in Hk.
  destruct (deep_copy_spec g (cellsD b3 g) dst src s s' (NoDup_cellsD b3 g) Hne Hk) as [H1 H2].
  split; [|split].
  - intros [[i j] k] v Hc Hvv. apply H1; auto. rewrite Hv. exact Hvv.
  - intros l Hl. apply H2. tauto.
  - intros l Hl. apply H2. tauto.
Qed.

(** ** Dependence of a stage on its data *)
Variable p : hparams T.
Variable dt : T.
Variable junk : cell -> Z -> hs T.
Variable junkR : cell -> Z -> nat -> T.

(** Two fields that agree on the allocated cells. *)
Definition agree (V V' : cell -> Z -> T) : Prop :=
  forall c v, In c (cellsD b3 g) -> 0 <= v < nv b3 -> V c v = V' c v.

Lemma stF_agree V V' c : agree V V' -> In c (cellsD b3 g) -> stF b3 V c = stF b3 V' c.
Proof. intros H Hc. apply stF_ext. intros; apply H; auto. Qed.

Lemma poly_coefs_junk (M : nat -> nat -> T) nc l (u : Z * Z * Z -> T) j j' :
  poly_coefs M nc (length (neighbours l)) l u j = poly_coefs M nc (length (neighbours l)) l u j'.
Proof.
  unfold poly_coefs. f_equal. apply map_ext. intros ic.
  assert (E : forall ik, In ik (List.seq 0%nat (length (neighbours l))) -> rhs l u j ik = rhs l u j' ik).
  { intros ik Hik. apply in_seq in Hik. unfold rhs.
    destruct (nth_error _ ik) eqn:En; [reflexivity|]. apply nth_error_None in En. rewrite map_length in En. lia. }
  revert E. generalize (@zero T A). induction (List.seq 0%nat (length (neighbours l))) as [|x xs IH]; intros t E; [reflexivity|].
  cbn [fold_left]. rewrite E by (left; auto). apply IH. intros; apply E; right; auto.
Qed.

Lemma recon_shift c x y z : mood_ok m g -> recon_guard m g c = true -> (b3 = false -> coord c IZ = 0) ->
  In (x, y, z) ((0, 0, 0) :: os m) -> In (shift c (x, y, z)) (cellsD b3 g).
Proof.
  intros (_ & _ & Hg & _ & Ho) Hr Hz Hin. apply In_cellsD.
  assert (B : Z.abs x < gw g /\ Z.abs y < gw g /\ Z.abs z < gw g /\ (b3 = false -> z = 0)).
  { destruct Hin as [E|Hin]; [|apply Ho; auto]. injection E as <- <- <-.
    assert (0 < gw g) by (destruct b3; [destruct Hg as ((?&_)&_)|destruct Hg as (?&_)]; lia). repeat split; lia. }
  unfold recon_guard in Hr. rewrite guard_spec in Hr. destruct c as [[i j] k].
  split.
  - intros a Ha. specialize (Hr a Ha). apply dirs_cases in Ha.
    destruct Ha as [->|[->|[-> _]]]; unfold sizeA in *; cbn in *; destruct b3; lia.
  - intros E. cbn. destruct B as (_ & _ & _ & B). rewrite B, Z.add_0_r by auto. apply Hz; auto.
Qed.

Lemma polyF_ext V V' j j' c : mood_ok m g -> agree V V' -> In c (cellsD b3 g) -> recon_guard m g c = true ->
  polyF m j V c = polyF m j' V' c.
Proof.
  intros Hm Hag Hc Hr.
  assert (E : forall v, 0 <= v < nv b3 -> coefsF m j V c v = coefsF m j' V' c v).
  { intros v Hv. unfold coefsF. destruct Hm as (H1 & H2 & H3) eqn:Em. rewrite H2.
    rewrite (poly_coefs_junk _ _ _ _ _ (j' c v)). apply poly_coefs_ext.
    - apply Hag; auto. apply recon_shift; auto; [apply (cell_flat m g); auto|left; auto].
    - intros [[x y] z] Hin. apply Hag; auto. apply recon_shift; auto; [apply (cell_flat m g); auto|right; auto]. }
  unfold polyF. rewrite !E by (unfold nv, ID, IP, IU, IV; destruct b3; lia).
  destruct b3 eqn:E3; [rewrite E by (unfold nv, IW; lia)|]; reflexivity.
Qed.

(** The polynomials the flux loop finds, when the coefficient arrays held [O]
    before the step. *)
Definition polyG (O : cell -> hs (list T)) (V : cell -> Z -> T) (c : cell) : hs (list T) :=
  if recon_guard m g c then polyF m junkR V c else O c.
(** The fluxes of one stage as a function of the state. *)
Definition stageF (O : cell -> hs (list T)) (V : cell -> Z -> T) : Z -> cell -> hs T :=
  finalF m p g dt junk (polyG O V) V.

Lemma polyG_ext O O' V V' c : mood_ok m g -> agree V V' -> (forall c, In c (cellsD b3 g) -> recon_guard m g c = false -> O c = O' c) ->
  In c (cellsD b3 g) -> polyG O V c = polyG O' V' c.
Proof.
  intros Hm Hag HO Hc. unfold polyG. destruct (recon_guard m g c) eqn:Hr; [|auto].
  apply polyF_ext; auto.
Qed.

Lemma mood_gw : mood_ok m g -> 1 <= gw g.
Proof. intros (_ & _ & Hg & _). destruct b3; [destruct Hg as ((?&_)&_)|destruct Hg as (?&_)]; lia. Qed.
Lemma mood_NC : mood_ok m g -> (0 < NC)%nat.
Proof. intros (H & _). unfold ncoefs. destruct (mm m); [congruence|cbn; lia]. Qed.

Lemma highP_ext P P' dir c : 1 <= gw g -> (forall c, In c (cellsD b3 g) -> P c = P' c) ->
  In dir (dirs b3) -> face_guard m g dir c = true -> (b3 = false -> coord c IZ = 0) ->
  highP m p dt junk P dir c = highP m p dt junk P' dir c.
Proof.
  intros Hg HP Hd Hf Hz. unfold highP.
  rewrite !HP; [reflexivity| |]; [eapply face_guard_in|eapply face_guard_back]; eauto.
Qed.

(** The flags of one stage. *)
Definition stageFlag (O : cell -> hs (list T)) (V : cell -> Z -> T) (c : cell) : T :=
  flagF m p g V (highP m p dt junk (polyG O V)) c.
Lemma stageFlag_ext O O' V V' c : mood_ok m g -> agree V V' ->
  (forall c, In c (cellsD b3 g) -> recon_guard m g c = false -> O c = O' c) ->
  In c (cellsD b3 g) -> stageFlag O V c = stageFlag O' V' c.
Proof.
  intros Hm Hag HO Hc. unfold stageFlag.
  pose proof (mood_gw Hm) as Hgw.
  assert (EP : forall c, In c (cellsD b3 g) -> polyG O V c = polyG O' V' c) by (intros; apply polyG_ext; auto).
  rewrite (flagF_ext m p g junk junkR V _ (highP m p dt junk (polyG O' V'))).
  - unfold flagF. destruct (interior m g c); [|reflexivity]. rewrite (stF_agree V V'); auto.
  - apply (cell_flat m g); auto.
  - intros d c' Hd' Hf' Hz'. apply highP_ext; auto.
Qed.

Lemma stageF_ext O O' V V' dir c : mood_ok m g -> agree V V' ->
  (forall c, In c (cellsD b3 g) -> recon_guard m g c = false -> O c = O' c) ->
  In dir (dirs b3) -> In c (cellsD b3 g) -> face_guard m g dir c = true ->
  stageF O V dir c = stageF O' V' dir c.
Proof.
  intros Hm Hag HO Hd Hc Hf. unfold stageF, finalF, flagP.
  pose proof (mood_gw Hm) as Hgw.
  assert (EP : forall c, In c (cellsD b3 g) -> polyG O V c = polyG O' V' c) by (intros; apply polyG_ext; auto).
  assert (EF : flagF m p g V (highP m p dt junk (polyG O V)) c = flagF m p g V' (highP m p dt junk (polyG O' V')) c)
    by (apply stageFlag_ext; auto).
  rewrite EF. rewrite (highP_ext (polyG O V) (polyG O' V')) by (auto; apply (cell_flat m g); auto).
  unfold lowF. rewrite !(stF_agree V V'); auto.
  eapply face_guard_back; eauto. apply (cell_flat m g); auto.
Qed.

Lemma interior_in c : 1 <= gw g -> interior m g c = true -> (b3 = false -> coord c IZ = 0) -> In c (cellsD b3 g).
Proof.
  intros Hg Hi Hz. apply In_cellsD. split; [|auto]. unfold interior in Hi. rewrite guard_spec in Hi.
  intros a Ha. specialize (Hi a Ha). lia.
Qed.

Lemma facesF_stage (s : store) F c : 1 <= gw g -> interior m g c = true -> (b3 = false -> coord c IZ = 0) ->
  (forall dir c, In dir (dirs b3) -> In c (cellsD b3 g) -> face_guard m g dir c = true -> fluxS m s dir c = F dir c) ->
  facesF m (fluxS m s) c = facesF m F c.
Proof.
  intros Hg Hi Hz H. apply facesF_ext. intros dir n Hd Hn.
  assert (Hf : face_guard m g dir (along_dir dir n c) = true) by (apply interior_face; auto).
  apply H; auto. eapply face_guard_in; eauto. apply along_flat; auto.
Qed.

Notation stage := (stage_fluxes m p g dt junk junkR).

(** The stage loops with the data of array [a], when that array agrees with [V]. *)
Lemma stage_spec' a (s s' : store) V : mood_ok m g -> stateA a -> agree (fv s a) V ->
  run_kernels (stage a) s s' ->
  (forall dir c, In dir (dirs b3) -> In c (cellsD b3 g) -> face_guard m g dir c = true ->
     fluxS m s' dir c = stageF (polyS m s) V dir c) /\
  (forall l, ~ scratchA m (la l) -> s' l = s l) /\
  (forall l, ~ In (at_of l) (cellsD b3 g) -> s' l = s l) /\
  (forall c, In c (cellsD b3 g) -> polyS m s' c = polyG (polyS m s) V c) /\
  (forall c, In c (cellsD b3 g) -> s' (at_cell aFlags c 0) = stageFlag (polyS m s) V c).
Proof.
  intros Hm Ha Hag Hk.
  destruct (stage_spec m p g dt junk junkR a s s' (mood_NC Hm) (mood_gw Hm) Ha Hk) as (S1 & S2 & S3 & S4 & S5).
  split; [|split; [|split; [|split]]]; auto.
  - intros dir c Hd Hc Hf. rewrite S1 by auto.
    change (finalF m p g dt junk (polyAfter m g junkR s a) (fv s a) dir c) with (stageF (polyS m s) (fv s a) dir c).
    apply stageF_ext; auto.
  - intros c Hc. rewrite S4 by auto. change (polyAfter m g junkR s a c) with (polyG (polyS m s) (fv s a) c).
    apply polyG_ext; auto.
  - intros c Hc. rewrite S5 by auto. apply (stageFlag_ext (polyS m s) (polyS m s) (fv s a) V); auto.
Qed.

Lemma state_scratch a : stateA a -> ~ scratchA m a.
Proof. unfold scratchA. ma. cbn [In]. lia. Qed.

(** ** Forward Euler *)
(** New state of a cell from the filled state [V]. *)
Definition eulerF (O : cell -> hs (list T)) (V : cell -> Z -> T) (c : cell) : hs T :=
  wn b3 (updF m V (stageF O V) c).

Lemma euler_spec aIn aNew (s s' : store) V : mood_ok m g -> stateA aIn -> stateA aNew -> aIn <> aNew ->
  agree (fv s aIn) V ->
  run_kernels (stage aIn ++ [update m g aIn aNew]) s s' ->
  (forall c, interior m g c = true -> (b3 = false -> coord c IZ = 0) -> stF b3 (fv s' aNew) c = eulerF (polyS m s) V c) /\
  (forall l, ~ scratchA m (la l) -> la l <> aNew \/ interior m g (at_of l) = false -> s' l = s l) /\
  (forall l, ~ In (at_of l) (cellsD b3 g) -> s' l = s l) /\
  (forall c, In c (cellsD b3 g) -> recon_guard m g c = false -> polyS m s' c = polyS m s c) /\
  (forall dir c, In dir (dirs b3) -> In c (cellsD b3 g) -> face_guard m g dir c = true ->
     fluxS m s' dir c = stageF (polyS m s) V dir c) /\
  (forall c, In c (cellsD b3 g) -> s' (at_cell aFlags c 0) = stageFlag (polyS m s) V c).
Proof.
  intros Hm Ha1 Ha2 Hne Hag Hk. apply run_kernels_app in Hk. destruct Hk as (s1 & K1 & K2).
  apply (stage_spec' aIn s s1 V) in K1; auto. destruct K1 as (S1 & S2 & S3 & S4 & S5).
  apply rk_inv in K2. destruct K2 as (s2 & K2 & K3). apply rk_nil_inv in K3. subst s2.
  apply update_spec in K2; auto. destruct K2 as (U1 & U2 & U3).
  split; [|split; [|split; [|split; [|split]]]].
  - intros c Hi Hz. assert (Hc : In c (cellsD b3 g)) by (apply interior_in; auto; apply mood_gw; auto).
    rewrite U1 by auto. unfold eulerF, updF.
    rewrite (facesF_stage s1 (stageF (polyS m s) V)) by (auto; apply mood_gw; auto).
    assert (stF b3 (fv s1 aIn) c = stF b3 V c) as ->; [|reflexivity].
    rewrite (stF_frame b3 s s1); [apply stF_agree; auto|]. intros v. apply S2. rewrite la_at_cell. apply state_scratch; auto.
  - intros l Hl Hl'. rewrite U2, S2; auto.
  - intros l Hl. rewrite U3, S3; auto.
  - intros c Hc Hr. rewrite (polyS_frame m junk junkR s1).
    + rewrite S4 by auto. unfold polyG. rewrite Hr. reflexivity.
    + intros l Hl. apply U2. left. ma. lia.
  - intros dir c Hd Hc Hf. rewrite <- S1 by auto. apply stF_frame. intros v. apply U2. left. rewrite la_at_cell.
    apply aFlux_in in Hd. ma. cbn [In] in Hd. lia.
  - intros c Hc. rewrite <- S5 by auto. apply U2. left. rewrite la_at_cell. ma. lia.
Qed.

(** The prologue of every step: boundary fill of the input, copy to the output. *)
Lemma prologue_spec aIn aOut (s s' : store) : mood_ok m g -> stateA aIn -> stateA aOut -> aIn <> aOut ->
  run_kernels (boundaries m g aIn ++ [copy m g aOut aIn]) s s' ->
  agree (fv s' aIn) (fillF (fv s aIn)) /\ agree (fv s' aOut) (fillF (fv s aIn)) /\
  (forall l, la l <> aIn -> la l <> aOut -> s' l = s l) /\
  (forall l, ~ In (at_of l) (cellsD b3 g) -> s' l = s l).
Proof.
  intros Hm H1 H2 Hne Hk. apply run_kernels_app in Hk. destruct Hk as (s1 & K1 & K2).
  apply fill_spec in K1; auto. destruct K1 as (F1 & F2 & F3).
  apply rk_inv in K2. destruct K2 as (s2 & K2 & K3). apply rk_nil_inv in K3. subst s2.
  apply copy_spec in K2; auto. destruct K2 as (C1 & C2 & C3).
  split; [|split; [|split]].
  - intros c v Hc Hv. unfold fv at 1. rewrite C2 by (rewrite la_at_cell; auto). apply F1; auto.
  - intros c v Hc Hv. rewrite C1 by auto. apply F1; auto.
  - intros l Hl Hl'. rewrite C2, F2; auto.
  - intros l Hl. rewrite C3, F3; auto.
Qed.

Lemma step_fe_spec aIn aOut (s s' : store) : mood_ok m g -> stateA aIn -> stateA aOut -> aIn <> aOut ->
  run_kernels (time_integration m p g dt junk junkR FE aIn aOut) s s' ->
  (forall c, interior m g c = true -> (b3 = false -> coord c IZ = 0) ->
     stF b3 (fv s' aOut) c = eulerF (polyS m s) (fillF (fv s aIn)) c) /\
  agree (fv s' aIn) (fillF (fv s aIn)) /\
  (forall l, ~ scratchA m (la l) -> la l <> aIn -> la l <> aOut -> s' l = s l) /\
  (forall l, ~ In (at_of l) (cellsD b3 g) -> s' l = s l) /\
  (forall c, In c (cellsD b3 g) -> recon_guard m g c = false -> polyS m s' c = polyS m s c) /\
  (forall dir c, In dir (dirs b3) -> In c (cellsD b3 g) -> face_guard m g dir c = true ->
     fluxS m s' dir c = stageF (polyS m s) (fillF (fv s aIn)) dir c) /\
  (forall c, In c (cellsD b3 g) -> s' (at_cell aFlags c 0) = stageFlag (polyS m s) (fillF (fv s aIn)) c).
Proof.
  intros Hm H1 H2 Hne Hk. unfold time_integration, forward_euler in Hk. rewrite app_assoc in Hk.
  apply run_kernels_app in Hk. destruct Hk as (s1 & K1 & K2).
  apply prologue_spec in K1; auto. destruct K1 as (P1 & P2 & P3 & P4).
  apply (euler_spec aIn aOut s1 s' (fillF (fv s aIn))) in K2; auto. destruct K2 as (E1 & E2 & E3 & E4 & E5 & E6).
  assert (EO : forall c, polyS m s1 c = polyS m s c).
  { intros c. apply (polyS_frame m junk junkR). intros l Hl. apply P3; ma; lia. }
  assert (EG : forall dir c, In dir (dirs b3) -> In c (cellsD b3 g) -> face_guard m g dir c = true ->
     stageF (polyS m s1) (fillF (fv s aIn)) dir c = stageF (polyS m s) (fillF (fv s aIn)) dir c).
  { intros dir c Hd Hc Hf. apply stageF_ext; auto. intros c' v Hc' Hv. reflexivity. }
  split; [|split; [|split; [|split; [|split; [|split]]]]].
  - intros c Hi Hz. rewrite E1 by auto. unfold eulerF, updF.
    rewrite (facesF_ext m (stageF (polyS m s1) (fillF (fv s aIn))) (stageF (polyS m s) (fillF (fv s aIn)))); [reflexivity|].
    intros dir n Hd Hn. assert (Hf : face_guard m g dir (along_dir dir n c) = true) by (apply interior_face; auto).
    apply EG; auto. eapply face_guard_in; eauto; [apply mood_gw; auto|apply along_flat; auto].
  - intros c v Hc Hv. unfold fv at 1. rewrite E2; [apply P1; auto| |].
    + rewrite la_at_cell. apply state_scratch; auto.
    + rewrite la_at_cell. auto.
  - intros l Hs Hl Hl'. rewrite E2, P3; auto.
  - intros l Hl. rewrite E3, P4; auto.
  - intros c Hc Hr. rewrite E4 by auto. apply EO.
  - intros dir c Hd Hc Hf. rewrite E5 by auto. apply EG; auto.
  - intros c Hc. rewrite E6 by auto. apply stageFlag_ext; auto. intros c' v _ _. reflexivity.
Qed.

(** ** Runge-Kutta integrators *)
Lemma stageF_same O O' V dir c : mood_ok m g ->
  (forall c, In c (cellsD b3 g) -> recon_guard m g c = false -> O c = O' c) ->
  In dir (dirs b3) -> In c (cellsD b3 g) -> face_guard m g dir c = true -> stageF O V dir c = stageF O' V dir c.
Proof. intros Hm HO Hd Hc Hf. apply stageF_ext; auto. intros c' v _ _. reflexivity. Qed.

Lemma facesF_agree O O' V V' c : mood_ok m g -> agree V V' ->
  (forall c, In c (cellsD b3 g) -> recon_guard m g c = false -> O c = O' c) ->
  interior m g c = true -> (b3 = false -> coord c IZ = 0) ->
  facesF m (stageF O V) c = facesF m (stageF O' V') c.
Proof.
  intros Hm Hag HO Hi Hz. apply facesF_ext. intros dir n Hd Hn.
  assert (Hf : face_guard m g dir (along_dir dir n c) = true) by (apply interior_face; auto).
  apply stageF_ext; auto. eapply face_guard_in; eauto; [apply mood_gw; auto|apply along_flat; auto].
Qed.

(** A later stage: boundary fill of [aW], stage loops, then an update [ker] that
    reads [aIn], [aW] and the fluxes and writes [aNew]. *)
Lemma later_stage aIn aW aNew ker (F : (cell -> Z -> T) -> (cell -> Z -> T) -> (Z -> cell -> hs T) -> cell -> hs T)
  O V (s s' : store) :
  mood_ok m g -> stateA aIn -> stateA aW -> stateA aNew -> aIn <> aW ->
  (forall V1 V2 W1 W2 F1 F2 c, stF b3 V1 c = stF b3 V2 c -> stF b3 W1 c = stF b3 W2 c -> facesF m F1 c = facesF m F2 c ->
     F V1 W1 F1 c = F V2 W2 F2 c) ->
  (forall s s' : store, par_exec s ker s' ->
     (forall c, In c (cellsD b3 g) -> interior m g c = true -> stF b3 (fv s' aNew) c = wn b3 (F (fv s aIn) (fv s aW) (fluxS m s) c)) /\
     (forall l, la l <> aNew \/ interior m g (at_of l) = false -> s' l = s l) /\
     (forall l, ~ In (at_of l) (cellsD b3 g) -> s' l = s l)) ->
  agree (fv s aIn) V -> (forall c, In c (cellsD b3 g) -> recon_guard m g c = false -> polyS m s c = O c) ->
  run_kernels (boundaries m g aW ++ stage aW ++ [ker]) s s' ->
  (forall c, interior m g c = true -> (b3 = false -> coord c IZ = 0) ->
     stF b3 (fv s' aNew) c = wn b3 (F V (fillF (fv s aW)) (stageF O (fillF (fv s aW))) c)) /\
  (forall l, ~ scratchA m (la l) -> la l <> aW -> la l <> aNew \/ interior m g (at_of l) = false -> s' l = s l) /\
  (forall l, ~ In (at_of l) (cellsD b3 g) -> s' l = s l) /\
  (forall c, In c (cellsD b3 g) -> recon_guard m g c = false -> polyS m s' c = O c).
Proof.
  intros Hm HaI HaW HaN Hne Fext Hker Hag HO Hk.
  apply run_kernels_app in Hk. destruct Hk as (s1 & K1 & Hk).
  apply run_kernels_app in Hk. destruct Hk as (s2 & K2 & Hk).
  apply rk_inv in Hk. destruct Hk as (s3 & K3 & Hk). apply rk_nil_inv in Hk. subst s3.
  apply fill_spec in K1; auto. destruct K1 as (F1 & F2 & F3).
  assert (Hag1 : agree (fv s1 aW) (fillF (fv s aW))) by (intros c v Hc Hv; apply F1; auto).
  apply (stage_spec' aW s1 s2 (fillF (fv s aW))) in K2; auto. destruct K2 as (S1 & S2 & S3 & S4 & _).
  apply Hker in K3. destruct K3 as (U1 & U2 & U3).
  assert (HO1 : forall c, polyS m s1 c = polyS m s c).
  { intros c. apply (polyS_frame m junk junkR). intros l Hl. apply F2. ma. lia. }
  split; [|split; [|split]].
  - intros c Hi Hz. assert (Hc : In c (cellsD b3 g)) by (apply interior_in; auto; apply mood_gw; auto).
    rewrite U1 by auto. f_equal. apply Fext.
    + rewrite (stF_frame b3 s s2); [apply stF_agree; auto|].
      intros v. rewrite S2, F2; auto; rewrite la_at_cell; auto. apply state_scratch; auto.
    + rewrite (stF_frame b3 s1 s2); [apply stF_agree; auto|].
      intros v. rewrite S2; auto; rewrite la_at_cell; auto. apply state_scratch; auto.
    + rewrite (facesF_stage s2 (stageF (polyS m s1) (fillF (fv s aW)))) by (auto; apply mood_gw; auto).
      apply facesF_agree; auto.
      * intros c' v _ _. reflexivity.
      * intros c' Hc' Hr. rewrite HO1. auto.
  - intros l Hl Hl' Hl''. rewrite U2, S2, F2; auto.
  - intros l Hl. rewrite U3, S3, F3; auto.
  - intros c Hc Hr. rewrite (polyS_frame m junk junkR s2).
    + rewrite S4 by auto. unfold polyG. rewrite Hr, HO1. auto.
    + intros l Hl. apply U2. left. ma. lia.
Qed.

(** The first stage of the Runge-Kutta integrators. *)
Lemma first_stage aIn aOut (s s' : store) : mood_ok m g -> state4 aIn -> state4 aOut -> aIn <> aOut -> aIn <> aRK1 ->
  run_kernels ((boundaries m g aIn ++ [copy m g aOut aIn]) ++ [copy m g aRK1 aIn] ++ stage aIn ++ [update m g aIn aRK1]) s s' ->
  let V := fillF (fv s aIn) in
  (forall c, interior m g c = true -> (b3 = false -> coord c IZ = 0) -> stF b3 (fv s' aRK1) c = eulerF (polyS m s) V c) /\
  agree (fv s' aIn) V /\
  (forall l, ~ scratchA m (la l) -> la l <> aIn -> la l <> aOut -> la l <> aRK1 -> s' l = s l) /\
  (forall l, ~ In (at_of l) (cellsD b3 g) -> s' l = s l) /\
  (forall c, In c (cellsD b3 g) -> recon_guard m g c = false -> polyS m s' c = polyS m s c).
Proof.
  intros Hm H1 H2 Hne Hne1 Hk V. apply state4_A in H1. apply state4_A in H2.
  assert (HR : stateA aRK1) by (unfold stateA; auto).
  apply run_kernels_app in Hk. destruct Hk as (s1 & K1 & Hk).
  apply prologue_spec in K1; auto. destruct K1 as (P1 & P2 & P3 & P4). fold V in P1, P2.
  cbn [app] in Hk. apply rk_inv in Hk. destruct Hk as (s2 & K2 & Hk).
  apply copy_spec in K2; auto. destruct K2 as (C1 & C2 & C3).
  assert (Hag2 : agree (fv s2 aIn) V).
  { intros c v Hc Hv. unfold fv at 1. rewrite C2 by (rewrite la_at_cell; auto). apply P1; auto. }
  apply (euler_spec aIn aRK1 s2 s' V) in Hk; auto. destruct Hk as (E1 & E2 & E3 & E4 & _).
  assert (EO : forall c, polyS m s2 c = polyS m s c).
  { intros c. apply (polyS_frame m junk junkR). intros l Hl. rewrite C2, P3; auto; ma; lia. }
  split; [|split; [|split; [|split]]].
  - intros c Hi Hz. rewrite E1 by auto. unfold eulerF, updF. rewrite (facesF_agree (polyS m s2) (polyS m s) V V); auto.
    intros c' v _ _. reflexivity.
  - intros c v Hc Hv. unfold fv at 1. rewrite E2; [apply Hag2; auto| |]; rewrite la_at_cell; [apply state_scratch|]; auto.
  - intros l Hs Hl Hl' Hl''. rewrite E2, C2, P3; auto.
  - intros l Hl. rewrite E3, C3, P4; auto.
  - intros c Hc Hr. rewrite E4 by auto. apply EO.
Qed.

Lemma updF2_ext V1 V2 W1 W2 F1 F2 c : stF b3 V1 c = stF b3 V2 c -> stF b3 W1 c = stF b3 W2 c -> facesF m F1 c = facesF m F2 c ->
  updF2 m V1 W1 F1 c = updF2 m V2 W2 F2 c.
Proof. intros E1 E2 E3. unfold updF2. rewrite E1, E2, E3. reflexivity. Qed.
Lemma updFw_ext a b w V1 V2 W1 W2 F1 F2 c : stF b3 V1 c = stF b3 V2 c -> stF b3 W1 c = stF b3 W2 c -> facesF m F1 c = facesF m F2 c ->
  updFw m V1 W1 F1 a b w c = updFw m V2 W2 F2 a b w c.
Proof. intros E1 E2 E3. unfold updFw. rewrite E1, E2, E3. reflexivity. Qed.

Definition io (aIn aOut : Z) : Prop := (aIn = aU /\ aOut = aU2) \/ (aIn = aU2 /\ aOut = aU).

Lemma step_rk2_spec aIn aOut (s s' : store) : mood_ok m g -> io aIn aOut ->
  run_kernels (time_integration m p g dt junk junkR RK2 aIn aOut) s s' ->
  let V := fillF (fv s aIn) in let O := polyS m s in
  exists W,
  (forall c, interior m g c = true -> (b3 = false -> coord c IZ = 0) -> stF b3 W c = eulerF O V c) /\
  (forall c, interior m g c = true -> (b3 = false -> coord c IZ = 0) ->
     stF b3 (fv s' aOut) c = wn b3 (updF2 m V (fillF W) (stageF O (fillF W)) c)) /\
  (forall l, ~ scratchA m (la l) -> la l <> aIn -> la l <> aOut -> la l <> aRK1 -> s' l = s l).
Proof.
  intros Hm Hio Hk V O.
  assert (N : state4 aIn /\ state4 aOut /\ aIn <> aOut /\ aIn <> aRK1 /\ aOut <> aRK1).
  { unfold state4; cbn [In]. unfold io in Hio. ma. lia. }
  destruct N as (N1 & N2 & N3 & N4 & N5).
  assert (Hk' : run_kernels (((boundaries m g aIn ++ [copy m g aOut aIn]) ++ [copy m g aRK1 aIn] ++ stage aIn ++ [update m g aIn aRK1])
     ++ (boundaries m g aRK1 ++ stage aRK1 ++ [update_ssprk2 m g aIn aRK1 aOut])) s s').
  { unfold time_integration, ssprk2 in Hk. rewrite <- !app_assoc. exact Hk. }
  clear Hk. apply run_kernels_app in Hk'. destruct Hk' as (s1 & K1 & K2).
  apply first_stage in K1; auto. destruct K1 as (A1 & A2 & A3 & A4 & A5). fold V in A1, A2.
  apply state4_A in N1. apply state4_A in N2.
  apply (later_stage aIn aRK1 aOut _ (updF2 m) O V) in K2; auto.
  - destruct K2 as (B1 & B2 & B3 & B4). exists (fv s1 aRK1). split; [|split]; auto.
    intros l Hl Hl1 Hl2 Hl3. rewrite B2, A3; auto.
  - unfold stateA; auto.
  - apply updF2_ext.
  - intros t t' Ht. apply update_ssprk2_spec in Ht; auto. unfold stateA; auto.
Qed.

Lemma step_rk3_spec aIn aOut (s s' : store) : mood_ok m g -> io aIn aOut ->
  run_kernels (time_integration m p g dt junk junkR RK3 aIn aOut) s s' ->
  let V := fillF (fv s aIn) in let O := polyS m s in
  exists W1 W2,
  (forall c, interior m g c = true -> (b3 = false -> coord c IZ = 0) -> stF b3 W1 c = eulerF O V c) /\
  (forall c, interior m g c = true -> (b3 = false -> coord c IZ = 0) ->
     stF b3 W2 c = wn b3 (updFw m V (fillF W1) (stageF O (fillF W1)) (lit 3 4) (lit 1 4) (lit 1 4) c)) /\
  (forall c, interior m g c = true -> (b3 = false -> coord c IZ = 0) ->
     stF b3 (fv s' aOut) c = wn b3 (updFw m V (fillF W2) (stageF O (fillF W2))
       (div one (lit 3 1)) (div two (lit 3 1)) (div two (lit 3 1)) c)) /\
  (forall l, ~ scratchA m (la l) -> la l <> aIn -> la l <> aOut -> la l <> aRK1 -> la l <> aRK2 -> s' l = s l).
Proof.
  intros Hm Hio Hk V O.
  assert (N : state4 aIn /\ state4 aOut /\ aIn <> aOut /\ aIn <> aRK1 /\ aOut <> aRK1 /\ aIn <> aRK2 /\ aOut <> aRK2).
  { unfold state4; cbn [In]. unfold io in Hio. ma. lia. }
  destruct N as (N1 & N2 & N3 & N4 & N5 & N6 & N7).
  assert (Hk' : run_kernels (((boundaries m g aIn ++ [copy m g aOut aIn]) ++ [copy m g aRK1 aIn] ++ stage aIn ++ [update m g aIn aRK1])
     ++ (boundaries m g aRK1 ++ stage aRK1 ++ [update_weight m g aIn aRK1 aRK2 (lit 3 4) (lit 1 4) (lit 1 4)])
     ++ (boundaries m g aRK2 ++ stage aRK2 ++
         [update_weight m g aIn aRK2 aOut (div one (lit 3 1)) (div two (lit 3 1)) (div two (lit 3 1))])) s s').
  { unfold time_integration, ssprk3 in Hk. rewrite <- !app_assoc. exact Hk. }
  clear Hk. apply run_kernels_app in Hk'. destruct Hk' as (s1 & K1 & K2).
  apply run_kernels_app in K2. destruct K2 as (s2 & K2 & K3).
  apply first_stage in K1; auto. destruct K1 as (A1 & A2 & A3 & A4 & A5). fold V in A1, A2.
  apply state4_A in N1. apply state4_A in N2.
  assert (HR1 : stateA aRK1) by (unfold stateA; auto). assert (HR2 : stateA aRK2) by (unfold stateA; auto).
  assert (HR : aRK1 <> aRK2) by (unfold aRK1, aRK2; lia).
  apply (later_stage aIn aRK1 aRK2 _ (fun V W F => updFw m V W F (lit 3 4) (lit 1 4) (lit 1 4)) O V) in K2; auto.
  2:{ apply updFw_ext. }
  2:{ intros t t' Ht. apply update_weight_spec in Ht; auto. }
  destruct K2 as (B1 & B2 & B3 & B4).
  assert (Hag2 : agree (fv s2 aIn) V).
  { intros c v Hc Hv. unfold fv at 1. rewrite B2; [apply A2; auto|..]; rewrite la_at_cell; auto. apply state_scratch; auto. }
  apply (later_stage aIn aRK2 aOut _ (fun V W F => updFw m V W F (div one (lit 3 1)) (div two (lit 3 1)) (div two (lit 3 1))) O V) in K3; auto.
  2:{ apply updFw_ext. }
  2:{ intros t t' Ht. apply update_weight_spec in Ht; auto. }
  destruct K3 as (C1 & C2 & C3 & C4).
  exists (fv s1 aRK1), (fv s2 aRK2). split; [|split; [|split]]; auto.
  intros l Hl Hl1 Hl2 Hl3 Hl4. rewrite C2, B2, A3; auto.
Qed.

(** SSP-RK54 copies and does nothing else. *)
Lemma step_rk54_spec aIn aOut (s s' : store) : mood_ok m g -> io aIn aOut ->
  run_kernels (time_integration m p g dt junk junkR RK54 aIn aOut) s s' ->
  agree (fv s' aOut) (fillF (fv s aIn)).
Proof.
  intros Hm Hio Hk. unfold time_integration, ssprk54 in Hk. rewrite app_assoc in Hk.
  apply run_kernels_app in Hk. destruct Hk as (s1 & K1 & K2).
  assert (N : stateA aIn /\ stateA aOut /\ aIn <> aOut /\ aIn <> aRK1 /\ aOut <> aRK1) by (unfold io in Hio; ma; lia).
  destruct N as (N1 & N2 & N3 & N4 & N5).
  apply prologue_spec in K1; auto. destruct K1 as (P1 & P2 & P3 & P4).
  apply rk_inv in K2. destruct K2 as (s2 & K2 & K3). apply rk_nil_inv in K3. subst s2.
  apply copy_spec in K2; auto. destruct K2 as (C1 & C2 & C3).
  intros c v Hc Hv. unfold fv at 1. rewrite C2 by (rewrite la_at_cell; auto). apply P2; auto.
Qed.
End MR.
