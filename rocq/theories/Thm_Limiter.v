(** Theorems about the slope limiter of the spectral difference solver: C81. *)
From Coq Require Import ZArith List Bool Reals Lia Lra.
From Coquelicot Require Import Coquelicot.
From Verif Require Import Arith Par ParProofs GridModel BoundarySpec BoundaryProofs HydroState HydroKernels CellKernels PointProofs MoodKernels MoodProofs
  TaskModel TaskKernels SdmGeom SdmSpec SdmPoints SdmKernels SdmDofs SdmProofs SdmRunSpec
  SdmConsSpec SdmConserve SdmFlux EulerModel EulerSpec SdmDt SdmDtProofs SdmPos SdmPosSpec SdmPosProofs SdmPosRun
  SdmLim SdmLimRun SdmLimSpec SdmLimProofs HydroConserve Thm_Positivity.
Import ListNotations.
Open Scope R_scope.

(** A run of the limiter on array [a] with the averages and gradients stored, in any
    interleaving of the cells. *)
Definition limits (b3 : bool) (P : points R) (p : hparams R) (M : R) (g : grid) (a : Z) (s s' : store R) : Prop :=
  (1 <= npts P)%Z /\ distinct (npts P) (solp P) /\ (npts P = 1%Z -> solp P 0 = / 2) /\
  a <> aAve /\ (forall d, In d (dirs b3) -> a <> aGrad d) /\
  par_exec s (apply_limiter b3 P p M g a) s'.
(** Averages, gradients and limiter, with the points of the code. *)
Definition limits_step (b3 : bool) (N : Z) (p : hparams R) (M : R) (g : grid) (a : Z) (s s' : store R) : Prop :=
  (1 <= N)%Z /\ a <> aAve /\ (forall d, In d (dirs b3) -> a <> aGrad d) /\
  run_kernels (limiting b3 (sdm_points N) p PI M g a) s s'.

Lemma off_rim_iff b3 g c : off_rim b3 g c = true <-> not_outermost b3 g c.
Proof.
  unfold off_rim, not_outermost. rewrite forallb_forall. split; intros H a Ha; specialize (H a Ha).
  - apply andb_true_iff in H. lia.
  - apply andb_true_iff. lia.
Qed.

Lemma sizeA_N g a : sizeA g a = (sizeN g a + 2 * gw g)%Z.
Proof. unfold sizeA, sizeN, isize, jsize, ksize, imax, jmax, kmax, imin, jmin, kmin. destruct (a =? IX)%Z; [|destruct (a =? IY)%Z]; lia. Qed.
Lemma hs_state b3 (f h : Z -> R) : (forall v, In v (vars b3) -> f v = h v) -> hs_of b3 f = state_of b3 h.
Proof. intros H. change (hs_of b3 f) with (state_of b3 f). apply state_ext, H. Qed.
Section Inputs.
Variable b3 : bool.
Variable p : hparams R.
Variable M : R.
Variable s : store R.
Variable c : cell.
Notation m := (stored_average aAve s c).
Notation charac d f := (cons_to_charac b3 (gamma0 p) d (state_of b3 f) (state_of b3 m) (gamma0 p * m IP / m ID)).
Lemma speed_eq : lim_speed p (inputs_at b3 s c) = gamma0 p * m IP / m ID.
Proof. unfold lim_speed, compute_speed_of_sound, inputs_at. cbn [i_ave ave_state hs_of hP hD]. ar. unfold stored_average, Rdiv. ring. Qed.
Lemma du_eq d : du b3 p d (inputs_at b3 s c) = charac d (stored_average (aGrad d) s c).
Proof.
  unfold du, to_charac. rewrite speed_eq. f_equal. apply hs_state. intros v Hv. cbn [i_grad inputs_at]. unfold grad_state.
  change (@hget R) with (@comp R). rewrite comp_hs_of by auto. ar. unfold stored_average. ring.
Qed.
Lemma du_lo_eq d : du_lo b3 p d (inputs_at b3 s c) = charac d (fun v => m v - stored_average aAve s (along_dir d (-1) c) v).
Proof.
  unfold du_lo, to_charac. rewrite speed_eq. f_equal. apply hs_state. intros v Hv. cbn [i_ave i_lo inputs_at]. unfold ave_state.
  change (@hget R) with (@comp R). rewrite !comp_hs_of by auto. reflexivity.
Qed.
Lemma du_hi_eq d : du_hi b3 p d (inputs_at b3 s c) = charac d (fun v => stored_average aAve s (along_dir d 1 c) v - m v).
Proof.
  unfold du_hi, to_charac. rewrite speed_eq. f_equal. apply hs_state. intros v Hv. cbn [i_ave i_hi inputs_at]. unfold ave_state.
  change (@hget R) with (@comp R). rewrite !comp_hs_of by auto. reflexivity.
Qed.
Lemma du_new_limited d v : In v (vars b3) ->
  tvb_limited M (comp (du b3 p d (inputs_at b3 s c)) v) (comp (du_lo b3 p d (inputs_at b3 s c)) v) (comp (du_hi b3 p d (inputs_at b3 s c)) v)
    (comp (du_new b3 p M d (inputs_at b3 s c)) v).
Proof.
  intros Hv. unfold du_new. rewrite comp_hs_of by auto. change (@hget R) with (@comp R).
  replace (mul one (comp (du_lo b3 p d (inputs_at b3 s c)) v)) with (comp (du_lo b3 p d (inputs_at b3 s c)) v) by (ar; ring).
  replace (mul one (comp (du_hi b3 p d (inputs_at b3 s c)) v)) with (comp (du_hi b3 p d (inputs_at b3 s c)) v) by (ar; ring).
  apply minmod_limited.
Qed.
Lemma slope_eq d : slope b3 p M d (inputs_at b3 s c) =
  charac_to_cons b3 (gamma0 p) d (du_new b3 p M d (inputs_at b3 s c)) (state_of b3 m) (gamma0 p * m IP / m ID).
Proof.
  unfold slope. rewrite speed_eq. f_equal. apply (hs_eta b3).
  - intros Eb. unfold hs_of, du_new, hs_of. rewrite Eb. reflexivity.
  - intros v Hv. rewrite comp_hs_of by auto. change (@hget R) with (@comp R). ar. field.
Qed.
End Inputs.

(** What the limiter does: in the variables given by the eigenvectors of the flux
    for sound speed gamma E / rho, the average gradient is limited by the
    differences between the averages of the cell and of its neighbours; if that
    changes it by more than 1e-10 in the mean, the values of the cell become those
    of the function with the stored average at the centre and the limited slopes,
    otherwise they stay.  The outermost cells and the other arrays stay. *)
Theorem C81_limited : forall b3 P p M g a s s', limits b3 P p M g a s s' ->
  (forall c, In c (cells b3 g) ->
   let U := stored b3 P s a c in let U' := stored b3 P s' a c in
   let m := stored_average aAve s c in let grad := fun d => stored_average (aGrad d) s c in
   let cs := gamma0 p * m IP / m ID in
   let charac := fun d f => cons_to_charac b3 (gamma0 p) d (state_of b3 f) (state_of b3 m) cs in
   (~ not_outermost b3 g c -> forall q v, In q (dofs b3 P) -> In v (vars b3) -> U' q v = U q v) /\
   (not_outermost b3 g c -> forall w : Z -> hs R,
      (forall d v, In d (dirs b3) -> In v (vars b3) ->
         tvb_limited M (comp (charac d (grad d)) v)
           (comp (charac d (fun v => m v - stored_average aAve s (along_dir d (-1) c) v)) v)
           (comp (charac d (fun v => stored_average aAve s (along_dir d 1 c) v - m v)) v) (comp (w d) v)) ->
      (b3 = false -> forall d, hW (w d) = 0) ->
      let change := lsum (fun d => lsum (fun v => Rabs (comp (w d) v - comp (charac d (grad d)) v)) (vars b3)) (dirs b3) / IZR (nbv b3) in
      (change <= 1 / 10000000000 -> forall q v, In q (dofs b3 P) -> In v (vars b3) -> U' q v = U q v) /\
      (1 / 10000000000 < change ->
         affine_cell b3 P m (fun d v => comp (charac_to_cons b3 (gamma0 p) d (w d) (state_of b3 m) cs) v) U'))) /\
  (forall l, la l <> a -> s' l = s l).
Proof.
  intros b3 P p M g a s s' (HN & HP & H1 & Ha & Hg & Hex).
  destruct (limiter_run b3 P p M g a s s' Ha Hg Hex) as [R F]. split; [|exact F].
  intros c Hc U U' m grad cs charac. split.
  - intros Hr q v Hq Hv. unfold U', stored. rewrite R by auto. destruct (off_rim b3 g c) eqn:E; [|reflexivity].
    exfalso. apply Hr, off_rim_iff, E.
  - intros Hr w Hw H0. apply off_rim_iff in Hr. set (I := inputs_at b3 s c).
    assert (Ew : forall d, In d (dirs b3) -> w d = du_new b3 p M d I).
    { intros d Hd. apply (hs_eta b3).
      - intros Eb. rewrite H0 by auto. unfold du_new, hs_of. rewrite Eb. reflexivity.
      - intros v Hv. apply (limited_unique M (comp (charac d (grad d)) v) (comp (charac d (fun v => m v - stored_average aAve s (along_dir d (-1) c) v)) v)
          (comp (charac d (fun v => stored_average aAve s (along_dir d 1 c) v - m v)) v)); [apply Hw; auto|].
        pose proof (du_new_limited b3 p M s c d v Hv) as L. rewrite du_eq, du_lo_eq, du_hi_eq in L. exact L. }
    intros change.
    assert (Ec : change = lsum (fun d => lsum (fun v => Rabs (comp (du_new b3 p M d I) v - comp (du b3 p d I) v)) (vars b3)) (dirs b3) / IZR (nbv b3)).
    { unfold change. f_equal. apply lsum_ext. intros d Hd. apply lsum_ext. intros v Hv. rewrite Ew by auto. unfold I. rewrite du_eq. reflexivity. }
    pose proof (active_iff b3 p M I) as AI. rewrite <- Ec in AI.
    split; intros Hch.
    + intros q v Hq Hv. unfold U', stored. rewrite R, Hr by auto. unfold limiter_cell. fold I.
      destruct (active b3 p M I); [|reflexivity]. pose proof (proj1 AI eq_refl). lra.
    + intros q v Hq Hv. unfold U', stored. rewrite R, Hr by auto. unfold limiter_cell. fold I.
      rewrite (proj2 AI Hch), (linear_affine b3 P p M I) by auto. f_equal.
      * unfold I, inputs_at, ave_state. cbn [i_ave]. rewrite comp_hs_of by auto. reflexivity.
      * apply lsum_ext. intros d Hd. rewrite Ew by auto. unfold I. rewrite slope_eq. reflexivity.
Qed.
Print Assumptions C81_limited.

(** Existence of the limited slopes [w]. *)
Lemma limited_exists b3 p M (s : store R) c : exists w : Z -> hs R,
  let m := stored_average aAve s c in let cs := gamma0 p * m IP / m ID in
  let charac := fun d f => cons_to_charac b3 (gamma0 p) d (state_of b3 f) (state_of b3 m) cs in
  (forall d v, In d (dirs b3) -> In v (vars b3) ->
     tvb_limited M (comp (charac d (stored_average (aGrad d) s c)) v)
       (comp (charac d (fun v => m v - stored_average aAve s (along_dir d (-1) c) v)) v)
       (comp (charac d (fun v => stored_average aAve s (along_dir d 1 c) v - m v)) v) (comp (w d) v)) /\
  (b3 = false -> forall d, hW (w d) = 0).
Proof.
  exists (fun d => du_new b3 p M d (inputs_at b3 s c)). cbv zeta. split.
  - intros d v _ Hv. pose proof (du_new_limited b3 p M s c d v Hv) as L. rewrite du_eq, du_lo_eq, du_hi_eq in L. exact L.
  - intros Eb d. unfold du_new, hs_of. rewrite Eb. reflexivity.
Qed.
(** Slopes below the threshold: nothing changes. *)
Theorem C81_kept : forall b3 P p M g a s s' c, limits b3 P p M g a s s' -> In c (cells b3 g) ->
  let m := stored_average aAve s c in
  (forall d v, In d (dirs b3) -> In v (vars b3) ->
     Rabs (comp (cons_to_charac b3 (gamma0 p) d (state_of b3 (stored_average (aGrad d) s c)) (state_of b3 m) (gamma0 p * m IP / m ID)) v) < M) ->
  forall q v, In q (dofs b3 P) -> In v (vars b3) -> stored b3 P s' a c q v = stored b3 P s a c q v.
Proof.
  intros b3 P p M g a s s' c HL Hc m HM. destruct (C81_limited b3 P p M g a s s' HL) as [H _]. destruct (H c Hc) as [H1 H2]. clear H.
  destruct (off_rim b3 g c) eqn:Er.
  - apply off_rim_iff in Er. destruct (limited_exists b3 p M s c) as (w & W1 & W2). destruct (H2 Er w W1 W2) as [H3 _]. apply H3.
    rewrite (lsum_ext _ (fun _ => 0)).
    + rewrite lsum_0. unfold Rdiv. rewrite Rmult_0_l. lra.
    + intros d Hd. rewrite (lsum_ext _ (fun _ => 0)); [apply lsum_0|]. intros v Hv. destruct (W1 d v Hd Hv) as [W _].
      rewrite W by (apply HM; auto). fold m. rewrite Rminus_eq_0. apply Rabs_R0.
  - apply H1. intros N. apply off_rim_iff in N. congruence.
Qed.
Print Assumptions C81_kept.

(** A cell that changes has exactly the stored averages afterwards. *)
Theorem C81_average : forall b3 P p M g a s s' c, limits b3 P p M g a s s' -> In c (cells b3 g) ->
  (forall q v, In q (dofs b3 P) -> In v (vars b3) -> stored b3 P s' a c q v = stored b3 P s a c q v) \/
  (forall v, In v (vars b3) -> average b3 P (stored b3 P s' a) c v = stored_average aAve s c v).
Proof.
  intros b3 P p M g a s s' c HL Hc. destruct (C81_limited b3 P p M g a s s' HL) as [H _]. destruct (H c Hc) as [H1 H2]. clear H.
  destruct HL as (HN & HP & HH & _).
  destruct (off_rim b3 g c) eqn:Er.
  - apply off_rim_iff in Er. destruct (limited_exists b3 p M s c) as (w & W1 & W2). destruct (H2 Er w W1 W2) as [H3 H4].
    match type of H4 with ?e < ?x -> _ => destruct (Rle_lt_dec x e) as [L|L] end.
    + left. exact (H3 L).
    + right. intros v Hv. apply (affine_average b3 P HN HP HH (stored b3 P s' a) c _ _ v (H4 L) Hv).
  - left. apply H1. intros N. apply off_rim_iff in N. congruence.
Qed.
Print Assumptions C81_average.

(** ** With the averages and gradients the solver computes *)
Lemma std_points N : (1 <= N)%Z -> distinct (npts (sdm_points N)) (solp (sdm_points N)) /\ (npts (sdm_points N) = 1%Z -> solp (sdm_points N) 0 = / 2).
Proof.
  intros HN. split.
  - apply increasing_distinct. apply sol_increasing.
  - cbn [npts solp sdm_points]. intros ->. unfold sol_ptsR. replace (PI * (2 * 0 + 1) / 2 / 1) with (PI / 2) by field. rewrite cos_PI2. field.
Qed.
Lemma limits_split b3 N p M g a s s' : limits_step b3 N p M g a s s' -> let P := sdm_points N in
  exists s1, limits b3 P p M g a s1 s' /\
    (forall c v, In c (cells b3 g) -> In v (vars b3) -> stored_average aAve s1 c v = cell_average b3 P p PI (stored b3 P s a c) v) /\
    (forall d c v, In d (dirs b3) -> In c (cells b3 g) -> In v (vars b3) ->
       stored_average (aGrad d) s1 c v = cell_gradient b3 P PI d (stored b3 P s a c) v) /\
    (forall l, la l = a -> s1 l = s l).
Proof.
  intros (HN & Ha & Hg & K) P. unfold limiting in K. cbn [app] in K. inversion K as [|? ? ? t0 ? K0 K1]; subst. clear K.
  apply run_kernels_app in K1. destruct K1 as (s1 & K1 & K2).
  inversion K2 as [|? ? ? t1 ? K3 K4]; subst. inversion K4; subst. clear K2 K4.
  destruct (averages_run b3 P p PI g a s t0 Ha K0) as [A1 A2].
  assert (G : forall ds u u', (forall d, In d ds -> In d (dirs b3)) -> NoDup ds ->
     run_kernels (map (fun dir => compute_gradients b3 P PI g dir a) ds) u u' ->
     (forall d c v, In d ds -> In c (cells b3 g) -> In v (vars b3) -> u' (at_cell (aGrad d) c v) = cell_gradient b3 P PI d (held b3 P u a c) v) /\
     (forall l, (forall d, In d ds -> la l <> aGrad d) -> u' l = u l)).
  { induction ds as [|d0 ds IH]; intros u u' Hd Hnd Hk; inversion Hk as [|? ? ? u1 ? Hk0 Hk1]; subst.
    - split; [intros d c v []|auto].
    - inversion Hnd; subst.
      destruct (gradients_run b3 P PI g d0 a u u1) as [B1 B2]; auto; [apply Hd; left; auto|apply Hg, Hd; left; auto|].
      destruct (IH u1 u') as [C1 C2]; auto; [intros d H'; apply Hd; right; auto|]. split.
      + intros d c v [<-|Hin] Hc Hv.
        * rewrite C2; [apply B1; auto|]. intros d Hin. rewrite la_at. unfold aGrad. intros E. assert (d0 = d) by lia. subst. contradiction.
        * rewrite C1 by auto. apply cell_gradient_ext; [apply Hd; right; auto|]. intros q Hq. unfold held. apply B2. rewrite la_sloc. apply Hg, Hd. left; auto.
      + intros l Hl. rewrite C2 by (intros d Hin; apply Hl; right; auto). apply B2. apply Hl. left; auto. }
  destruct (G (dirs b3) t0 s1 (fun d H => H)) as [G1 G2].
  { unfold dirs, IX, IY, IZ. destruct b3; repeat constructor; cbn; intuition discriminate. }
  { exact K1. }
  exists s1. destruct (std_points N HN) as [S1 S2]. split; [|split; [|split]].
  - repeat (split; [assumption|]). assumption.
  - intros c v Hc Hv. unfold stored_average. rewrite G2; [apply A1; auto|]. intros d Hd. rewrite la_at. unfold aAve, aGrad.
    apply dirs_cases in Hd. unfold IX, IY, IZ in Hd. lia.
  - intros d c v Hd Hc Hv. unfold stored_average. rewrite G1 by auto. apply cell_gradient_ext; auto. intros q Hq. unfold held, stored.
    apply A2. rewrite la_sloc. auto.
  - intros l Hl. rewrite G2 by (intros d Hd; rewrite Hl; apply Hg; auto). apply A2. rewrite Hl. auto.
Qed.

(** Position of a point, in cells. *)
Definition position (P : points R) (c q : cell) (a : Z) : R := IZR (coord c a) + solp P (coord q a).
(** A field affine over a cell and its neighbours is not changed in the cell. *)
Theorem C81_affine : forall b3 N p M g a s s' c k sl, limits_step b3 N p M g a s s' -> In c (cells b3 g) -> 0 < smallr p ->
  let P := sdm_points N in
  let near := c :: flat_map (fun d => [along_dir d (-1) c; along_dir d 1 c]) (dirs b3) in
  (forall c' q v, In c' near -> In q (dofs b3 P) -> In v (vars b3) ->
     stored b3 P s a c' q v = k v + lsum (fun d => position P c' q d * sl d v) (dirs b3)) ->
  (forall c', In c' near -> smallr p <= k ID + lsum (fun d => (IZR (coord c' d) + / 2) * sl d ID) (dirs b3)) ->
  forall q v, In q (dofs b3 P) -> In v (vars b3) -> stored b3 P s' a c q v = stored b3 P s a c q v.
Proof.
  intros b3 N p M g a s s' c k sl HL Hc Hr P near HU Hk. pose proof HL as (HN & _).
  destruct (limits_split b3 N p M g a s s' HL) as (s1 & L & A1 & A2 & A3). fold P in L, A1, A2.
  destruct (std_points N HN) as [S1 S2].
  assert (E0 : forall q v, stored b3 P s1 a c q v = stored b3 P s a c q v) by (intros; unfold stored; apply A3; apply la_sloc).
  intros q0 v0 Hq0 Hv0. rewrite <- E0.
  destruct (off_rim b3 g c) eqn:Er.
  2:{ destruct (C81_limited b3 P p M g a s1 s' L) as [H _]. apply (proj1 (H c Hc)); auto. intros X. apply off_rim_iff in X. congruence. }
  pose proof (proj1 (off_rim_iff b3 g c) Er) as Ho.
  (* centred form *)
  set (mid := fun (c' : cell) v => k v + lsum (fun d => (IZR (coord c' d) + / 2) * sl d v) (dirs b3)).
  assert (HC : forall c' q v, In c' near -> In q (dofs b3 P) -> In v (vars b3) ->
    stored b3 P s a c' q v = mid c' v + lsum (fun d => (solp P (coord q d) - / 2) * sl d v) (dirs b3)).
  { intros c' q v H1 H2 H3. rewrite HU by auto. unfold mid. rewrite Rplus_assoc, <- lsum_add. f_equal. apply lsum_ext. intros d _. unfold position. ring. }
  assert (In_near : forall c', In c' near -> In c' (cells b3 g)).
  { intros c' [<-|H]; [auto|]. apply in_flat_map in H. destruct H as (d & Hd & H). pose proof (Ho d Hd) as Hb.
    apply In_cellsD in Hc. destruct Hc as [Hc1 Hc2]. apply In_cellsD.
    assert (G : forall n, n = 1%Z \/ n = (-1)%Z -> (forall a0, In a0 (dirs b3) -> (0 <= coord (along_dir d n c) a0 < sizeA g a0)%Z) /\ (b3 = false -> coord (along_dir d n c) IZ = 0%Z)).
    { intros n Hn. pose proof (dirs_cases b3 d Hd) as Hd'. split.
      - intros a0 Ha0. pose proof (Hc1 a0 Ha0) as B. pose proof (sizeA_N g a0) as Z1. pose proof (sizeA_N g d) as Z2. pose proof (dirs_cases b3 a0 Ha0) as Ha0'.
        destruct c as [[x y] z]. unfold along_dir, shift, unit_vec, coord in *.
        destruct Hd' as [->|[->|[-> _]]]; destruct Ha0' as [->|[->|[-> _]]]; unfold IX, IY, IZ in *; cbn [Z.eqb Pos.eqb] in *; lia.
      - intros Eb. specialize (Hc2 Eb). destruct c as [[x y] z]. unfold coord in *. cbn [Z.eqb Pos.eqb IX IY IZ] in Hc2. destruct Hd' as [->|[->|[-> X]]]; [| |congruence]; unfold along_dir, shift, unit_vec, IX, IY, IZ in *; cbn [Z.eqb Pos.eqb] in *; lia. }
    destruct H as [<-|[<-|[]]]; apply G; auto. }
  assert (EA : forall c' v, In c' near -> In v (vars b3) -> stored_average aAve s1 c' v = excess_factor b3 N * mid c' v).
  { intros c' v H1 H2. rewrite A1 by auto. apply (average_affine b3 N p HN _ (mid c' v) (fun d => sl d v)).
    - intros ->. split; [auto|]. apply Hk; auto.
    - intros q Hq. apply HC; auto. }
  assert (EG : forall d v, In d (dirs b3) -> In v (vars b3) -> stored_average (aGrad d) s1 c v = if (N =? 1)%Z then 0 else excess_factor b3 N * sl d v).
  { intros d v H1 H2. rewrite A2 by auto. apply (gradient_affine b3 N HN d _ (mid c v) (fun d => sl d v)); auto. intros q Hq. apply HC; auto. left; auto. }
  assert (Emid : forall d n v, In d (dirs b3) -> mid (along_dir d n c) v - mid c v = IZR n * sl d v).
  { intros d n v Hd. unfold mid. apply dirs_cases in Hd. destruct c as [[x y] z]. unfold along_dir, shift, unit_vec, dirs, coord.
    destruct Hd as [->|[->|[-> Eb]]]; [destruct b3|destruct b3|rewrite Eb]; unfold IX, IY, IZ; cbn [lsum Z.eqb Pos.eqb]; rewrite !plus_IZR; ring. }
  assert (Nlo : forall d, In d (dirs b3) -> In (along_dir d (-1) c) near) by (intros d Hd; right; apply in_flat_map; exists d; split; [auto|left; auto]).
  assert (Nhi : forall d, In d (dirs b3) -> In (along_dir d 1 c) near) by (intros d Hd; right; apply in_flat_map; exists d; split; [auto|right; left; auto]).
  set (m := stored_average aAve s1 c). set (cs := gamma0 p * m IP / m ID).
  set (ch := fun d => cons_to_charac b3 (gamma0 p) d (state_of b3 (stored_average (aGrad d) s1 c)) (state_of b3 m) cs).
  destruct (C81_limited b3 P p M g a s1 s' L) as [H _]. destruct (H c Hc) as [_ H2]. clear H. fold m cs in H2.
  destruct (H2 Ho ch) as [H3 _].
  - intros d v Hd Hv.
    assert (Elo : state_of b3 (fun w => m w - stored_average aAve s1 (along_dir d (-1) c) w) = state_of b3 (fun w => excess_factor b3 N * sl d w)).
    { apply state_ext. intros w Hw. unfold m. rewrite !EA by (auto; left; auto). pose proof (Emid d (-1)%Z w Hd). nra. }
    assert (Ehi : state_of b3 (fun w => stored_average aAve s1 (along_dir d 1 c) w - m w) = state_of b3 (fun w => excess_factor b3 N * sl d w)).
    { apply state_ext. intros w Hw. unfold m. rewrite !EA by (auto; left; auto). pose proof (Emid d 1%Z w Hd). nra. }
    rewrite Elo, Ehi. fold (ch d). destruct (Z.eq_dec N 1) as [E1|E1].
    + replace (comp (ch d) v) with 0; [apply limited_zero|]. unfold ch.
      rewrite (state_ext b3 _ (fun _ => 0)) by (intros w Hw; rewrite EG by auto; rewrite E1; reflexivity).
      change (state_of b3 (fun _ => 0)) with (hs_of b3 (fun _ : Z => 0)). rewrite charac0 by auto. rewrite comp_hs_of; auto.
    + assert (Eg : ch d = cons_to_charac b3 (gamma0 p) d (state_of b3 (fun w => excess_factor b3 N * sl d w)) (state_of b3 m) cs).
      { unfold ch. f_equal. apply state_ext. intros w Hw. rewrite EG by auto. rewrite (proj2 (Z.eqb_neq N 1) E1). reflexivity. }
      rewrite <- Eg. apply limited_same.
  - intros Eb d. unfold ch. apply charac_planar; auto.
  - apply H3; auto. rewrite (lsum_ext _ (fun _ => 0)).
    + rewrite lsum_0. unfold Rdiv. rewrite Rmult_0_l. lra.
    + intros d Hd. rewrite (lsum_ext _ (fun _ => 0)); [apply lsum_0|]. intros v Hv. unfold ch. fold m. rewrite Rminus_eq_0. apply Rabs_R0.
Qed.
Print Assumptions C81_affine.

(** The stored averages are not the averages (C45): a cell with affine values that
    changes gains mass, momentum and energy, all by the same factor above one. *)
Theorem C81_conservation_refuted : forall b3 N p M g a s s' c m k, limits_step b3 N p M g a s s' -> In c (cells b3 g) ->
  let P := sdm_points N in 0 < smallr p <= m ID -> affine_cell b3 P m k (stored b3 P s a c) ->
  (exists q v, In q (dofs b3 P) /\ In v (vars b3) /\ stored b3 P s' a c q v <> stored b3 P s a c q v) ->
  exists f, 1 < f /\ forall v, In v (vars b3) -> average b3 P (stored b3 P s' a) c v = f * average b3 P (stored b3 P s a) c v.
Proof.
  intros b3 N p M g a s s' c m k HL Hc P Hr HA (q & v & Hq & Hv & Hn). pose proof HL as (HN & _).
  destruct (limits_split b3 N p M g a s s' HL) as (s1 & L & A1 & A2 & A3). fold P in L, A1, A2.
  destruct (std_points N HN) as [S1 S2]. fold P in S1, S2.
  exists (excess_factor b3 N). split; [apply excess_factor_gt1; auto|]. intros w Hw.
  rewrite (affine_average b3 P HN S1 S2 (stored b3 P s a) c m k w HA Hw).
  destruct (C81_average b3 P p M g a s1 s' c L Hc) as [H|H].
  - exfalso. apply Hn. rewrite H by auto. unfold stored. apply A3. apply la_sloc.
  - rewrite H by auto. rewrite A1 by auto. apply (average_affine b3 N p HN _ (m w) (fun d => k d w)).
    + intros ->. exact Hr.
    + intros x Hx. apply HA; auto.
Qed.
Print Assumptions C81_conservation_refuted.

(** The speed used is not the sound speed: in a gas at rest it is the square of the
    sound speed over gamma - 1, and a pure sound wave has a component along the
    entropy wave. *)
Theorem C81_speed_refuted : forall (b3 : bool) gamma (m : Z -> R) c, 1 < gamma -> 0 < m ID -> 0 < m IE -> m IU = 0 -> m IV = 0 -> m IW = 0 ->
  let q := state_of b3 m in 0 < c -> c * c = gamma * cons_pressure gamma q / hD q ->
  let cs := gamma * m IE / m ID in
  cs = c * c / (gamma - 1) /\
  let sound := HS 1 (c * c / (gamma - 1)) c 0 0 in
  cons_to_charac b3 gamma IX sound q c = HS 0 1 0 0 0 /\
  (c <> gamma - 1 -> hU (cons_to_charac b3 gamma IX sound q cs) <> 0).
Proof.
  intros b3 gam m c Hg H1 H2 H3 H4 H5 q Hc Hcc cs.
  assert (E1 : cs = c * c / (gam - 1)).
  { rewrite Hcc. unfold q, cons_pressure, state_of, cs. cbn [hD hP hU hV hW]. rewrite H3, H4.
    assert (W : (if b3 then m IW else 0) = 0) by (destruct b3; auto). rewrite W. change IP with IE. field. lra. }
  split; [exact E1|]. cbv zeta. assert (Hg1 : gam - 1 <> 0) by lra. assert (Hd : m ID <> 0) by lra.
  split.
  - unfold cons_to_charac, q, state_of. change (IX =? IX)%Z with true. cbv iota zeta. cbn [hD hP hU hV hW]. rewrite H3, H4. ar.
    destruct b3; [rewrite H5|]; f_equal; field; lra.
  - intros Hne. unfold cons_to_charac, q, state_of. change (IX =? IX)%Z with true. cbv iota zeta. cbn [hD hP hU hV hW]. rewrite H3, H4.
    assert (Pcs : 0 < cs) by (rewrite E1; apply Rdiv_lt_0_compat; nra).
    assert (G : cs * cs <> c * c).
    { intros E. assert (cs = c) by nra. rewrite E1 in H. apply (Rmult_eq_compat_r (gam - 1)) in H. unfold Rdiv in H. rewrite Rmult_assoc, Rinv_l in H by lra. apply Hne. nra. }
    assert (K : forall x, x = 1 - c * c / (cs * cs) -> x <> 0).
    { intros x -> E. apply G. apply (Rmult_eq_compat_r (cs * cs)) in E. rewrite Rmult_0_l in E. unfold Rdiv in E. rewrite Rmult_minus_distr_r, Rmult_assoc, Rinv_l in E by nra. lra. }
    apply K. ar. destruct b3; [rewrite H5|]; cbn [hU]; field; lra.
Qed.
Print Assumptions C81_speed_refuted.

(** ** Cells with the same density slope everywhere *)
(** Density 1000 - K sqrt 2 / 4 and 1000 + K sqrt 2 / 4 at the two abscissae. *)
Definition saw (K : R) : store R := step_store (1000 - K * (sqrt 2 / 4)) (1000 + K * (sqrt 2 / 4)) 10 0.
Definition saw_mean (v : Z) : R := if (v =? ID)%Z then 1000 else if (v =? IE)%Z then 10 else 0.
Definition saw_slope (K : R) (d v : Z) : R := if (d =? IX)%Z then (if (v =? ID)%Z then K else 0) else 0.
Lemma sol2_0 : solp (sdm_points 2) 0 - / 2 = - (sqrt 2 / 4).
Proof.
  cbn [solp sdm_points]. unfold sol_ptsR. replace (PI * (2 * 0 + 1) / 2 / 2) with (PI / 4) by field. rewrite cos_PI4.
  pose proof (sqrt_lt_R0 2 ltac:(lra)) as S0. pose proof (sqrt_sqrt 2 ltac:(lra)) as S2.
  replace (1 / sqrt 2) with (sqrt 2 / 2); [field|]. apply (Rmult_eq_reg_r (sqrt 2)); [|lra]. unfold Rdiv. rewrite (Rmult_assoc 1), Rinv_l by lra. nra.
Qed.
Lemma sol2_1 : solp (sdm_points 2) 1 - / 2 = sqrt 2 / 4.
Proof.
  pose proof (sol_sym 2 ltac:(lia) 0%Z) as S. pose proof sol2_0 as Z0. cbn [solp sdm_points] in *. change (2 - 1 - 0)%Z with 1%Z in S. rewrite S. lra.
Qed.
Lemma saw_affine K c : affine_cell false (sdm_points 2) saw_mean (saw_slope K) (stored false (sdm_points 2) (saw K) aU c).
Proof.
  intros [[x y] z] v Hq Hv. apply In_dofs in Hq. apply in_box_coords in Hq. cbn in Hq. apply In_vars in Hv. cbn in Hv.
  replace z with 0%Z by lia. unfold saw. rewrite step_stored by lia. unfold dirs. cbn [lsum]. unfold saw_mean, saw_slope, coord.
  change (IX =? IX)%Z with true. change (IY =? IX)%Z with false. cbv iota. destruct (v =? ID)%Z; [|destruct (v =? IE)%Z; ring].
  assert (Hx : x = 0%Z \/ x = 1%Z) by lia. destruct Hx as [->| ->]; [rewrite sol2_0|rewrite sol2_1]; cbn [Z.eqb]; ring.
Qed.
Lemma limits_step_exists b3 N p M g a s : (1 <= N)%Z -> a <> aAve -> (forall d, In d (dirs b3) -> a <> aGrad d) ->
  exists s', limits_step b3 N p M g a s s'.
Proof. intros H1 H2 H3. eexists. split; [exact H1|]. split; [exact H2|]. split; [exact H3|]. apply run_kernels_seq. Qed.
Lemma aU_free b3 d : In d (dirs b3) -> aU <> aGrad d.
Proof. intros H. apply dirs_cases in H. unfold aU, aGrad, IX, IY, IZ in *. lia. Qed.

Lemma near_cells b3 g c d n : In c (cells b3 g) -> not_outermost b3 g c -> In d (dirs b3) -> n = 1%Z \/ n = (-1)%Z -> In (along_dir d n c) (cells b3 g).
Proof.
  intros Hc Ho Hd Hn. pose proof (Ho d Hd) as Hb. apply In_cellsD in Hc. destruct Hc as [Hc1 Hc2]. apply In_cellsD.
  pose proof (dirs_cases b3 d Hd) as Hd'. split.
  - intros a0 Ha0. pose proof (Hc1 a0 Ha0) as B. pose proof (sizeA_N g a0) as Z1. pose proof (sizeA_N g d) as Z2. pose proof (dirs_cases b3 a0 Ha0) as Ha0'.
    destruct c as [[x y] z]. unfold along_dir, shift, unit_vec, coord in *.
    destruct Hd' as [->|[->|[-> _]]]; destruct Ha0' as [->|[->|[-> _]]]; unfold IX, IY, IZ in *; cbn [Z.eqb Pos.eqb] in *; lia.
  - intros Eb. specialize (Hc2 Eb). destruct c as [[x y] z]. unfold coord in *. cbn [Z.eqb Pos.eqb IX IY IZ] in Hc2.
    destruct Hd' as [->|[->|[-> X]]]; [| |congruence]; unfold along_dir, shift, unit_vec, IX, IY, IZ in *; cbn [Z.eqb Pos.eqb] in *; lia.
Qed.
Lemma limited_flat M a : a = 0 \/ M <= Rabs a -> tvb_limited M a 0 0 0.
Proof.
  intros H. split; [intros L; destruct H; [auto|lra]|]. intros _. split; [|split]; intros; lra.
Qed.

(** All cells but the outermost become uniform, with too large a density. *)
Lemma saw_limited K M p g s' c : limits_step false 2 p M g aU (saw K) s' -> In c (cells false g) -> not_outermost false g c ->
  0 < smallr p <= 1000 -> 1 < gamma0 p -> 0 < K -> M <= K -> 1 <= K ->
  forall q v, In q (dofs false (sdm_points 2)) -> In v (vars false) -> stored false (sdm_points 2) s' aU c q v = excess_factor false 2 * saw_mean v.
Proof.
  intros HL Hc Ho Hr Hg HK HM HK1 q v Hq Hv. set (P := sdm_points 2) in *. set (F := excess_factor false 2).
  assert (HF : 1 < F) by (apply excess_factor_gt1; lia).
  destruct (limits_split false 2 p M g aU (saw K) s' HL) as (s1 & L & A1 & A2 & A3). fold P in L, A1, A2.
  assert (EA : forall c' w, In c' (cells false g) -> In w (vars false) -> stored_average aAve s1 c' w = F * saw_mean w).
  { intros c' w H1 H2. rewrite A1 by auto. apply (average_affine false 2 p ltac:(lia) _ (saw_mean w) (fun d => saw_slope K d w)).
    - intros ->. exact Hr.
    - intros x Hx. apply saw_affine; auto. }
  assert (EG : forall d w, In d (dirs false) -> In w (vars false) -> stored_average (aGrad d) s1 c w = F * saw_slope K d w).
  { intros d w H1 H2. rewrite A2 by auto. rewrite (gradient_affine false 2 ltac:(lia) d _ (saw_mean w) (fun d => saw_slope K d w)); auto.
    - apply increasing_distinct, sol_increasing.
    - intros x Hx. apply saw_affine; auto. }
  destruct (C81_limited false P p M g aU s1 s' L) as [H _]. destruct (H c Hc) as [_ H2]. clear H.
  set (m := stored_average aAve s1 c) in H2. set (cs := gamma0 p * m IP / m ID) in H2. cbv zeta in H2.
  assert (Em : state_of false m = HS (F * 1000) (F * 10) 0 0 0).
  { rewrite (state_ext false m (fun w => F * saw_mean w)) by (intros w Hw; apply EA; auto). unfold state_of, saw_mean. cbn [Z.eqb ID IP IU IV IE Pos.eqb]. f_equal; ring. }
  assert (Ecs : cs = gamma0 p / 100).
  { unfold cs, m. rewrite !EA by (auto; apply vars_in; unfold ID, IP; lia). unfold saw_mean. cbn [Z.eqb ID IP IE Pos.eqb]. field. lra. }
  assert (Pcs : 0 < cs) by (rewrite Ecs; lra).
  assert (EC : forall d, In d (dirs false) -> cons_to_charac false (gamma0 p) d (state_of false (stored_average (aGrad d) s1 c)) (state_of false m) cs =
     if (d =? IX)%Z then HS 0 0 (F * K) 0 0 else HS 0 0 0 0 0).
  { intros d Hd. rewrite (state_ext false (stored_average (aGrad d) s1 c) (fun w => F * saw_slope K d w)) by (intros w Hw; apply EG; auto).
    rewrite Em. clearbody cs. clear - Hd Pcs HF Hg. apply dirs_cases in Hd. destruct Hd as [->|[->|[-> X]]]; [| |discriminate];
      unfold cons_to_charac, state_of, saw_slope; cbn [Z.eqb Pos.eqb IX IY ID IP IU IV hD hP hU hV hW]; unfold half; ar; f_equal; field; lra. }
  assert (E0 : forall d, In d (dirs false) -> cons_to_charac false (gamma0 p) d (state_of false (fun _ => 0)) (state_of false m) cs = HS 0 0 0 0 0).
  { intros d Hd. change (state_of false (fun _ => 0)) with (hs_of false (fun _ : Z => 0)). rewrite charac0 by auto. reflexivity. }
  destruct (H2 Ho (fun _ => HS 0 0 0 0 0)) as [_ H3].
  - intros d w Hd Hw.
    rewrite (state_ext false (fun x => m x - stored_average aAve s1 (along_dir d (-1) c) x) (fun _ => 0)).
    2:{ intros x Hx. unfold m. rewrite !EA by (auto; apply near_cells; auto). ring. }
    rewrite (state_ext false (fun x => stored_average aAve s1 (along_dir d 1 c) x - m x) (fun _ => 0)).
    2:{ intros x Hx. unfold m. rewrite !EA by (auto; apply near_cells; auto). ring. }
    rewrite EC, E0 by auto. replace (comp (HS 0 0 0 0 0) w) with 0 by (unfold comp; repeat destruct (_ =? _)%Z; reflexivity).
    apply limited_flat. destruct (d =? IX)%Z; [|left; unfold comp; repeat destruct (_ =? _)%Z; reflexivity].
    unfold comp. destruct (w =? ID)%Z; [left; reflexivity|]. destruct (w =? IP)%Z; [left; reflexivity|]. destruct (w =? IU)%Z; [right|destruct (w =? IV)%Z; left; reflexivity].
    cbn [hU]. rewrite Rabs_pos_eq by nra. nra.
  - reflexivity.
  - rewrite H3; auto.
    + replace (m v) with (F * saw_mean v) by (symmetry; apply EA; auto). rewrite (lsum_ext _ (fun _ => 0)); [rewrite lsum_0; ring|]. intros d Hd.
      rewrite Em. clearbody cs. clear - Hd Pcs HF Hg Hv. apply dirs_cases in Hd. apply In_vars in Hv. cbn in Hv.
      assert (V : v = 0%Z \/ v = 1%Z \/ v = 2%Z \/ v = 3%Z) by lia.
      destruct Hd as [->|[->|[-> X]]]; [| |discriminate]; destruct V as [->|[->|[->| ->]]];
        unfold charac_to_cons, comp; cbn [Z.eqb Pos.eqb IX IY ID IP IU IV hD hP hU hV hW]; unfold half; ar; field; lra.
    + unfold dirs, vars, nbv. cbn [lsum]. rewrite !EC by (cbn; auto). change (zrange 0 4) with [0; 1; 2; 3]%Z. cbn [lsum].
      unfold comp. cbn [Z.eqb Pos.eqb IX IY ID IP IU IV hD hP hU hV hW]. unfold Rminus. rewrite !Rplus_0_l, !Ropp_0, !Rabs_R0, Rabs_Ropp, (Rabs_pos_eq (F * K)) by nra. nra.
Qed.

(** There is one layer of ghost cells and the limiter leaves it as it is: on a
    periodic domain the ghost cells are copies before the limiter and not after it. *)
Theorem C81_ghosts_refuted : exists p M g s s', limits_step false 2 p M g aU s s' /\ sdm_ok false (sdm_points 2) g /\
  (forall a hi, In a (dirs false) -> kind_of_code (bc_of g a hi) = Periodic) /\
  let P := sdm_points 2 in
  (forall c q v, In c (cells false g) -> In q (dofs false P) -> In v (vars false) ->
     stored false P s aU c q v = ghosts P g false (stored false P s aU) c q v) /\
  exists c q, In c (cells false g) /\ In q (dofs false P) /\ stored false P s' aU c q ID <> ghosts P g false (stored false P s' aU) c q ID.
Proof.
  destruct (limits_step_exists false 2 (air2 (1 / 100)) 40 pgrid aU (saw 100)) as [s' Hs]; [lia|discriminate|apply aU_free|].
  exists (air2 (1 / 100)), 40, pgrid, (saw 100), s'. split; [exact Hs|]. split; [unfold sdm_ok; cbn; lia|]. split; [reflexivity|]. cbv zeta.
  assert (SC : forall c c' q v, stored false (sdm_points 2) (saw 100) aU c q v = stored false (sdm_points 2) (saw 100) aU c' q v).
  { intros [[x y] z] [[x' y'] z'] [[i j] k] v. reflexivity. }
  split.
  - intros c q v _ _ _. unfold ghosts, dirs. cbn [fold_left]. unfold ghost_along.
    assert (Rf : forall a n r, reflected (kind_of_code (bc_of pgrid a false)) (kind_of_code (bc_of pgrid a true)) n r = false).
    { intros a n r. unfold reflected, bc_of. cbn. destruct (r <? 0)%Z; [reflexivity|]. destruct (n <=? r)%Z; reflexivity. }
    rewrite !Rf. destruct (is_ghost _ _); destruct (is_ghost _ _); apply SC.
  - exists (0, 1, 0)%Z, (0, 0, 0)%Z. split; [vm_compute; tauto|]. split; [vm_compute; tauto|].
    assert (EG : ghosts (sdm_points 2) pgrid false (stored false (sdm_points 2) s' aU) (0, 1, 0)%Z (0, 0, 0)%Z ID =
      stored false (sdm_points 2) s' aU (4, 1, 0)%Z (0, 0, 0)%Z ID) by reflexivity.
    rewrite EG. rewrite (saw_limited 100 40 (air2 (1 / 100)) pgrid s' (4, 1, 0)%Z Hs).
    + destruct (limits_split false 2 (air2 (1 / 100)) 40 pgrid aU (saw 100) s' Hs) as (s1 & L & _ & _ & A3).
      destruct (C81_limited false (sdm_points 2) (air2 (1 / 100)) 40 pgrid aU s1 s' L) as [H _].
      destruct (H (0, 1, 0)%Z) as [H1 _]; [vm_compute; tauto|]. rewrite H1.
      * unfold stored at 1. rewrite A3 by apply la_sloc. fold (stored false (sdm_points 2) (saw 100) aU (0, 1, 0)%Z (0, 0, 0)%Z ID).
        unfold saw. rewrite step_stored by (unfold ID; lia). cbn [Z.eqb ID saw_mean]. pose proof (excess_factor_gt1 false 2 ltac:(lia)).
        pose proof (sqrt_lt_R0 2 ltac:(lra)). unfold saw_mean. cbn [Z.eqb ID]. lra.
      * intros O. specialize (O IX ltac:(cbn; auto)). cbn in O. lia.
      * vm_compute; tauto.
      * vm_compute; tauto.
    + vm_compute; tauto.
    + intros d Hd. apply dirs_cases in Hd. destruct Hd as [->|[->|[-> X]]]; [cbn; lia|cbn; lia|discriminate].
    + cbn. lra.
    + cbn. lra.
    + lra.
    + lra.
    + lra.
    + vm_compute; tauto.
    + vm_compute; tauto.
Qed.
Print Assumptions C81_ghosts_refuted.

(** ** Instances *)
(** A run in which the limiter changes cells, with the hypotheses of
    [C81_limited], [C81_average] and [C81_conservation_refuted]. *)
Example ex_changed : exists s', let P := sdm_points 2 in let c := (2, 2, 0)%Z in
  limits_step false 2 (air2 (1 / 100)) 40 pgrid aU (saw 100) s' /\ In c (cells false pgrid) /\ not_outermost false pgrid c /\
  (exists s1, limits false P (air2 (1 / 100)) 40 pgrid aU s1 s' /\ 1000 < stored_average aAve s1 c ID) /\
  0 < smallr (air2 (1 / 100)) <= saw_mean ID /\ affine_cell false P saw_mean (saw_slope 100) (stored false P (saw 100) aU c) /\
  (exists q v, In q (dofs false P) /\ In v (vars false) /\ stored false P s' aU c q v <> stored false P (saw 100) aU c q v).
Proof.
  destruct (limits_step_exists false 2 (air2 (1 / 100)) 40 pgrid aU (saw 100)) as [s' Hs]; [lia|discriminate|apply aU_free|].
  exists s'. cbv zeta. split; [exact Hs|].
  assert (Hc : In (2, 2, 0)%Z (cells false pgrid)) by (vm_compute; tauto). split; [exact Hc|].
  assert (Ho : not_outermost false pgrid (2, 2, 0)%Z).
  { intros d Hd. apply dirs_cases in Hd. destruct Hd as [->|[->|[-> X]]]; [cbn; lia|cbn; lia|discriminate]. }
  split; [exact Ho|]. pose proof (excess_factor_gt1 false 2 ltac:(lia)) as F1. split.
  { destruct (limits_split false 2 (air2 (1 / 100)) 40 pgrid aU (saw 100) s' Hs) as (s1 & L & A1 & _). exists s1. split; [exact L|].
    rewrite A1 by (auto; vm_compute; tauto).
    rewrite (average_affine false 2 (air2 (1 / 100)) ltac:(lia) _ (saw_mean ID) (fun d => saw_slope 100 d ID)).
    - unfold saw_mean. cbn [Z.eqb ID]. lra.
    - intros _. cbn. lra.
    - intros x Hx. apply saw_affine; [auto|vm_compute; tauto]. }
  split; [cbn; lra|]. split; [apply saw_affine|].
  exists (0, 0, 0)%Z, ID. split; [vm_compute; tauto|]. split; [vm_compute; tauto|].
  rewrite (saw_limited 100 40 (air2 (1 / 100)) pgrid s' (2, 2, 0)%Z Hs Hc Ho) by (first [cbn; lra|vm_compute; tauto]).
  unfold saw. rewrite step_stored by (unfold ID; lia). unfold saw_mean. cbn [Z.eqb ID]. pose proof (sqrt_lt_R0 2 ltac:(lra)). lra.
Qed.
(** A linear density over the whole grid, with slopes above the threshold. *)
Definition ramp : store R := fun l =>
  let v := (lv l / 4)%Z in
  if (v =? ID)%Z then 1000 + 100 * (IZR (li l) + solp (sdm_points 2) (lv l mod 2)) else if (v =? IE)%Z then 10 else 0.
Example ex_affine : exists s', let P := sdm_points 2 in let c := (2, 2, 0)%Z in
  let p := air2 (1 / 100) in
  limits_step false 2 p 40 pgrid aU ramp s' /\ In c (cells false pgrid) /\ 0 < smallr p /\
  exists k sl,
  (forall c' q v, In q (dofs false P) -> In v (vars false) ->
     stored false P ramp aU c' q v = k v + lsum (fun d => position P c' q d * sl d v) (dirs false)) /\
  (forall c', In c' (c :: flat_map (fun d => [along_dir d (-1) c; along_dir d 1 c]) (dirs false)) ->
     smallr p <= k ID + lsum (fun d => (IZR (coord c' d) + / 2) * sl d ID) (dirs false)) /\ 40 < sl IX ID.
Proof.
  destruct (limits_step_exists false 2 (air2 (1 / 100)) 40 pgrid aU ramp) as [s' Hs]; [lia|discriminate|apply aU_free|].
  exists s'. cbv zeta. split; [exact Hs|]. split; [vm_compute; tauto|]. split; [cbn; lra|].
  exists saw_mean, (saw_slope 100). split; [|split].
  - intros [[x' y'] z'] [[x y] z] v Hq Hv. apply In_dofs in Hq. apply in_box_coords in Hq. cbn in Hq. apply In_vars in Hv. cbn in Hv.
    replace z with 0%Z by lia. unfold stored, ramp, sloc. cbn [at_cell la lv li]. unfold DofMap. change (npts (sdm_points 2)) with 2%Z.
    assert (E1 : ((x + 2 * y + 2 * 2 * v) / 4 = v)%Z) by (symmetry; apply (Z.div_unique _ 4 v (x + 2 * y)); lia).
    assert (E2 : ((x + 2 * y + 2 * 2 * v) mod 2 = x)%Z) by (symmetry; apply (Z.mod_unique _ 2 (y + 2 * v) x); lia).
    rewrite E1, E2. unfold dirs. cbn [lsum]. unfold saw_mean, saw_slope, position, coord.
    change (IX =? IX)%Z with true. change (IY =? IX)%Z with false. cbv iota. destruct (v =? ID)%Z; [|destruct (v =? IE)%Z; ring]. ring.
  - intros c' Hc'. cbn in Hc'. destruct Hc' as [<-|[<-|[<-|[<-|[<-|[]]]]]]; cbn; lra.
  - cbn. lra.
Qed.
(** A slope below the threshold. *)
Example ex_kept : exists s1 s', let c := (2, 2, 0)%Z in let p := air2 (1 / 100) in let m := stored_average aAve s1 c in
  limits false (sdm_points 2) p 1000 pgrid aU s1 s' /\ In c (cells false pgrid) /\
  forall d v, In d (dirs false) -> In v (vars false) ->
     Rabs (comp (cons_to_charac false (gamma0 p) d (state_of false (stored_average (aGrad d) s1 c)) (state_of false m) (gamma0 p * m IP / m ID)) v) < 1000.
Proof.
  set (s1 := fun l => if (la l =? aAve)%Z then (if (lv l =? ID)%Z then 2 else if (lv l =? IE)%Z then 10 else 0)
               else if (la l =? aGrad IX)%Z then (if (lv l =? ID)%Z then 1 else 0) else 0 : R).
  pose proof (run_kernels_seq [apply_limiter false (sdm_points 2) (air2 (1 / 100)) 1000 pgrid aU] s1) as K. inversion K; subst.
  eexists s1, _. cbv zeta. split; [|split; [vm_compute; tauto|]].
  - destruct (std_points 2 ltac:(lia)) as [S1 S2]. split; [cbn; lia|]. split; [exact S1|]. split; [exact S2|]. split; [discriminate|]. split; [apply aU_free|]. eassumption.
  - intros d v Hd Hv. apply dirs_cases in Hd. apply In_vars in Hv. cbn in Hv.
    assert (V : v = 0%Z \/ v = 1%Z \/ v = 2%Z \/ v = 3%Z) by lia.
    assert (Em : forall w, stored_average aAve s1 (2, 2, 0)%Z w = if (w =? ID)%Z then 2 else if (w =? IE)%Z then 10 else 0) by (intros; reflexivity).
    assert (Ex : forall w, stored_average (aGrad IX) s1 (2, 2, 0)%Z w = if (w =? ID)%Z then 1 else 0) by (intros; reflexivity).
    assert (Ey : forall w, stored_average (aGrad IY) s1 (2, 2, 0)%Z w = 0) by (intros; reflexivity).
    destruct Hd as [->|[->|[-> X]]]; [| |discriminate]; destruct V as [->|[->|[->| ->]]]; unfold cons_to_charac, state_of, comp; rewrite !Em, ?Ex, ?Ey;
      cbn [Z.eqb Pos.eqb IX IY ID IP IE IU IV hD hP hU hV hW gamma0 air2]; unfold half; ar; apply Rabs_def1; lra.
Qed.
(** A gas at rest. *)
Example ex_rest : let m := fun v => if (v =? ID)%Z then 1.4 else if (v =? IE)%Z then 2.5 else 0 in
  1 < 1.4 /\ 0 < m ID /\ 0 < m IE /\ m IU = 0 /\ m IV = 0 /\ m IW = 0 /\ 1 * 1 = 1.4 * cons_pressure 1.4 (state_of false m) / hD (state_of false m) /\ 1 <> 1.4 - 1.
Proof. cbv zeta. unfold cons_pressure, state_of. cbn. repeat split; lra. Qed.
