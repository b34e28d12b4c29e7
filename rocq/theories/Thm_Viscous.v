(** Theorems about the viscous terms of the spectral difference solver: C82. *)
From Coq Require Import ZArith List Bool Reals Lia Lra Floats.SpecFloat.
From Coquelicot Require Import Coquelicot.
From Verif Require Import Arith SpecF Par ParProofs GridModel BoundarySpec BoundaryProofs HydroState HydroKernels CellKernels PointProofs MoodKernels MoodProofs
  TaskModel TaskKernels SdmGeom SdmSpec SdmPoints SdmLagrange SdmExact SdmKernels SdmDofs SdmProofs SdmRunSpec
  SdmConsSpec SdmConserve HydroConserve SdmVisc SdmViscProofs SdmPosSpec SdmLimSpec.
Import ListNotations.
Open Scope R_scope.

(** ** The pointwise fluxes *)
(** Newtonian stress without bulk viscosity: mu (d_j v_i + d_i v_j) - (2 mu / dim) delta_ij div v. *)
Definition stress (b3 : bool) (mu : R) (gt : Z -> Z -> R) (i j : Z) : R :=
  mu * (gt i j + gt j i) - (if (i =? j)%Z then 2 * mu / IZR (dimn b3) * lsum (fun d => gt d d) (dirs b3) else 0).

(** The viscous flux along a direction carries no mass; it carries the row of the
    stress for that direction as momentum, and the work of the stress as energy. *)
Theorem C82_stress : forall b3 mu gt vel f dir, In dir (dirs b3) ->
  let F := flux_visc b3 mu gt vel f dir in
  comp F ID = 0 /\
  (forall i, In i (dirs b3) -> comp F (IU + i) = stress b3 mu gt i dir) /\
  comp F IP = lsum (fun i => vel i * stress b3 mu gt i dir) (dirs b3) + f dir.
Proof.
  intros b3 mu gt vel f dir Hd F. apply dirs_cases in Hd. unfold F, flux_visc, stress, tau_diag, dimn.
  destruct b3.
  - unfold flux_visc3, tau_diag. split; [|split].
    + destruct Hd as [->|[->|[-> _]]]; reflexivity.
    + intros i Hi. destruct Hi as [<-|[<-|[<-|[]]]]; destruct Hd as [->|[->|[-> _]]]; cbn -[lit]; ar; field.
    + destruct Hd as [->|[->|[-> _]]]; cbn -[lit]; ar; field.
  - unfold flux_visc2, tau_diag. destruct Hd as [->|[->|[_ Hd]]]; [| |discriminate]; split; [reflexivity|split|reflexivity|split].
    + intros i Hi. destruct Hi as [<-|[<-|[]]]; cbn; ar; field.
    + cbn; ar; field.
    + intros i Hi. destruct Hi as [<-|[<-|[]]]; cbn; ar; field.
    + cbn; ar; field.
Qed.
Print Assumptions C82_stress.

(** ** Runs *)
(** A run of the viscous part of the computation of the rates, on the state array
    [a], in any interleaving of the cells; [vnull] gives the values read through
    the view that the code forgets to set. *)
Definition viscous_run (b3 : bool) (N : Z) (p : hparams R) (g : grid) (mu : R) (vnull : Z -> cell -> cell -> Z -> R) (a : Z) (s s' : store R) : Prop :=
  (1 <= N <= 6)%Z /\ sdm_state a /\ run_kernels (viscous_terms b3 (sdm_points N) p g mu vnull a) s s'.
(** What is stored, and the velocity it gives. *)
Definition rate (b3 : bool) (N : Z) (s : store R) (c q : cell) (v : Z) : R := stored b3 (sdm_points N) s aFdiv c q v.
Definition velocity (b3 : bool) (N : Z) (s : store R) (a : Z) (c q : cell) (i : Z) : R :=
  stored b3 (sdm_points N) s a c q (IU + i) / stored b3 (sdm_points N) s a c q ID.
Definition position (N : Z) (p : hparams R) (c q : cell) (d : Z) : R := spacing p d * (IZR (coord c d) + sol_ptsR N (coord q d)).
(** In a cell and its neighbours, velocity component [i] is a linear function of the
    position, with slopes [k]. *)
Definition linear_flow (b3 : bool) (N : Z) (p : hparams R) (s : store R) (a : Z) (c : cell) (i : Z) (u0 : R) (k : Z -> R) : Prop :=
  forall d n q, In d (dirs b3) -> In n [(-1)%Z; 0%Z; 1%Z] -> In q (dofs b3 (sdm_points N)) ->
    velocity b3 N s a (along_dir d n c) q i = u0 + lsum (fun e => k e * position N p (along_dir d n c) q e) (dirs b3).

Lemma sizeA_N g a : sizeA g a = (sizeN g a + 2 * gw g)%Z.
Proof. unfold sizeA, sizeN, isize, jsize, ksize, imax, jmax, kmax, imin, jmin, kmin. destruct (a =? IX)%Z; [|destruct (a =? IY)%Z]; lia. Qed.
Section Run.
Variable b3 : bool.
Variable N : Z.
Variable p : hparams R.
Variable g : grid.
Hypothesis HN : (1 <= N <= 6)%Z.
Notation P := (sdm_points N).
Lemma state_ne a : sdm_state a -> a <> aSF /\ a <> aFU /\ a <> aFdiv /\ (forall d, In d (dirs b3) -> a <> aGv d).
Proof.
  intros H. assert (a < 50 /\ a <> 30 /\ a <> 31)%Z by (unfold sdm_state, aU, aK in H; cbn in H; lia).
  unfold aSF, aFU, aFdiv. repeat split; try lia. intros d Hd. apply (aGv_ne b3 d a Hd). lia.
Qed.
Lemma dist_sol : distinct N (sol_ptsR N). Proof. apply increasing_distinct, sol_increasing. Qed.
Lemma dist_flux : distinct (N + 1) (flux_pts N). Proof. apply increasing_distinct, flux_increasing; auto. Qed.
Lemma line_deriv A B n r : (0 <= n < N)%Z -> flux2sol_derivative P (fun j => A + B * flux_pts N j) n r = B * r.
Proof.
  intros Hn. rewrite (deriv_ext P _ (fun i => peval [A; B] (flxp P i))) by (intros j _; cbn; ring).
  rewrite (exact_flux_derivative P [A; B]).
  - f_equal. rewrite (Derive_ext _ (fun x => A + B * x)) by (intros x; cbn; ring). apply is_derive_unique. auto_derive; [auto|ring].
  - apply dist_flux.
  - cbn. lia.
  - intros j Hj. apply sol_flux_apart; auto.
Qed.
Lemma line_interp A B n : (2 <= N)%Z -> sol2flux P (fun j => A + B * sol_ptsR N j) n = A + B * flux_pts N n.
Proof.
  intros H2. rewrite (sol2flux_ext P _ (fun i => peval [A; B] (solp P i))) by (intros j _; cbn; ring).
  rewrite (exact_sol2flux P [A; B]); [cbn; ring|apply dist_sol|cbn; lia].
Qed.
Lemma const_interp A n : sol2flux P (fun _ => A) n = A.
Proof.
  rewrite (sol2flux_ext P _ (fun i => peval [A] (solp P i))) by (intros j _; cbn; ring).
  rewrite (exact_sol2flux P [A]); [cbn; ring|apply dist_sol|cbn; lia].
Qed.

Lemma avg2_R nb a b : (0 < nb)%nat -> avg2 nb a b = ((a + b) / 2, (a + b) / 2).
Proof.
  destruct nb as [|nb]; [lia|]. intros _. unfold avg2. induction nb as [|nb IH].
  - cbn. ar. f_equal; field.
  - change (Nat.iter (S (S nb)) ?f ?x) with (f (Nat.iter (S nb) f x)). rewrite IH. cbn. ar. f_equal; field.
Qed.
(** Value at the faces after averaging, in a cell that is not outermost. *)
Lemma avgF_mid dir nb X c q : (0 < nb)%nat -> In dir (dirs b3) -> (0 < coord c dir)%Z -> (coord c dir + 1 < sizeA g dir)%Z ->
  avgF P g dir nb X c q =
  if (coord q dir =? 0)%Z then (X (along_dir dir (-1) c) (setc dir N q) + X c (setc dir 0 q)) / 2
  else if (coord q dir =? N)%Z then (X c (setc dir N q) + X (along_dir dir 1 c) (setc dir 0 q)) / 2 else X c q.
Proof.
  intros Hnb Hd H1 H2. unfold avgF. cbn [npts sdm_points]. rewrite (proj2 (Z.ltb_lt 0 _)), (proj2 (Z.ltb_lt _ (sizeA g dir))) by auto.
  rewrite !avg2_R by auto. reflexivity.
Qed.
Lemma avgF_twice dir nb nb' X c q : (0 < nb)%nat -> (0 < nb')%nat -> In dir (dirs b3) -> (0 < coord c dir)%Z -> (coord c dir + 1 < sizeA g dir)%Z ->
  avgF P g dir nb' (avgF P g dir nb X) c q = avgF P g dir nb X c q.
Proof.
  intros Hnb Hnb' Hd H1 H2. pose proof (dir_any b3 dir Hd) as Ha.
  assert (L : avgF P g dir nb X (along_dir dir (-1) c) (setc dir N q) = (X (along_dir dir (-1) c) (setc dir N q) + X c (setc dir 0 q)) / 2).
  { unfold avgF. cbn [npts sdm_points]. rewrite coord_setc, Z.eqb_refl by auto. rewrite (proj2 (Z.eqb_neq N 0)), Z.eqb_refl by lia.
    rewrite (coord_along dir (-1) c dir b3), Z.eqb_refl by auto. rewrite (proj2 (Z.ltb_lt _ (sizeA g dir))) by lia.
    rewrite avg2_R by auto. cbn [fst]. rewrite !setc_setc, along_along. change (1 + -1)%Z with 0%Z. rewrite along_zero. reflexivity. }
  assert (R0 : avgF P g dir nb X c (setc dir 0 q) = (X (along_dir dir (-1) c) (setc dir N q) + X c (setc dir 0 q)) / 2).
  { rewrite avgF_mid by auto. rewrite coord_setc, Z.eqb_refl by auto. rewrite Z.eqb_refl, !setc_setc. reflexivity. }
  assert (LN : avgF P g dir nb X c (setc dir N q) = (X c (setc dir N q) + X (along_dir dir 1 c) (setc dir 0 q)) / 2).
  { rewrite avgF_mid by auto. rewrite coord_setc, Z.eqb_refl by auto. rewrite (proj2 (Z.eqb_neq N 0)), Z.eqb_refl by lia. rewrite !setc_setc. reflexivity. }
  assert (R1 : avgF P g dir nb X (along_dir dir 1 c) (setc dir 0 q) = (X c (setc dir N q) + X (along_dir dir 1 c) (setc dir 0 q)) / 2).
  { unfold avgF. cbn [npts sdm_points]. rewrite coord_setc, Z.eqb_refl by auto. rewrite Z.eqb_refl.
    rewrite (coord_along dir 1 c dir b3), Z.eqb_refl by auto. rewrite (proj2 (Z.ltb_lt 0 _)) by lia.
    rewrite avg2_R by auto. cbn [snd]. rewrite !setc_setc, along_along. change (-1 + 1)%Z with 0%Z. rewrite along_zero. reflexivity. }
  rewrite (avgF_mid dir nb') by auto. rewrite L, R0, LN, R1, !(avgF_mid dir nb X c q) by auto.
  destruct (coord q dir =? 0)%Z; [lra|]. destruct (coord q dir =? N)%Z; [lra|]. reflexivity.
Qed.

Variable s : store R.
Variable a : Z.
Variable c : cell.
Notation U := (sv b3 P s a).
Hypothesis Hc : In c (cells b3 g).
Hypothesis Hmid : not_outermost b3 g c.
Section Linear.
Variable i : Z.
Variable u0 : R.
Variable k : Z -> R.
Hypothesis Hlin : linear_flow b3 N p s a c i u0 k.
Variable dir : Z.
Hypothesis Hd : In dir (dirs b3).
Variable q : cell.
Hypothesis Hq : In q (dofs b3 P).
Definition rest : R := u0 + lsum (fun e => if (e =? dir)%Z then k e * (spacing p e * IZR (coord c e)) else k e * position N p c q e) (dirs b3).
Definition slope_ : R := k dir * spacing p dir.
Lemma sum_line (f h : Z -> R) x : (forall e, In e (dirs b3) -> e <> dir -> f e = h e) -> f dir = h dir + x -> lsum f (dirs b3) = lsum h (dirs b3) + x.
Proof.
  intros H1 H2. assert (H : forall e, In e (dirs b3) -> f e = h e + (if (e =? dir)%Z then x else 0)).
  { intros e He. destruct (Z.eqb_spec e dir) as [->|Hne]; [auto|rewrite H1 by auto; ring]. }
  unfold lsum, dirs in *. destruct b3; cbn in *; rewrite ?H by auto; destruct Hd as [<-|[<-|Hd']]; cbn; try ring.
  - destruct Hd' as [<-|[]]; cbn; ring.
  - destruct Hd'.
Qed.
Lemma vel_line n m : In m [(-1)%Z; 0%Z; 1%Z] -> (0 <= n < N)%Z ->
  velocity b3 N s a (along_dir dir m c) (setc dir n q) i = rest + slope_ * IZR m + slope_ * sol_ptsR N n.
Proof.
  intros Hm Hn. pose proof (dir_any b3 dir Hd) as Hany.
  rewrite Hlin; auto.
  2:{ destruct (dof_line b3 P dir q Hd Hq) as (Hl & _ & ->). rewrite setc_setc. apply In_dofs. apply line_sol; auto. }
  unfold rest, slope_.
  rewrite (sum_line (fun e => k e * position N p (along_dir dir m c) (setc dir n q) e)
    (fun e => if (e =? dir)%Z then k e * (spacing p e * IZR (coord c e)) else k e * position N p c q e)
    (k dir * spacing p dir * IZR m + k dir * spacing p dir * sol_ptsR N n)); [ring| |].
  - intros e He Hne. rewrite (proj2 (Z.eqb_neq e dir)) by auto. unfold position.
    rewrite (coord_along dir m c e b3), coord_setc by (auto; eapply dir_any; eauto). rewrite (proj2 (Z.eqb_neq e dir)) by auto. rewrite ?Z.add_0_r. reflexivity.
  - rewrite Z.eqb_refl. unfold position. rewrite (coord_along dir m c dir b3), coord_setc, Z.eqb_refl by auto. rewrite plus_IZR. ring.
Qed.
Lemma velF_line n m : In m [(-1)%Z; 0%Z; 1%Z] -> (0 <= n <= N)%Z ->
  velF P dir i U (along_dir dir m c) (setc dir n q) =
  rest + slope_ * IZR m + slope_ * (if (N =? 1)%Z then / 2 else flux_pts N n).
Proof.
  intros Hm Hn. pose proof (dir_any b3 dir Hd) as Hany. unfold velF, ratioF. rewrite coord_setc, Z.eqb_refl by auto.
  rewrite (sol2flux_ext P _ (fun j => (rest + slope_ * IZR m) + slope_ * sol_ptsR N j)).
  2:{ intros j Hj. rewrite setc_setc. apply (vel_line j m); auto. }
  destruct (Z.eqb_spec N 1) as [E|E].
  - rewrite (sol2flux_ext P _ (fun _ => rest + slope_ * IZR m + slope_ * / 2)); [apply const_interp|].
    intros j Hj. cbn [npts sdm_points] in Hj. assert (j = 0%Z) by lia. subst j. f_equal. f_equal.
    clear - E. subst N. unfold sol_ptsR. replace (PI * (2 * 0 + 1) / 2 / 1) with (PI / 2) by field. rewrite cos_PI2. lra.
  - apply line_interp. lia.
Qed.
Lemma mid_dir : (0 < coord c dir)%Z /\ (coord c dir + 1 < sizeA g dir)%Z.
Proof. specialize (Hmid dir Hd). rewrite sizeA_N. lia. Qed.
Lemma avg_line nb n : (0 < nb)%nat -> (0 <= n <= N)%Z ->
  avgF P g dir nb (velF P dir i U) c (setc dir n q) = rest + slope_ * flux_pts N n.
Proof.
  intros Hnb Hn. pose proof (dir_any b3 dir Hd) as Hany. destruct mid_dir as [M1 M2]. rewrite avgF_mid by auto.
  rewrite coord_setc, Z.eqb_refl by auto. rewrite !setc_setc. destruct (flux_ends N HN) as [F0 F1].
  pose proof (fun n => velF_line n 0 ltac:(cbn; auto)) as V0. rewrite along_zero in V0.
  rewrite (velF_line N (-1)), (velF_line 0 1), !V0 by (cbn; auto; lia).
  destruct (Z.eqb_spec n 0) as [->|N0].
  - rewrite F0, F1. destruct (N =? 1)%Z; lra.
  - destruct (Z.eqb_spec n N) as [->|N1].
    + rewrite F0, F1. destruct (N =? 1)%Z; lra.
    + destruct (Z.eqb_spec N 1); [lia|]. lra.
Qed.
Hypothesis Hsp : spacing p dir <> 0.
Lemma dF_line (X : cell -> cell -> Z -> R) v : (forall n, (0 <= n <= N)%Z -> X c (setc dir n q) v = rest + slope_ * flux_pts N n) ->
  dF P p dir X c q v = k dir.
Proof.
  intros HX. unfold dF. rewrite (deriv_ext P _ (fun n => rest + slope_ * flux_pts N n)) by (intros n Hn; apply HX, Hn).
  rewrite line_deriv.
  - unfold slope_. ar. field. auto.
  - destruct (dof_line b3 P dir q Hd Hq) as (_ & H & _). exact H.
Qed.
End Linear.
End Run.

(** Any two runs from the same state give the same rates, whatever the viscosity
    coefficients: the viscosity has no effect beyond switching the terms on. *)
Theorem C82_viscosity_refuted : forall b3 N p g mu mu' vnull vnull' a s s1 s2,
  viscous_run b3 N p g mu vnull a s s1 -> viscous_run b3 N p g mu' vnull' a s s2 ->
  forall c q v, In c (cells b3 g) -> In q (dofs b3 (sdm_points N)) -> In v (vars b3) -> rate b3 N s1 c q v = rate b3 N s2 c q v.
Proof.
  intros b3 N p g mu mu' vnull vnull' a s s1 s2 (HN & Ha & R1) (_ & _ & R2) c q v Hc Hq Hv.
  destruct (state_ne b3 a Ha) as (A1 & A2 & A3 & A4).
  apply viscous_spec in R1; auto; [|cbn; lia]. apply viscous_spec in R2; auto; [|cbn; lia].
  unfold rate, stored. destruct R1 as (E1 & _). destruct R2 as (E2 & _).
  transitivity (viscF b3 (sdm_points N) p g s a c q v); [apply E1|symmetry; apply E2]; auto.
Qed.
Print Assumptions C82_viscosity_refuted.

Lemma fold_sub (f : Z -> R) ds x : fold_left (fun acc d => acc - f d) ds x = x - lsum f ds.
Proof. revert x. induction ds as [|d ds IH]; intros x; cbn; [ring|]. rewrite IH. unfold lsum. cbn. ring. Qed.

(** The viscous terms should leave the rate of the density alone.  They subtract the
    derivatives of the x-velocity along all directions: in a shear flow u(y) = k y at
    constant density, mass appears at the rate k. *)
Theorem C82_mass_refuted : forall b3 N p g mu vnull a s s' c u0 k, viscous_run b3 N p g mu vnull a s s' ->
  (forall d, In d (dirs b3) -> spacing p d <> 0) -> In c (cells b3 g) -> not_outermost b3 g c -> linear_flow b3 N p s a c 0 u0 k ->
  forall q, In q (dofs b3 (sdm_points N)) -> rate b3 N s' c q ID = rate b3 N s c q ID - lsum k (dirs b3).
Proof.
  intros b3 N p g mu vnull a s s' c u0 k (HN & Ha & Hr) Hsp Hc Hm Hl q Hq.
  destruct (state_ne b3 a Ha) as (A1 & A2 & A3 & A4).
  apply viscous_spec in Hr; auto; [|cbn; lia]. destruct Hr as (E & _).
  unfold rate, stored. unfold SdmProofs.sv in E. rewrite E; auto using ID_vars. unfold viscF. cbn [sub RArith]. rewrite fold_sub. f_equal.
  apply lsum_ext. intros d Hd. apply (dF_line b3 N p HN c u0 k d Hd q Hq (Hsp d Hd)). intros n Hn. unfold fuF. cbn [Z.eqb].
  destruct (mid_dir b3 g c Hm d Hd) as [M1 M2].
  rewrite (avgF_twice b3); auto; try (unfold dimn; destruct b3; cbn; lia).
  apply avg_line; auto. unfold dimn; destruct b3; cbn; lia.
Qed.
Print Assumptions C82_mass_refuted.

(** The energy (number 1 of the stored variables) gets the derivatives of the
    y-velocity, and in 3D the x-momentum (number 2) those of the z-velocity. *)
Theorem C82_energy_refuted : forall b3 N p g mu vnull a s s' c i u0 k, viscous_run b3 N p g mu vnull a s s' -> (2 <= N)%Z ->
  (forall d, In d (dirs b3) -> spacing p d <> 0) -> In c (cells b3 g) -> not_outermost b3 g c ->
  (1 <= i < dimn b3)%Z -> linear_flow b3 N p s a c i u0 k ->
  forall q, In q (dofs b3 (sdm_points N)) -> rate b3 N s' c q i = rate b3 N s c q i - lsum k (dirs b3).
Proof.
  intros b3 N p g mu vnull a s s' c i u0 k (HN & Ha & Hr) H2 Hsp Hc Hm Hi Hl q Hq.
  destruct (state_ne b3 a Ha) as (A1 & A2 & A3 & A4).
  apply viscous_spec in Hr; auto; [|cbn; lia]. destruct Hr as (E & _).
  assert (Hv : In i (vars b3)) by (apply In_vars; unfold dimn in Hi; unfold nbv; destruct b3; lia).
  unfold rate, stored. unfold SdmProofs.sv in E. rewrite E; auto. unfold viscF. cbn [sub RArith]. rewrite fold_sub. f_equal.
  apply lsum_ext. intros d Hd. apply (dF_line b3 N p HN c u0 k d Hd q Hq (Hsp d Hd)). intros n Hn. unfold fuF.
  rewrite (proj2 (Z.eqb_neq i 0)), (proj2 (Z.ltb_lt i _)) by lia.
  pose proof (velF_line b3 N p g HN s a c Hc Hm i u0 k Hl d Hd q Hq n 0 ltac:(cbn; auto) Hn) as V. rewrite along_zero in V. rewrite V.
  rewrite (proj2 (Z.eqb_neq N 1)) by lia. ring.
Qed.
Print Assumptions C82_energy_refuted.

(** The momentum components dim and dim+1 of the stored variables (in 2D both
    momentum components, in 3D those along y and z) feel no viscous force, whatever the
    flow: their rates stay as they are wherever the gradients of the x-velocity that
    the run leaves in its gradient arrays do not vanish. *)
Theorem C82_force_refuted : forall b3 N p g mu vnull a s s' c, viscous_run b3 N p g mu vnull a s s' -> In c (cells b3 g) ->
  (forall d q, In d (dirs b3) -> In q (dofs b3 (sdm_points N)) -> stored b3 (sdm_points N) s' (aGv d) c q 0 <> 0) ->
  forall q v, In q (dofs b3 (sdm_points N)) -> In v (vars b3) -> (dimn b3 <= v)%Z -> rate b3 N s' c q v = rate b3 N s c q v.
Proof.
  intros b3 N p g mu vnull a s s' c (HN & Ha & Hr) Hc Hg q v Hq Hv Hdim.
  destruct (state_ne b3 a Ha) as (A1 & A2 & A3 & A4).
  apply viscous_spec in Hr; auto; [|cbn; lia]. destruct Hr as (E & G & _).
  unfold rate, stored. unfold SdmProofs.sv in E. rewrite E; auto. unfold viscF. cbn [sub RArith]. rewrite fold_sub.
  rewrite (lsum_ext _ (fun _ => 0)); [unfold lsum, dirs; destruct b3; cbn; unfold SdmProofs.sv; ring|].
  intros d Hd. unfold dF. rewrite (deriv_ext _ _ (fun n => 1 + 0 * flux_pts N n)).
  - rewrite line_deriv; auto; [ring|]. destruct (dof_line b3 (sdm_points N) d q Hd Hq) as (_ & H & _). exact H.
  - intros n Hn. unfold fuF. assert (H0 : (2 <= dimn b3)%Z) by (unfold dimn; destruct b3; lia).
    rewrite (proj2 (Z.eqb_neq v 0)), (proj2 (Z.ltb_ge v _)) by lia.
    unfold ratioF. rewrite (sol2flux_ext _ _ (fun _ => 1)).
    + rewrite const_interp by auto. ring.
    + intros m Hm. rewrite setc_setc. destruct (dim_vars b3 v Hv) as [_ Hdv]. specialize (Hdv Hdim).
      assert (Hqm : In (setc d m q) (dofs b3 (sdm_points N))).
      { destruct (dof_line b3 (sdm_points N) d q Hd Hq) as (Hl & _ & Eq). rewrite Eq, setc_setc. apply In_dofs. apply line_sol; auto. }
      change ID with 0%Z. rewrite <- (G (v - dimn b3)%Z c (setc d m q) 0%Z) by (auto; lia). specialize (Hg _ _ Hdv Hqm).
      unfold stored in Hg. unfold SdmProofs.sv. ar. field. exact Hg.
Qed.
Print Assumptions C82_force_refuted.

(** ** Every state has a run; a flow to which the theorems apply *)
Lemma viscous_exists b3 N p g mu vnull a s : (1 <= N <= 6)%Z -> sdm_state a -> exists s', viscous_run b3 N p g mu vnull a s s'.
Proof. intros H1 H2. eexists. split; [exact H1|]. split; [exact H2|]. apply run_kernels_seq. Qed.
Lemma newgrad_line b3 N p g s a c u0 k d q : (1 <= N <= 6)%Z -> In d (dirs b3) -> spacing p d <> 0 -> In c (cells b3 g) -> not_outermost b3 g c ->
  linear_flow b3 N p s a c 0 u0 k -> In q (dofs b3 (sdm_points N)) ->
  newgrad b3 (sdm_points N) p g s a d c q 0 = if vgrad_acc b3 d then stored b3 (sdm_points N) s (aGv d) c q 0 + k d else k d.
Proof.
  intros HN Hd Hsp Hc Hm Hl Hq. unfold newgrad, gacc.
  rewrite (dF_line b3 N p HN c u0 k d Hd q Hq Hsp).
  - destruct (vgrad_acc b3 d); reflexivity.
  - intros n Hn. unfold borderF. cbn [Z.eqb]. apply avg_line; auto. unfold dimn; destruct b3; cbn; lia.
Qed.
Definition vgas : hparams R := HParams R (14 / 10) (24 / 28) (1 / 100) (1 / 100) (1 / 100) (1 / 10000) 1 (1 / 2) (1 / 10) (1 / 5) (3 / 10) 0.
Definition vgrid : grid := Grid 4 3 1 1 4 (fun _ => 3%Z).
(** Density 1, velocity (x + 3 y, 2 x), in a 2D grid with two points per direction. *)
Definition flow : store R := fun l =>
  if (la l =? aU)%Z then
    let v := (lv l / 4)%Z in
    let x := spacing vgas IX * (IZR (li l) + sol_ptsR 2 (lv l mod 2)) in
    let y := spacing vgas IY * (IZR (lj l) + sol_ptsR 2 ((lv l / 2) mod 2)) in
    if (v =? ID)%Z then 1 else if (v =? IE)%Z then 100 else if (v =? IU)%Z then x + 3 * y else 2 * x
  else 0.
Lemma flow_velocity c q i : (i = 0 \/ i = 1)%Z -> In q (dofs false (sdm_points 2)) ->
  velocity false 2 flow aU c q i = 0 + lsum (fun e => (if (i =? 0)%Z then (if (e =? IX)%Z then 1 else 3) else (if (e =? IX)%Z then 2 else 0)) * position 2 vgas c q e) (dirs false).
Proof.
  intros Hi Hq. apply In_dofs in Hq. destruct q as [[x y] z]. destruct Hq as [Hq Hz]. specialize (Hz eq_refl).
  pose proof (Hq IX ltac:(cbn; auto)) as Hx. pose proof (Hq IY ltac:(cbn; auto)) as Hy. cbn in Hx, Hy, Hz. subst z.
  destruct c as [[ci cj] ck]. unfold velocity, stored, flow, sloc. cbn [at_cell la lv li lj].
  change (npts (sdm_points 2)) with 2%Z. unfold DofMap. change (aU =? aU)%Z with true. cbv iota.
  assert (E0 : ((x + 2 * y + 2 * 2 * ID) / 4 = 0)%Z) by (symmetry; apply (Z.div_unique _ 4 0 (x + 2 * y)); unfold ID; lia).
  assert (E1 : ((x + 2 * y + 2 * 2 * (IU + i)) / 4 = IU + i)%Z) by (symmetry; apply (Z.div_unique _ 4 _ (x + 2 * y)); lia).
  assert (E2 : ((x + 2 * y + 2 * 2 * (IU + i)) mod 2 = x)%Z) by (symmetry; apply (Z.mod_unique _ 2 (y + 2 * (IU + i)) x); lia).
  assert (E3 : ((x + 2 * y + 2 * 2 * (IU + i)) / 2 mod 2 = y)%Z).
  { replace ((x + 2 * y + 2 * 2 * (IU + i)) / 2)%Z with (y + 2 * (IU + i))%Z by (apply (Z.div_unique _ 2 _ x); lia).
    symmetry; apply (Z.mod_unique _ 2 (IU + i) y); lia. }
  rewrite E0, E1, E2, E3. unfold position, coord. cbn [dirs lsum]. unfold IX, IY, IU, ID, IE.
  destruct Hi as [->| ->]; cbn [Z.eqb Pos.eqb Z.add Pos.add fst snd]; field.
Qed.
Example ex_flow : exists s', viscous_run false 2 vgas vgrid (1 / 10) (fun _ _ _ _ => 0) aU flow s' /\
  (forall q, In q (dofs false (sdm_points 2)) ->
     rate false 2 s' (2, 2, 0)%Z q ID = rate false 2 flow (2, 2, 0)%Z q ID - 4 /\
     rate false 2 s' (2, 2, 0)%Z q IP = rate false 2 flow (2, 2, 0)%Z q IP - 2 /\
     rate false 2 s' (2, 2, 0)%Z q IU = rate false 2 flow (2, 2, 0)%Z q IU).
Proof.
  destruct (viscous_exists false 2 vgas vgrid (1 / 10) (fun _ _ _ _ => 0) aU flow) as [s' Hr]; [lia|left; reflexivity|].
  exists s'. split; [exact Hr|].
  assert (Hc : In ((2, 2, 0)%Z : cell) (cells false vgrid)).
  { apply In_cellsD. split; [intros a [<-|[<-|[]]]; cbn; lia|reflexivity]. }
  assert (Hm : not_outermost false vgrid (2, 2, 0)%Z) by (intros a [<-|[<-|[]]]; cbn; lia).
  assert (Hs : forall d, In d (dirs false) -> spacing vgas d <> 0) by (intros d [<-|[<-|[]]]; cbn; lra).
  assert (L0 : linear_flow false 2 vgas flow aU (2, 2, 0)%Z 0 0 (fun e => if (e =? IX)%Z then 1 else 3)).
  { intros d n q Hd Hn Hq. rewrite flow_velocity by auto. reflexivity. }
  assert (L1 : linear_flow false 2 vgas flow aU (2, 2, 0)%Z 1 0 (fun e => if (e =? IX)%Z then 2 else 0)).
  { intros d n q Hd Hn Hq. rewrite flow_velocity by auto. reflexivity. }
  intros q Hq. split; [|split].
  - rewrite (C82_mass_refuted _ _ _ _ _ _ _ _ _ _ _ _ Hr Hs Hc Hm L0 q Hq). f_equal. cbn. lra.
  - change IP with 1%Z. assert (H1 : (1 <= 1 < dimn false)%Z) by (cbn; lia). assert (H2 : (2 <= 2)%Z) by lia.
    rewrite (C82_energy_refuted _ _ _ _ _ _ _ _ _ _ _ _ _ Hr H2 Hs Hc Hm H1 L1 q Hq). f_equal. cbn. lra.
  - apply (C82_force_refuted _ _ _ _ _ _ _ _ _ _ Hr Hc); auto; [|apply In_vars; cbn; unfold IU; lia|cbn; unfold IU; lia].
    intros d q' Hd Hq'. destruct Hr as (HN & Ha & Hr). destruct (state_ne false aU Ha) as (A1 & A2 & A3 & A4).
    apply viscous_spec in Hr; auto; [|cbn; lia]. destruct Hr as (_ & G & _).
    unfold stored. unfold SdmProofs.sv in G. rewrite G by (auto; cbn; lia).
    rewrite (newgrad_line false 2 vgas vgrid flow aU (2, 2, 0)%Z 0 (fun e => if (e =? IX)%Z then 1 else 3) d q'); auto.
    assert (Z0 : stored false (sdm_points 2) flow (aGv d) (2, 2, 0)%Z q' 0 = 0).
    { destruct q' as [[x y] z]. unfold stored, flow, sloc. cbn [at_cell la]. destruct Hd as [<-|[<-|[]]]; reflexivity. }
    rewrite Z0. destruct Hd as [<-|[<-|[]]]; cbn; lra.
Qed.

(** ** Double precision *)
Definition is_zero (x : spec_float) : Prop := exists b, x = S754_zero b.
Definition is_finite (x : spec_float) : Prop := match x with S754_zero _ | S754_finite _ _ _ => True | _ => False end.
Section Float.
Local Existing Instance F64.
Lemma zero_add x y : is_zero x -> is_zero y -> is_zero (add x y).
Proof. intros [b ->] [b' ->]. exists (match b, b' with true, true => true | _, _ => false end). destruct b, b'; reflexivity. Qed.
Lemma zero_mul x y : is_zero x -> is_finite y -> is_zero (mul x y).
Proof. intros [b ->] Hy. destruct y; try contradiction; eexists; reflexivity. Qed.
Lemma mul_zero x y : is_finite x -> is_zero y -> is_zero (mul x y).
Proof. intros Hx [b ->]. destruct x; try contradiction; eexists; reflexivity. Qed.
Lemma zero_div x y : is_zero x -> is_finite y -> ~ is_zero y -> is_zero (div x y).
Proof. intros [b ->] Hy Hn. destruct y as [b'| | |]; try contradiction; [exfalso; apply Hn; eexists; reflexivity|eexists; reflexivity]. Qed.
Lemma zero_zero x y : is_zero x -> is_zero y -> div x y = S754_nan.
Proof. intros [b ->] [b' ->]. reflexivity. Qed.
Lemma dot_zero n v m j : (forall k, (0 <= k < n)%Z -> is_zero (v k) /\ is_finite (m k j)) -> is_zero (dot n v m j).
Proof.
  intros H. unfold dot, loopv. assert (G : forall l acc, (forall k, In k l -> (0 <= k < n)%Z) -> is_zero acc ->
    is_zero (fold_left (fun a k => add a (mul (v k) (m k j))) l acc)).
  { induction l as [|k l IH]; intros acc Hl Ha; [exact Ha|]. cbn. apply IH; [intros; apply Hl; right; auto|].
    destruct (H k (Hl k (or_introl eq_refl))). apply zero_add; auto. apply zero_mul; auto. }
  apply G; [|exists false; reflexivity]. intros k Hk. apply In_zrange in Hk. exact Hk.
Qed.
Lemma nan_mul x : mul S754_nan x = S754_nan. Proof. destruct x; reflexivity. Qed.
Lemma nan_addl x : add S754_nan x = S754_nan. Proof. destruct x; reflexivity. Qed.
Lemma nan_addr x : add x S754_nan = S754_nan. Proof. destruct x; reflexivity. Qed.
Lemma nan_subl x : sub S754_nan x = S754_nan. Proof. destruct x; reflexivity. Qed.
Lemma nan_subr x : sub x S754_nan = S754_nan. Proof. destruct x; reflexivity. Qed.
Lemma dot_nan n v m j : (1 <= n)%Z -> (forall k, (0 <= k < n)%Z -> v k = S754_nan) -> dot n v m j = S754_nan.
Proof.
  intros Hn H. unfold dot, loopv.
  assert (E : zrange 0 n = 0%Z :: zrange 1 n).
  { unfold zrange. replace (Z.to_nat (n - 0)) with (S (Z.to_nat (n - 1))) by lia. cbn [List.seq map]. apply f_equal2; [reflexivity|].
    rewrite <- seq_shift, map_map. apply map_ext. intros i. lia. }
  rewrite E. cbn [fold_left]. rewrite (H 0%Z) by lia. rewrite nan_mul, nan_addr.
  generalize (zrange 1 n). intros l. induction l as [|k l IH]; [reflexivity|]. cbn [fold_left]. rewrite nan_addl. exact IH.
Qed.

(** Gas at rest: in double precision, a viscous run leaves NaN in the rate of the
    x-momentum, where the rate should not change. *)
Theorem C82_rest_refuted : forall (P : points spec_float) (p : hparams spec_float) g mu vnull a s s' c,
  (1 <= npts P)%Z -> sdm_state a -> run_kernels (viscous_terms false P p g mu vnull a) s s' ->
  In c (cells false g) ->
  (forall i j, (0 <= i < npts P)%Z -> (0 <= j <= npts P)%Z -> is_finite (m_sol2flux P i j)) ->
  (forall i j, (0 <= i <= npts P)%Z -> (0 <= j < npts P)%Z -> is_finite (m_flux2sol_derivative P i j)) ->
  is_finite (div one (dx p)) ->
  (forall c' q, In c' (cells false g) -> In q (dofs false P) ->
     is_zero (s (sloc false P a c' q IU)) /\ is_finite (s (sloc false P a c' q ID)) /\ ~ is_zero (s (sloc false P a c' q ID))) ->
  forall q, In q (dofs false P) -> s' (sloc false P aFdiv c q IU) = S754_nan.
Proof.
  intros P p g mu vnull a s s' c HN Ha Hr Hc Hf1 Hf2 Hx Hrest q Hq. destruct (state_ne false a Ha) as (A1 & A2 & A3 & A4).
  apply viscous_spec in Hr; auto. destruct Hr as (E & _). unfold SdmProofs.sv in E.
  rewrite E; auto; [|apply In_vars; cbn; unfold IU; lia].
  assert (HX : In IX (dirs false)) by (left; reflexivity).
  assert (VZ : forall c q, In c (cells false g) -> fbox false P IX q -> is_zero (velF P IX 0 (sv false P s a) c q)).
  { intros c1 q1 Hc1 Hq1. unfold velF, ratioF, sol2flux. destruct (flux_line false P IX q1 HX Hq1) as (_ & Hn1 & _). apply dot_zero. intros k Hk. split; [|apply Hf1; auto].
    assert (Hqk : In (setc IX k q1) (dofs false P)).
    { destruct (flux_line false P IX q1 HX Hq1) as (Hl & _ & Eq). rewrite Eq, setc_setc. apply In_dofs. apply line_sol; auto. }
    destruct (Hrest c1 _ Hc1 Hqk) as (H1 & H2 & H3). apply zero_div; auto. }
  assert (AZ : forall nb x y, is_zero x -> is_zero y -> is_zero (fst (avg2 nb x y)) /\ is_zero (snd (avg2 nb x y))).
  { induction nb as [|nb IH]; intros x y Hx' Hy'; [split; assumption|]. unfold avg2. cbn [Nat.iter nat_rect].
    fold (avg2 nb x y). destruct (IH x y Hx' Hy') as [I1 I2].
    assert (Z1 : is_zero (mul half (add (fst (avg2 nb x y)) (snd (avg2 nb x y))))) by (apply mul_zero; [exact I|apply zero_add; auto]).
    split; exact Z1. }
  assert (BZ : forall q, fbox false P IX q -> is_zero (borderF false P g IX (sv false P s a) c q 0)).
  { intros q1 Hq1. unfold borderF. cbn [Z.eqb]. destruct (flux_line false P IX q1 HX Hq1) as (Hl & Hn & Eq).
    assert (Hb : forall n, (0 <= n <= npts P)%Z -> fbox false P IX (setc IX n q1)).
    { intros n Hn'. rewrite Eq, setc_setc. apply line_flux; auto. }
    pose proof (coord_C false g IX c HX Hc) as Hcc. unfold avgF. cbv zeta.
    destruct (coord q1 IX =? 0)%Z.
    - destruct (Z.ltb_spec 0 (coord c IX)); [|apply VZ; auto].
      apply AZ; apply VZ; auto; try (apply Hb; lia). apply (along_in false g IX); auto. lia.
    - destruct (coord q1 IX =? npts P)%Z; [|apply VZ; auto].
      destruct (Z.ltb_spec (coord c IX + 1) (sizeA g IX)); [|apply VZ; auto].
      apply AZ; apply VZ; auto; try (apply Hb; lia). apply (along_in false g IX); auto. lia. }
  assert (GZ : forall q, In q (dofs false P) -> is_zero (newgrad false P p g s a IX c q 0)).
  { intros q1 Hq1. unfold newgrad, gacc, vgrad_acc. cbn [orb negb Z.eqb IX]. unfold dF, flux2sol_derivative. apply zero_mul; [|exact Hx].
    destruct (dof_line false P IX q1 HX Hq1) as (Hl & Hn1 & Eq).
    apply dot_zero. intros k Hk. split; [|apply Hf2; auto; lia]. apply BZ.
    rewrite Eq, setc_setc. apply line_flux; auto. lia. }
  assert (DN : forall d, In d (dirs false) -> dF P p d (fuF false P g d (sv false P s a) (newgrad false P p g s a)) c q IU = S754_nan).
  { intros d Hd. unfold dF, flux2sol_derivative. rewrite dot_nan; [apply nan_mul|lia|]. intros k Hk.
    unfold fuF. cbn [Z.eqb Z.ltb Z.compare IU Pos.compare Pos.compare_cont dimn Z.sub Z.add Z.opp Z.pos_sub].
    unfold ratioF, sol2flux. apply dot_nan; [lia|]. intros m Hm. rewrite setc_setc.
    assert (Hqm : In (setc d m q) (dofs false P)).
    { destruct (dof_line false P d q Hd Hq) as (Hl & _ & Eq). rewrite Eq, setc_setc. apply In_dofs. apply line_sol; auto. }
    apply zero_zero; apply GZ; auto. }
  unfold viscF. cbn [dirs fold_left]. rewrite (DN IX HX), (DN IY) by (right; left; reflexivity). rewrite nan_subr. reflexivity.
Qed.
(** Density 1, no motion; two points per direction. *)
Definition restP : points spec_float :=
  Points 2 (fun j => if (j =? 0)%Z then lit 1 4 else lit 3 4) (fun j => if (j =? 0)%Z then zero else if (j =? 1)%Z then half else one).
Definition restp : hparams spec_float := HParams spec_float (lit 14 10) zero (lit 1 100) (lit 1 100) (lit 1 100) zero one half one one one 0%Z.
Definition still : store spec_float := fun l => if (lv l / 4 =? 0)%Z then one else zero.
Example ex_rest : exists s', run_kernels (viscous_terms false restP restp vgrid (lit 1 10) (fun _ _ _ _ => zero) aU) still s' /\
  (forall c q, In c (cells false vgrid) -> In q (dofs false restP) -> still (sloc false restP aFdiv c q IU) = zero /\
     s' (sloc false restP aFdiv c q IU) = S754_nan).
Proof.
  eexists. split; [apply run_kernels_seq|]. intros c q Hc Hq.
  assert (K : forall c q, In q (dofs false restP) -> forall v a, (0 <= v)%Z -> still (sloc false restP a c q v) = if (v =? 0)%Z then one else zero).
  { intros c1 q1 Hq1 v a Hv. apply In_dofs in Hq1. destruct q1 as [[x y] z]. destruct c1 as [[ci cj] ck]. destruct Hq1 as [H1 H2].
    pose proof (H1 IX ltac:(cbn; auto)) as Hx. pose proof (H1 IY ltac:(cbn; auto)) as Hy. cbn in Hx, Hy.
    unfold still, sloc. cbn [at_cell lv]. change (npts restP) with 2%Z. unfold DofMap.
    replace ((x + 2 * y + 2 * 2 * v) / 4)%Z with v by (apply (Z.div_unique _ 4 _ (x + 2 * y)); lia). reflexivity. }
  split; [rewrite K; auto; unfold IU; lia|].
  eapply (C82_rest_refuted restP restp vgrid (lit 1 10) (fun _ _ _ _ => zero) aU still); [| |apply run_kernels_seq|exact Hc| | | | |exact Hq].
  - cbn; lia.
  - left; reflexivity.
  - cbn [npts restP]. intros i j Hi Hj.
    assert (Ei : (i = 0 \/ i = 1)%Z) by lia. assert (Ej : (j = 0 \/ j = 1 \/ j = 2)%Z) by lia.
    destruct Ei as [->| ->], Ej as [->|[->| ->]]; vm_compute; exact I.
  - cbn [npts restP]. intros i j Hi Hj.
    assert (Ei : (i = 0 \/ i = 1 \/ i = 2)%Z) by lia. assert (Ej : (j = 0 \/ j = 1)%Z) by lia.
    destruct Ei as [->|[->| ->]], Ej as [->| ->]; vm_compute; exact I.
  - vm_compute; exact I.
  - intros c' q' _ Hq'. rewrite !K by (auto; unfold IU, ID; lia). cbn [Z.eqb IU ID].
    split; [exists false; reflexivity|]. split; [vm_compute; exact I|]. intros [b Hb]. vm_compute in Hb. discriminate Hb.
Qed.
End Float.
Print Assumptions C82_rest_refuted.
