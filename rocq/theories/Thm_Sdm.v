(** Theorems about the spectral difference solver: C41-C45, C51, C66-C70. *)
From Coq Require Import ZArith List Bool Reals Lia Lra.
From Coquelicot Require Import Coquelicot.
From Verif Require Import Arith Par ParProofs GridModel BoundaryModel BoundarySpec HydroState HydroPoint HydroKernels HydroField HydroSpec HydroConserve
  Physics ReduceModel DtProofs RiemannSelect MoodKernels MoodProofs MoodSafeSpec
  SdmGeom SdmSpec SdmLagrange SdmExact SdmPoints TaskModel TaskKernels EulerModel SdmKernels SdmDofs SdmProofs SdmRunSpec SdmRun
  SdmConsSpec SdmUniform SdmConserve SdmFlux EulerSpec EulerProofs SdmDt SdmDtProofs SdmSafeSpec SdmSafe.
Import ListNotations.
Open Scope R_scope.

(** ** Interpolation and derivative matrices (C41) *)
(** [peval l] is the polynomial with coefficients [l], so of degree < length l. *)
Theorem C41_sol2flux : forall (P : points R) l j, (1 <= npts P)%Z -> distinct (npts P) (solp P) ->
  (Z.of_nat (length l) <= npts P)%Z ->
  sol2flux P (fun i => peval l (solp P i)) j = peval l (flxp P j).
Proof. intros P l j H. apply exact_sol2flux; auto. Qed.
Print Assumptions C41_sol2flux.
Theorem C41_flux2sol : forall (P : points R) l j, (1 <= npts P)%Z -> distinct (npts P + 1) (flxp P) ->
  (Z.of_nat (length l) <= npts P + 1)%Z ->
  flux2sol P (fun i => peval l (flxp P i)) j = peval l (solp P j).
Proof. intros P l j H. apply exact_flux2sol; auto. Qed.
Print Assumptions C41_flux2sol.
(** [rescale] is the factor 1/dx by which the caller converts to physical units. *)
Theorem C41_flux2sol_derivative : forall (P : points R) l j rescale, (1 <= npts P)%Z -> distinct (npts P + 1) (flxp P) ->
  (Z.of_nat (length l) <= npts P + 1)%Z -> (forall k, (0 <= k <= npts P)%Z -> solp P j <> flxp P k) ->
  flux2sol_derivative P (fun i => peval l (flxp P i)) j rescale = Derive (peval l) (solp P j) * rescale.
Proof. intros P l j r H. apply exact_flux_derivative; auto. Qed.
Print Assumptions C41_flux2sol_derivative.
Theorem C41_sol2sol_derivative : forall (P : points R) l j rescale, (1 <= npts P)%Z -> distinct (npts P) (solp P) ->
  (Z.of_nat (length l) <= npts P)%Z ->
  sol2sol_derivative P (fun i => peval l (solp P i)) j rescale = Derive (peval l) (solp P j) * rescale.
Proof. intros P l j r H. apply exact_sol_derivative; auto. Qed.
Print Assumptions C41_sol2sol_derivative.
(** The tabulated points of every supported order meet the hypotheses; the solution
    points are increasing and lie inside the cell, the flux points are increasing,
    start at 0, end at 1 and are in between the roots of the Legendre polynomial
    of degree N-1 (mapped to the unit interval). *)
Theorem C41_points : forall n, (1 <= n <= 6)%Z ->
  points_ok (sdm_points n) /\ ends_ok (sdm_points n) /\ npts (sdm_points n) = n /\
  increasing n (solp (sdm_points n)) /\ increasing (n + 1) (flxp (sdm_points n)) /\
  (forall i, (0 <= i < n)%Z -> 0 < solp (sdm_points n) i < 1) /\
  (forall j, (0 < j < n)%Z -> legendre (n - 1) (2 * flxp (sdm_points n) j - 1) = 0).
Proof.
  intros n Hn. destruct (points_std n Hn) as [H1 H2]. split; [exact H1|split; [exact H2|split; [reflexivity|]]].
  split; [apply sol_increasing|]. split; [apply flux_increasing; auto|]. split; [apply sol_inside|]. intros j Hj. apply flux_legendre; auto.
Qed.
Print Assumptions C41_points.

(** ** The discrete divergence (C42) *)
(** Integral over the unit cell of the polynomial whose values are the discrete
    derivatives = difference of the end-point fluxes, for every flux vector. *)
Theorem C42_telescope : forall (P : points R) (flux : Z -> R), (1 <= npts P)%Z -> points_ok P -> ends_ok P ->
  lsum (fun j => point_weight P j * flux2sol_derivative P flux j 1) (zrange 0 (npts P)) = flux (npts P) - flux 0%Z.
Proof.
  intros P f H1 (A & B & C) (D & E). rewrite lsum_suml. change (point_weight P) with (weight P). apply telescope; auto.
Qed.
Print Assumptions C42_telescope.
(** The scheme is in conservation form: there is a numerical flux, depending on the
    states of the two adjacent cells only and equal to the physical flux when both
    hold the same uniform state, such that a forward Euler step changes the cell
    averages by the differences of that flux between the faces of the cell.  The
    states are those of the cells after the boundary conditions have been applied. *)
Theorem C42_flux_form : forall (b3 : bool) (P : points R) p, (1 <= npts P)%Z -> points_ok P -> ends_ok P ->
  (if b3 then riemann_ok3 p else riemann_ok2 p) ->
  exists Phi : Z -> (cell -> Z -> R) -> (cell -> Z -> R) -> Z -> R,
    (params_ok p -> forall dir (w : hs R) v, In dir (dirs b3) -> admissible p w -> (b3 = false -> planar w) ->
       / 10000000 * hD w < hP w -> (b3 = false -> / 100000000 <= hD w) ->
       let k := comp (conservative (gamma0 p) w) in
       Phi dir (fun _ => k) (fun _ => k) v = comp (cons_flux (gamma0 p) dir (conservative (gamma0 p) w)) v) /\
    (forall g dt junk a (s s' : store R), sdm_ok b3 P g -> sdm_state a ->
       run_kernels (time_integration b3 P p g dt junk FE a) s s' ->
       forall c v, In c (interior b3 g) -> In v (vars b3) ->
       let W := ghosts P g b3 (stored b3 P s a) in
       average b3 P (stored b3 P s' a) c v = average b3 P (stored b3 P s a) c v -
         dt * lsum (fun dir => (Phi dir (W c) (W (along_dir dir 1 c)) v - Phi dir (W (along_dir dir (-1) c)) (W c) v) / spacing p dir) (dirs b3)).
Proof.
  intros b3 P p HN HP He Hr. exists (num_flux b3 P p). split.
  - intros Hp dir w v Hd Hw Hpl F1 F2 k. unfold k.
    apply (num_flux_consistent b3 P p (Grid 1 1 1 1 1 (fun _ => 3%Z))); auto. unfold sdm_ok. cbn. lia.
  - intros g dt junk a s s' Hok Ha Hk c v Hc Hv W. apply (In_interior b3 P g junk Hok) in Hc. destruct Hc as [Hi Hc].
    apply step_fe in Hk; auto; [|apply state_stA; auto].
    change (stored b3 P s' a) with (sv b3 P s' a). rewrite (average_ext b3 P g _ _ c v Hk) by auto.
    rewrite stg_average. fold (stored b3 P s a). change (sv b3 P s a) with (stored b3 P s a). fold W.
    rewrite div_average by auto. cbn [one zero opp RArith]. ring.
Qed.
Print Assumptions C42_flux_form.
Theorem C42_conserve : forall (b3 : bool) (P : points R) p g dt junk ti a s s' v,
  sdm_ok b3 P g -> points_ok P -> ends_ok P -> (if b3 then riemann_ok3 p else riemann_ok2 p) -> periodic_sdm b3 g ->
  ti <> RK54 -> sdm_state a -> (ti <> FE -> a = aU) -> In v (vars b3) ->
  run_kernels (time_integration b3 P p g dt junk ti a) s s' ->
  total_sdm b3 P g s' a v = total_sdm b3 P g s a v.
Proof. intros b3 P p g dt junk ti a s s' v H1 H2 H3 H4 H5 H6 H7 H8 H9 K. eapply conserve_sdm; eauto. Qed.
Print Assumptions C42_conserve.
(** With the tabulated SSP-RK54 weights the totals are multiplied by 1 + 10^-15. *)
Theorem C42_conserve_rk54_refuted : forall (b3 : bool) (P : points R) p g dt junk s s' v,
  sdm_ok b3 P g -> points_ok P -> ends_ok P -> (if b3 then riemann_ok3 p else riemann_ok2 p) -> periodic_sdm b3 g ->
  In v (vars b3) -> total_sdm b3 P g s aU v <> 0 ->
  run_kernels (time_integration b3 P p g dt junk RK54 aU) s s' ->
  total_sdm b3 P g s' aU v = (1 + 1 / 1000000000000000) * total_sdm b3 P g s aU v /\
  total_sdm b3 P g s' aU v <> total_sdm b3 P g s aU v.
Proof.
  intros b3 P p g dt junk s s' v H1 H2 H3 H4 H5 H6 H7 K.
  assert (E : total_sdm b3 P g s' aU v = (1 + 1 / 1000000000000000) * total_sdm b3 P g s aU v) by (eapply conserve_rk54; eauto).
  split; [exact E|]. rewrite E. intros F. apply H7. lra.
Qed.
Print Assumptions C42_conserve_rk54_refuted.

(** ** Numbering of the degrees of freedom (C43) *)
Definition in_cell (d3 : bool) (N i j k : Z) : Prop :=
  (0 <= i < N /\ 0 <= j < N /\ (if d3 then 0 <= k < N else k = 0))%Z.
Definition in_cell_flux (d3 : bool) (N dir i j k : Z) : Prop :=
  (0 <= i < (if dir =? IX then N + 1 else N) /\ 0 <= j < (if dir =? IY then N + 1 else N) /\
   (if d3 then 0 <= k < (if dir =? IZ then N + 1 else N) else k = 0))%Z.
Theorem C43_DofMap : forall (d3 : bool) N nb, (1 <= N)%Z -> (0 <= nb)%Z ->
  let size := ((if d3 then N * N * N else N * N) * nb)%Z in
  (forall i j k v, in_cell d3 N i j k -> (0 <= v < nb)%Z -> (0 <= DofMap d3 N i j k v < size)%Z) /\
  (forall i j k v i' j' k' v', in_cell d3 N i j k -> in_cell d3 N i' j' k' ->
     DofMap d3 N i j k v = DofMap d3 N i' j' k' v' -> i = i' /\ j = j' /\ k = k' /\ v = v') /\
  (forall n, (0 <= n < size)%Z -> exists i j k v, in_cell d3 N i j k /\ (0 <= v < nb)%Z /\ DofMap d3 N i j k v = n).
Proof.
  intros d3 N nb HN Hnb size.
  assert (B : forall i j k, in_cell d3 N i j k <-> in_box d3 (fun _ => N) (i, j, k)) by (intros; rewrite in_box_coords; reflexivity).
  assert (V : size = (vol d3 (fun _ => N) * nb)%Z) by (unfold size, vol; destruct d3; ring).
  split; [|split].
  - intros i j k v Hq Hv. rewrite DofMap_mixed, V. apply (mixed_range d3 (fun _ => N)); auto. apply B; auto.
  - intros i j k v i' j' k' v' Hq Hq' E. rewrite !DofMap_mixed in E. apply (mixed_inj d3 (fun _ => N)) in E; [|apply B; auto|apply B; auto].
    destruct E as [E ->]. injection E as -> -> ->. auto.
  - intros n Hn. rewrite V in Hn. apply mixed_surj in Hn; [|intros; lia]. destruct Hn as (i & j & k & v & Hq & Hv & ->).
    exists i, j, k, v. rewrite DofMap_mixed. split; [apply B; auto|auto].
Qed.
Print Assumptions C43_DofMap.
Theorem C43_DofMapFlux : forall (d3 : bool) N nb dir, (1 <= N)%Z -> (0 <= nb)%Z -> In dir (dirs d3) ->
  let size := ((if d3 then N * N * (N + 1) else N * (N + 1)) * nb)%Z in
  (forall i j k v, in_cell_flux d3 N dir i j k -> (0 <= v < nb)%Z -> (0 <= DofMapFlux d3 N dir i j k v < size)%Z) /\
  (forall i j k v i' j' k' v', in_cell_flux d3 N dir i j k -> in_cell_flux d3 N dir i' j' k' ->
     DofMapFlux d3 N dir i j k v = DofMapFlux d3 N dir i' j' k' v' -> i = i' /\ j = j' /\ k = k' /\ v = v') /\
  (forall n, (0 <= n < size)%Z -> exists i j k v, in_cell_flux d3 N dir i j k /\ (0 <= v < nb)%Z /\ DofMapFlux d3 N dir i j k v = n).
Proof.
  intros d3 N nb dir HN Hnb Hd size.
  assert (B : forall i j k, in_cell_flux d3 N dir i j k <-> in_box d3 (mF N dir) (i, j, k)).
  { intros. rewrite in_box_coords. unfold in_cell_flux, mF. rewrite !(Z.eqb_sym dir). reflexivity. }
  assert (V : size = (vol d3 (mF N dir) * nb)%Z).
  { unfold size, vol, mF. apply dirs_cases in Hd. destruct Hd as [->|[->|[-> ->]]]; try destruct d3; cbn [IX IY IZ Z.eqb Pos.eqb]; unfold IX, IY, IZ; cbn [Z.eqb Pos.eqb]; ring. }
  split; [|split].
  - intros i j k v Hq Hv. rewrite DofMapFlux_mixed, V by auto. apply (mixed_range d3 (mF N dir)); auto. apply B; auto.
  - intros i j k v i' j' k' v' Hq Hq' E. rewrite !DofMapFlux_mixed in E by auto. apply mixed_inj in E; [|apply B; auto|apply B; auto].
    destruct E as [E ->]. injection E as -> -> ->. auto.
  - intros n Hn. rewrite V in Hn. apply mixed_surj in Hn; [|intros; unfold mF; destruct (_ =? _)%Z; lia]. destruct Hn as (i & j & k & v & Hq & Hv & ->).
    exists i, j, k, v. rewrite DofMapFlux_mixed by auto. split; [apply B; auto|auto].
Qed.
Print Assumptions C43_DofMapFlux.

(** ** The strong stability preserving integrators (C44) *)
(** The value of variable [v] at point [q] of cell [c]. *)
Definition at_point {T} (b3 : bool) (P : points T) (s : store T) (a : Z) (c q : cell) (v : Z) : T := s (sloc b3 P a c q v).
Definition interior_values {T} (b3 : bool) (P : points T) g (R : cell -> cell -> Z -> Prop) : Prop :=
  forall c q v, In c (interior b3 g) -> In q (dofs b3 P) -> In v (vars b3) -> R c q v.
(** RK2: half the old state plus half the result of two forward Euler steps. *)
Theorem C44_sdm_rk2 : forall (b3 : bool) (P : points R) p g dt junk s s' s1 s2, sdm_ok b3 P g ->
  run_kernels (time_integration b3 P p g dt junk RK2 aU) s s' ->
  run_kernels (time_integration b3 P p g dt junk FE aU) s s1 ->
  run_kernels (time_integration b3 P p g dt junk FE aU) s1 s2 ->
  interior_values b3 P g (fun c q v => at_point b3 P s' aU c q v = / 2 * at_point b3 P s aU c q v + / 2 * at_point b3 P s2 aU c q v).
Proof.
  intros b3 P p g dt junk s s' s1 s2 Hok K K1 K2 c q v Hc Hq Hv. apply (interior_iff b3 P g junk Hok) in Hc.
  apply (sdm_rk2 b3 P p g dt junk Hok s s' s1 s2 K K1 K2); tauto.
Qed.
Print Assumptions C44_sdm_rk2.
(** RK3: a third of the old state plus two thirds of a forward Euler step from the
    state that is three quarters of the old one plus a quarter of the result of
    two forward Euler steps. *)
Theorem C44_sdm_rk3 : forall (b3 : bool) (P : points R) p g dt junk s s' s1 s2 s3 s4, sdm_ok b3 P g ->
  run_kernels (time_integration b3 P p g dt junk RK3 aU) s s' ->
  run_kernels (time_integration b3 P p g dt junk FE aU) s s1 ->
  run_kernels (time_integration b3 P p g dt junk FE aU) s1 s2 ->
  interior_values b3 P g (fun c q v => at_point b3 P s3 aU c q v = 3 / 4 * at_point b3 P s aU c q v + / 4 * at_point b3 P s2 aU c q v) ->
  run_kernels (time_integration b3 P p g dt junk FE aU) s3 s4 ->
  interior_values b3 P g (fun c q v => at_point b3 P s' aU c q v = / 3 * at_point b3 P s aU c q v + 2 / 3 * at_point b3 P s4 aU c q v).
Proof.
  intros b3 P p g dt junk s s' s1 s2 s3 s4 Hok K K1 K2 E3 K4 c q v Hc Hq Hv. apply (interior_iff b3 P g junk Hok) in Hc.
  assert (E : agreeI b3 P g (sv b3 P s3 aU) (fun c q v => 3 / 4 * sv b3 P s aU c q v + / 4 * sv b3 P s2 aU c q v)).
  { intros c0 q0 v0 H1 H2 H3 H4. apply E3; auto. apply (interior_iff b3 P g junk Hok); auto. }
  apply (sdm_rk3 b3 P p g dt junk Hok s s' s1 s2 s3 s4 K K1 K2 E K4); tauto.
Qed.
Print Assumptions C44_sdm_rk3.

(** ** The cell average functor (C45): false *)
(** For every order the average of a constant field is the constant times
    (h / sin h)^dim with h = pi / (2N), a factor above one. *)
Theorem C45_average_refuted : forall (b3 : bool) N p k v, (1 <= N)%Z -> v <> ID ->
  let h := PI / (2 * IZR N) in
  sdm_average b3 N p (fun _ => k) v = k * (h / sin h) ^ (if b3 then 3 else 2) /\ 1 < h / sin h /\
  (k <> 0 -> sdm_average b3 N p (fun _ => k) v <> k).
Proof.
  intros b3 N p k v HN Hv h. pose proof (average_const b3 N p k v HN Hv) as E. pose proof (factor_gt1 N HN) as F.
  change (half_angle N) with h in *. split; [exact E|split; [exact F|]]. rewrite E. intros Hk H.
  set (x := h / sin h) in *. assert (G : 1 < x ^ (if b3 then 3 else 2)) by (destruct b3; cbn; nra).
  apply (Rmult_eq_reg_l k); [|exact Hk] || idtac.
  assert (k * (x ^ (if b3 then 3 else 2) - 1) = 0) by lra. apply Rmult_integral in H0. lra.
Qed.
Print Assumptions C45_average_refuted.

(** ** Characteristic variables of the Euler equations (C51) *)
Theorem C51_inverse : forall (b3 : bool) gamma dir (q d : hs R) c, In dir (dirs b3) -> hD q <> 0 -> c <> 0 -> gamma <> 1 ->
  (b3 = false -> hW d = 0) ->
  charac_to_cons b3 gamma dir (cons_to_charac b3 gamma dir d q c) q c = d /\
  cons_to_charac b3 gamma dir (charac_to_cons b3 gamma dir d q c) q c = d.
Proof. intros b3 g dir q d c H1 H2 H3 H4 H5. split; [apply charac_round|apply charac_round']; auto. Qed.
Print Assumptions C51_inverse.
(** They diagonalise the Jacobian of the flux: in characteristic variables the
    linearised flux multiplies by the wave speeds un - c, un + c, un. *)
Theorem C51_jacobian : forall (b3 : bool) gamma dir (q d : hs R) c v, In dir (dirs b3) -> hD q <> 0 -> c <> 0 -> gamma <> 1 ->
  c * c = gamma * cons_pressure gamma q / hD q -> (b3 = false -> hW q = 0 /\ hW d = 0) -> (0 <= v < 5)%Z ->
  is_derive (fun t => comp (cons_flux gamma dir (shift_state q d t)) v) 0
    (comp (charac_to_cons b3 gamma dir (wave_speeds (normal_momentum dir q / hD q) c (cons_to_charac b3 gamma dir d q c)) q c) v).
Proof. intros. apply jacobian; auto. Qed.
Print Assumptions C51_jacobian.

(** ** Boundary conditions (C66) *)
(** [ghosts] (SdmRunSpec): each ghost cell takes the values of its image, with the
    points mirrored and the normal momentum negated behind a reflecting wall; no
    other array changes, and neither does an interior cell. *)
Theorem C66_sdm_ghosts : forall {T} {A : Arith T} b3 (P : points T) g arr s s', sdm_ok b3 P g ->
  run_kernels (boundaries b3 P g arr) s s' ->
  (forall c q v, In c (cells b3 g) -> In q (dofs b3 P) -> In v (vars b3) ->
     at_point b3 P s' arr c q v = ghosts P g b3 (fun c q v => at_point b3 P s arr c q v) c q v) /\
  interior_values b3 P g (fun c q v => at_point b3 P s' arr c q v = at_point b3 P s arr c q v) /\
  (forall l, la l <> arr -> s' l = s l).
Proof.
  intros T A b3 P g arr s s' Hok K. set (j := fun _ _ : cell => HS zero zero zero zero zero : hs T).
  destruct (boundaries_spec b3 P g j Hok arr s s' K) as [H1 H2]. split; [exact H1|split; [|exact H2]].
  intros c q v Hc Hq Hv.
  assert (Hi : inside b3 g c = true /\ In c (cells b3 g)).
  { assert (X : In c (interior b3 g)) by exact Hc. clear -X Hok. split.
    - apply (inside_iff b3 g). intros a Ha. destruct c as [[x y] z]. unfold interior, rbox, cell in X. rewrite !in_prod_iff, !In_zrange in X.
      apply dirs_cases in Ha. destruct Ha as [->|[->|[-> Hb]]]; [tauto|tauto|]. rewrite Hb, In_zrange in X. tauto.
    - apply In_cellsD. destruct c as [[x y] z]. unfold interior, rbox, cell in X. rewrite !in_prod_iff, !In_zrange in X. destruct Hok as (_ & Hw & _).
      split.
      + intros a Ha. rewrite sizeA_N. apply dirs_cases in Ha. destruct Ha as [->|[->|[-> Hb]]]; [change (coord (x, y, z) IX) with x; lia|change (coord (x, y, z) IY) with y; lia|]. rewrite Hb, In_zrange in X. change (coord (x, y, z) IZ) with z. lia.
      + intros Hb. rewrite Hb in X. destruct X as [_ [X|[]]]. symmetry. exact X. }
  destruct Hi as [Hi Hc']. unfold at_point. pose proof (H1 c q v Hc' Hq Hv) as E. unfold sv in E. rewrite E.
  rewrite (ghosts_inside b3 P g j); auto.
Qed.
Print Assumptions C66_sdm_ghosts.

(** ** The time step (C67) *)
(** The stored state is the conservative form of the primitive state [w]. *)
Definition holds_primitive (b3 : bool) (P : points R) p g (s : store R) (a : Z) (w : cell -> cell -> hs R) : Prop :=
  forall c q, In c (interior b3 g) -> In q (dofs b3 P) ->
    admissible p (w c q) /\ (b3 = false -> planar (w c q)) /\
    / 10000000 * hD (w c q) < hP (w c q) /\ (b3 = false -> / 100000000 <= hD (w c q)) /\
    forall v, In v (vars b3) -> at_point b3 P s a c q v = comp (conservative (gamma0 p) (w c q)) v.
(** Signal rate on the grid of points: sum over the directions of (c + |u|) / (dx/N). *)
Definition signal_rate_sdm (b3 : bool) (P : points R) p (w : hs R) : R :=
  let c := sound_speed (gamma0 p) w in
  let n := IZR (npts P) in
  (c + Rabs (hU w)) / (dx p / n) + (c + Rabs (hV w)) / (dy p / n) + (if b3 then (c + Rabs (hW w)) / (dz p / n) else 0).

Lemma prim_held (b3 : bool) (P : points R) p g s a w : sdm_ok b3 P g -> params_ok p -> (if b3 then riemann_ok3 p else riemann_ok2 p) ->
  holds_primitive b3 P p g s a w -> forall c q, In c (cells b3 g) -> inside b3 g c = true -> In q (dofs b3 P) ->
  convert_to_primitive b3 (gamma0 p) (load_point b3 P s a c q) = w c q /\ 0 < s (sloc b3 P a c q ID).
Proof.
  intros Hok Hp Hr H c q Hc Hi Hq. assert (Hc' : In c (interior b3 g)) by (apply (interior_iff b3 P g (fun _ _ => zs) Hok); auto).
  destruct (H c q Hc' Hq) as (H1 & H2 & H3 & H4 & H5).
  assert (E : load_point b3 P s a c q = conservative (gamma0 p) (w c q)).
  { rewrite <- (st_k b3 P p g Hok Hr (w c q) H2 (conj H3 H4)). unfold load_point.
    rewrite (map_ext_in _ (comp (conservative (gamma0 p) (w c q)))) by exact H5. unfold vars, nbv, of_list, stV. destruct b3; reflexivity. }
  split.
  - rewrite E. apply (prim_k b3 P p g Hok Hp Hr (w c q) H1 H2 (conj H3 H4)).
  - pose proof (H5 ID) as E0. unfold at_point in E0. rewrite E0 by (apply In_vars; unfold nbv, ID; destruct b3; lia). unfold comp, conservative. cbn.
    destruct H1, Hp as (_ & ? & _). lra.
Qed.
(** Where every speed of sound is at least one, the step obeys the CFL condition.
    Missing: the case of smaller speeds of sound, where it fails (next theorem). *)
Theorem C67_sdm_cfl_partial : forall (b3 : bool) (P : points R) p g tiny pow3 ti s a dt w,
  sdm_ok b3 P g -> params_ok p -> (if b3 then riemann_ok3 p else riemann_ok2 p) ->
  0 < dx p /\ 0 < dy p /\ 0 < dz p -> 0 < tiny -> 0 < cfl p ->
  holds_primitive b3 P p g s a w ->
  (forall c q, In c (interior b3 g) -> In q (dofs b3 P) -> 1 <= sound_speed (gamma0 p) (w c q)) ->
  compute_dt_sdm b3 P p g tiny pow3 false ti s a dt ->
  0 < dt /\ forall c q, In c (interior b3 g) -> In q (dofs b3 P) -> dt * signal_rate_sdm b3 P p (w c q) <= cfl p.
Proof.
  intros b3 P p g tiny pow3 ti s a dt w Hok Hp Hr Hdx Ht Hcfl Hw H1 (r & Hred & ->).
  pose proof (prim_held b3 P p g s a w Hok Hp Hr Hw) as Pr. pose proof Hp as (Hg & _).
  cbn [rescale_sdm andb div RArith].
  destruct (dt_bounds b3 P p g tiny s a r Hred) as (B1 & _ & _).
  split; [apply Rdiv_lt_0_compat; lra|]. intros c q Hc Hq. apply (interior_iff b3 P g (fun _ _ => zs) Hok) in Hc. destruct Hc as [Hi Hc].
  destruct (Pr c q Hc Hi Hq) as [E _]. rewrite <- E.
  apply (cfl_holds b3 P p g tiny Hok Hdx Hg s a) with (r := r); auto.
  - intros c0 q0 X1 X2 X3. apply Pr; auto.
  - intros c0 q0 X1 X2 X3. destruct (Pr c0 q0 X1 X2 X3) as [E0 _]. rewrite E0. apply H1; auto. apply (interior_iff b3 P g (fun _ _ => zs) Hok); auto.
Qed.
Print Assumptions C67_sdm_cfl_partial.
(** Where every speed of sound is below one, the step violates the CFL condition at
    some point: the code uses c*c for c. *)
Theorem C67_sdm_cfl_refuted : forall (b3 : bool) (P : points R) p g tiny pow3 ti s a dt w,
  sdm_ok b3 P g -> params_ok p -> (if b3 then riemann_ok3 p else riemann_ok2 p) ->
  0 < dx p /\ 0 < dy p /\ 0 < dz p -> 0 < tiny -> 0 < cfl p ->
  holds_primitive b3 P p g s a w ->
  (forall c q, In c (interior b3 g) -> In q (dofs b3 P) -> sound_speed (gamma0 p) (w c q) < 1) ->
  (exists c q, In c (interior b3 g) /\ In q (dofs b3 P) /\ tiny < signal_rate_sdm b3 P p (w c q)) ->
  compute_dt_sdm b3 P p g tiny pow3 false ti s a dt ->
  exists c q, In c (interior b3 g) /\ In q (dofs b3 P) /\ cfl p < dt * signal_rate_sdm b3 P p (w c q).
Proof.
  intros b3 P p g tiny pow3 ti s a dt w Hok Hp Hr Hdx Ht Hcfl Hw H1 (c1 & q1 & Hc1 & Hq1 & H2) (r & Hred & ->).
  pose proof (prim_held b3 P p g s a w Hok Hp Hr Hw) as Pr. pose proof Hp as (Hg & _).
  cbn [rescale_sdm andb div RArith].
  pose proof (interior_iff b3 P g (fun _ _ => zs) Hok) as II.
  destruct (cfl_fails b3 P p g tiny Hok Hdx Hg s a) with (r := r) as (c & q & Hc & Hi & Hq & E); auto.
  - intros c0 q0 X1 X2 X3. apply Pr; auto.
  - intros c0 q0 X1 X2 X3. destruct (Pr c0 q0 X1 X2 X3) as [E0 _]. rewrite E0. apply H1; auto. apply II; auto.
  - apply II in Hc1. destruct Hc1 as [X2 X1]. exists c1, q1. destruct (Pr c1 q1 X1 X2 Hq1) as [E0 _]. rewrite E0. auto.
  - exists c, q. destruct (Pr c q Hc Hi Hq) as [E0 _]. rewrite E0 in E. repeat split; auto. apply II; auto.
Qed.
Print Assumptions C67_sdm_cfl_refuted.
(** The optional rescaling of the step: no larger when the step is at most one, larger
    when it exceeds one (N > 2). *)
Definition pow_sdm (N : Z) (x : R) : R := Rpower x ((IZR N + 1) / 3).
Theorem C67_sdm_rescale : forall (P : points R) rescale ti dt, 0 < dt <= 1 ->
  0 < rescale_sdm P (pow_sdm (npts P)) rescale ti dt <= dt.
Proof.
  intros P rs ti dt H. unfold rescale_sdm. assert (D : 0 < dt <= dt) by lra.
  destruct (rs && _)%bool eqn:E; [|destruct ti; cbn [andb]; auto]. apply andb_true_iff in E. destruct E as [_ E]. apply Z.leb_le in E. apply IZR_le in E.
  assert (G : 0 < pow_sdm (npts P) dt <= dt); [|destruct ti; cbn [andb]; auto].
  unfold pow_sdm. split; [apply exp_pos|]. rewrite <- (Rpower_1 dt) at 2 by lra. unfold Rpower. rewrite Rmult_1_l.
  assert (L : ln dt <= 0).
  { rewrite <- ln_1. destruct (Req_dec dt 1) as [->|X]; [lra|]. left. apply ln_increasing; lra. }
  assert (G : (IZR (npts P) + 1) / 3 * ln dt <= ln dt) by nra.
  destruct G as [G|G]; [left; apply exp_increasing; auto|rewrite G; right; reflexivity].
Qed.
Print Assumptions C67_sdm_rescale.
Theorem C67_sdm_rescale_refuted : forall (P : points R) ti dt, (2 < npts P)%Z -> ti = RK3 \/ ti = RK54 -> 1 < dt ->
  dt < rescale_sdm P (pow_sdm (npts P)) true ti dt.
Proof.
  intros P ti dt HN Hti H. unfold rescale_sdm. rewrite (proj2 (Z.leb_le _ _)) by lia. apply IZR_lt in HN.
  assert (G : dt < pow_sdm (npts P) dt).
  { unfold pow_sdm. rewrite <- (Rpower_1 dt) at 1 by lra. apply Rpower_lt; lra. }
  destruct Hti as [->| ->]; exact G.
Qed.
Print Assumptions C67_sdm_rescale_refuted.

(** ** Schedules and memory (C68, C69) *)
(** Two runs from stores that agree on the interior, whatever the schedules and the
    contents of ghost cells, scratch arrays and stages, agree on the interior. *)
Theorem C68_sdm_deterministic : forall {T} {A : Arith T} b3 (P : points T) p g dt junk ti a s t s' t',
  sdm_ok b3 P g -> sdm_state a -> (ti <> FE -> a = aU) ->
  interior_values b3 P g (fun c q v => at_point b3 P s a c q v = at_point b3 P t a c q v) ->
  run_kernels (time_integration b3 P p g dt junk ti a) s s' ->
  run_kernels (time_integration b3 P p g dt junk ti a) t t' ->
  interior_values b3 P g (fun c q v => at_point b3 P s' a c q v = at_point b3 P t' a c q v).
Proof.
  intros T A b3 P p g dt junk ti a s t s' t' Hok Ha Hti H K1 K2 c q v Hc Hq Hv.
  assert (II : forall c, In c (interior b3 g) <-> inside b3 g c = true /\ In c (cells b3 g)).
  { assert (Hok' : sdm_ok b3 (Points (npts P) (fun _ => 0) (fun _ => 0)) g) by exact Hok.
    apply (interior_iff b3 _ g (fun _ _ => zs) Hok'). }
  assert (E : agreeI b3 P g (sv b3 P s a) (sv b3 P t a)).
  { intros c0 q0 v0 X1 X2 X3 X4. apply H; auto. apply II; auto. }
  apply II in Hc. apply (sdm_det b3 P p g dt junk ti Hok a s t s' t' Ha Hti E K1 K2); tauto.
Qed.
Print Assumptions C68_sdm_deterministic.
Theorem C69_sdm_memory_safe : forall {T} {A : Arith T} b3 (P : points T) p g dt junk ti s, sdm_ok b3 P g ->
  loops_safe (allocatedS b3 (npts P) g ti) (time_integration b3 P p g dt junk ti aU) s.
Proof. intros T A b3 P p g dt junk ti s Hok. apply sdm_safe; auto. Qed.
Print Assumptions C69_sdm_memory_safe.

(** ** Uniform flow (C70) *)
Theorem C70_sdm_uniform : forall (b3 : bool) (P : points R) p g dt junk w ti a s s',
  sdm_ok b3 P g -> points_ok P -> params_ok p -> (if b3 then riemann_ok3 p else riemann_ok2 p) ->
  admissible p w -> (b3 = false -> planar w) -> / 10000000 * hD w < hP w -> (b3 = false -> / 100000000 <= hD w) ->
  (forall d hi, In d (dirs b3) -> bc_of g d hi = BC_DIRICHLET -> comp w (ivel d) = 0) ->
  ti <> RK54 -> sdm_state a -> (ti <> FE -> a = aU) ->
  interior_values b3 P g (fun c q v => at_point b3 P s a c q v = comp (conservative (gamma0 p) w) v) ->
  run_kernels (time_integration b3 P p g dt junk ti a) s s' ->
  interior_values b3 P g (fun c q v => at_point b3 P s' a c q v = comp (conservative (gamma0 p) w) v).
Proof.
  intros b3 P p g dt junk w ti a s s' Hok HP Hp Hr Hw Hpl F1 F2 Hbc Hti Ha Hau H K c q v Hc Hq Hv.
  pose proof (interior_iff b3 P g junk Hok) as II. apply II in Hc.
  assert (Hwl : walls_ok b3 p g w).
  { intros d hi Hd E. specialize (Hbc d hi Hd E). apply dirs_cases in Hd. destruct Hd as [->|[->|[-> _]]]; cbn in *; rewrite Hbc; ring. }
  assert (E : agreeI b3 P g (sv b3 P s a) (fun _ _ v => comp (conservative (gamma0 p) w) v)).
  { intros c0 q0 v0 X1 X2 X3 X4. apply H; auto. apply II; auto. }
  apply (uniform_sdm b3 P p g dt junk Hok HP Hp Hr w Hw Hpl (conj F1 F2) Hwl ti a s s' Hti Ha Hau E K c q v); tauto.
Qed.
Print Assumptions C70_sdm_uniform.
(** With SSP-RK54 every variable of a uniform flow is multiplied by 1 + 10^-15. *)
Theorem C70_sdm_uniform_rk54_refuted : forall (b3 : bool) (P : points R) p g dt junk w s s',
  sdm_ok b3 P g -> points_ok P -> params_ok p -> (if b3 then riemann_ok3 p else riemann_ok2 p) ->
  admissible p w -> (b3 = false -> planar w) -> / 10000000 * hD w < hP w -> (b3 = false -> / 100000000 <= hD w) ->
  (forall d hi, In d (dirs b3) -> bc_of g d hi = BC_DIRICHLET -> comp w (ivel d) = 0) ->
  interior_values b3 P g (fun c q v => at_point b3 P s aU c q v = comp (conservative (gamma0 p) w) v) ->
  run_kernels (time_integration b3 P p g dt junk RK54 aU) s s' ->
  interior_values b3 P g (fun c q v => at_point b3 P s' aU c q v = (1 + 1 / 1000000000000000) * comp (conservative (gamma0 p) w) v /\
     (v = ID -> at_point b3 P s' aU c q v <> comp (conservative (gamma0 p) w) v)).
Proof.
  intros b3 P p g dt junk w s s' Hok HP Hp Hr Hw Hpl F1 F2 Hbc H K c q v Hc Hq Hv.
  pose proof (interior_iff b3 P g junk Hok) as II. apply II in Hc.
  assert (Hwl : walls_ok b3 p g w).
  { intros d hi Hd E. specialize (Hbc d hi Hd E). apply dirs_cases in Hd. destruct Hd as [->|[->|[-> _]]]; cbn in *; rewrite Hbc; ring. }
  assert (E : agreeI b3 P g (sv b3 P s aU) (fun _ _ v => comp (conservative (gamma0 p) w) v)).
  { intros c0 q0 v0 X1 X2 X3 X4. apply H; auto. apply II; auto. }
  pose proof (uniform_rk54 b3 P p g dt junk Hok HP Hp Hr w Hw Hpl (conj F1 F2) Hwl s s' E K c q v ltac:(tauto) ltac:(tauto) Hq Hv) as G.
  unfold sv in G. unfold at_point. split; [exact G|]. intros ->. rewrite G.
  destruct (w_pos p Hp w Hw) as [Hd _]. unfold comp, conservative. cbn. lra.
Qed.
Print Assumptions C70_sdm_uniform_rk54_refuted.

(** ** The hypotheses are met *)
Definition ex_g : grid := Grid 4 3 2 1 5 (fun _ => 3%Z).
Example ex_points : points_ok (sdm_points 3) /\ ends_ok (sdm_points 3) /\ (1 <= npts (sdm_points 3))%Z.
Proof. destruct (C41_points 3 ltac:(lia)) as (H1 & H2 & _). split; [auto|split; [auto|change (npts (sdm_points 3)) with 3%Z; lia]]. Qed.
Example ex_sdm : forall b3 (p : hparams R) dt junk ti s, sdm_ok b3 (sdm_points 3) ex_g /\ periodic_sdm b3 ex_g /\
  exists s', run_kernels (time_integration b3 (sdm_points 3) p ex_g dt junk ti aU) s s'.
Proof.
  intros. split; [unfold sdm_ok; cbn; lia|]. split; [intros a hi _; unfold bc_of; reflexivity|]. eexists. apply run_kernels_seq.
Qed.
(** A polynomial of degree 2 is interpolated exactly with three points. *)
Example ex_interp : forall j, sol2flux (sdm_points 3) (fun i => peval [1; 2; 3] (solp (sdm_points 3) i)) j = peval [1; 2; 3] (flxp (sdm_points 3) j).
Proof. intros j. apply C41_sol2flux; [cbn; lia|apply ex_points|cbn; lia]. Qed.
Definition ex_p : hparams R := HParams R (14 / 10) 6 (1 / 1000000) (1 / 1000000) (1 / 1000000) (1 / 1000000) 1 (1 / 2) (1 / 10) (1 / 10) (1 / 10) RIEMANN_HLLC.
Definition ex_w : hs R := HS 1 1 (1 / 2) (1 / 3) 0.
Example ex_flow : params_ok ex_p /\ riemann_ok3 ex_p /\ riemann_ok2 ex_p /\ admissible ex_p ex_w /\ planar ex_w /\
  / 10000000 * hD ex_w < hP ex_w /\ / 100000000 <= hD ex_w.
Proof.
  unfold params_ok, riemann_ok3, riemann_ok2, admissible, planar, ex_p, ex_w. cbn.
  repeat split; try lra; auto 8.
Qed.
(** A store holding that flow everywhere, a time step of it, and a speed of sound
    above one; with pressure 1/2 the speed of sound is below one. *)
Definition ex_store (w : hs R) : store R := fun l => comp (conservative (gamma0 ex_p) w) (lv l / 27)%Z.
Example ex_speeds : 1 <= sound_speed (gamma0 ex_p) ex_w /\ sound_speed (gamma0 ex_p) (HS 1 (1 / 2) 0 0 0) < 1.
Proof.
  unfold sound_speed, ex_p, ex_w. cbn. split.
  - assert (H : sqrt 1 <= sqrt (14 / 10 * 1 / 1)) by (apply sqrt_le_1_alt; lra). rewrite sqrt_1 in H. exact H.
  - assert (H : sqrt (14 / 10 * (1 / 2) / 1) < sqrt 1) by (apply sqrt_lt_1_alt; lra). rewrite sqrt_1 in H. exact H.
Qed.
Lemma fold_partial {I T} ident (step : I -> T -> T) join l : partial ident step join l (fold_right step ident l).
Proof. induction l; cbn; constructor; auto. Qed.
Example ex_holds : holds_primitive true (sdm_points 3) ex_p ex_g (ex_store ex_w) aU (fun _ _ => ex_w) /\
  holds_primitive true (sdm_points 3) ex_p ex_g (ex_store (HS 1 (1 / 2) 0 0 0)) aU (fun _ _ => HS 1 (1 / 2) 0 0 0) /\
  forall s, exists dt, compute_dt_sdm true (sdm_points 3) ex_p ex_g (/ 1000000) (fun x => x) false RK3 s aU dt.
Proof.
  assert (V : forall c q v, In q (dofs true (sdm_points 3)) -> (lv (sloc true (sdm_points 3) aU c q v) / 27 = v)%Z).
  { intros c q v Hq. apply In_dofs in Hq. destruct q as [[x y] z]. unfold sloc. rewrite lv_at_cell, DofMap_mixed.
    apply in_box_coords in Hq. change (npts (sdm_points 3)) with 3%Z in *. unfold mixed. symmetry. apply (Z.div_unique _ 27 v (x + 3 * (y + 3 * z))%Z); lia. }
  split; [|split].
  - intros c q Hc Hq. destruct ex_flow as (_ & _ & _ & H1 & H2 & H3 & H4). repeat (split; [auto|]). intros v Hv. unfold at_point, ex_store. rewrite V by auto. reflexivity.
  - intros c q Hc Hq. unfold admissible, planar. cbn [hD hP hW ex_p smallr smallp smallc gamma0]. split; [cbn; repeat split; lra|].
    split; [discriminate|]. split; [lra|]. split; [lra|]. intros v Hv. unfold at_point, ex_store. rewrite V by auto. reflexivity.
  - intros s. eexists. eexists. split; [|reflexivity]. eexists. split; [apply Permutation.Permutation_refl|]. apply fold_partial.
Qed.
