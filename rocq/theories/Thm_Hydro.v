(** Theorems about one time step of the MUSCL hydrodynamics solver
    (properties C20-C24, C29).  [godunov2]/[godunov3] are the sequences of
    parallel loops of SolverHydroMuscl::godunov_unsplit_impl; [run_kernels]
    allows every interleaving of the iterations of each loop. *)
From Coq Require Import ZArith List Bool Reals QArith Lia Lra.
From Verif Require Import Arith Par ParProofs GridModel BoundaryModel BoundarySpec
  HydroState RiemannModel HydroPoint HydroKernels HydroField HydroSpec HydroStep2 HydroStep3 HydroSafe2 HydroSafe3
  HydroSums HydroConserve HydroFluxes HydroVersions HydroUniform.
Import ListNotations.
Open Scope Z_scope.

(** ** C20: conservation (exact arithmetic) *)

(** Net balance: with the flux arrays of version 0, each total changes exactly
    by what the flux arrays hold on the sides of the domain. *)
Theorem C20_flux_balance_2d : forall (p : hparams R) g dt junk aIn aOut (s s' : store R) v,
  arr_ok aIn aOut -> hydro_grid2 g -> slope_ok p -> riemann_ok2 p -> 0 <= v < 4 ->
  run_kernels (godunov2 p g dt false junk 0 aIn aOut) s s' ->
  (total2 g s' aOut v = total2 g s aIn v
    + sumZ (gw g) (gw g + ny g) (fun j => s' (Loc aFx (gw g) j 0 v) - s' (Loc aFx (gw g + nx g) j 0 v))
    + sumZ (gw g) (gw g + nx g) (fun i => s' (Loc aFy i (gw g) 0 v) - s' (Loc aFy i (gw g + ny g) 0 v)))%R.
Proof. exact flux_balance2. Qed.
Print Assumptions C20_flux_balance_2d.

Theorem C20_flux_balance_3d : forall (p : hparams R) g dt junk aIn aOut (s s' : store R) v,
  arr_ok aIn aOut -> hydro_grid3 g -> slope_ok p -> riemann_ok3 p -> 0 <= v < 5 ->
  run_kernels (godunov3 p g dt false junk 0 aIn aOut) s s' ->
  (total3 g s' aOut v = total3 g s aIn v
    + (sumZ (gw g) (gw g + ny g) (fun j => sumZ (gw g) (gw g + nz g) (fun k =>
         s' (Loc aFx (gw g) j k v) - s' (Loc aFx (gw g + nx g) j k v)))
    + sumZ (gw g) (gw g + nx g) (fun i => sumZ (gw g) (gw g + nz g) (fun k =>
         s' (Loc aFy i (gw g) k v) - s' (Loc aFy i (gw g + ny g) k v)))
    + sumZ (gw g) (gw g + nx g) (fun i => sumZ (gw g) (gw g + ny g) (fun j =>
         s' (Loc aFz i j (gw g) v) - s' (Loc aFz i j (gw g + nz g) v)))))%R.
Proof. exact flux_balance3. Qed.
Print Assumptions C20_flux_balance_3d.

Theorem C20_conservation_periodic_2d : forall (p : hparams R) g dt junk impl aIn aOut (s s' : store R) v,
  impl = 0 \/ impl = 1 -> arr_ok aIn aOut -> hydro_grid2 g -> all_periodic g -> slope_ok p -> riemann_ok2 p ->
  0 <= v < 4 ->
  run_kernels (godunov2 p g dt false junk impl aIn aOut) s s' ->
  total2 g s' aOut v = total2 g s aIn v.
Proof. exact conserve2. Qed.
Print Assumptions C20_conservation_periodic_2d.

Theorem C20_conservation_periodic_3d : forall (p : hparams R) g dt junk impl aIn aOut (s s' : store R) v,
  impl = 0 \/ impl = 1 -> arr_ok aIn aOut -> hydro_grid3 g -> all_periodic g -> slope_ok p -> riemann_ok3 p ->
  0 <= v < 5 ->
  run_kernels (godunov3 p g dt false junk impl aIn aOut) s s' ->
  total3 g s' aOut v = total3 g s aIn v.
Proof. exact conserve3. Qed.
Print Assumptions C20_conservation_periodic_3d.

(** ** C21: implementation versions 0 and 1 are interchangeable *)

Theorem C21_versions_agree_2d : forall (T : Type) (A : Arith T) (p : hparams T) g dt ge junk junk' impl impl' aIn aOut
  (s s1 s2 : store T),
  impl = 0 \/ impl = 1 -> impl' = 0 \/ impl' = 1 ->
  arr_ok aIn aOut -> hydro_grid2 g -> slope_ok p -> riemann_ok2 p ->
  run_kernels (godunov2 p g dt ge junk impl aIn aOut) s s1 ->
  run_kernels (godunov2 p g dt ge junk' impl' aIn aOut) s s2 ->
  forall a i j v, a = aIn \/ a = aOut -> 0 <= i < nx g + 2 * gw g -> 0 <= j < ny g + 2 * gw g -> 0 <= v < 4 ->
  s1 (Loc a i j 0 v) = s2 (Loc a i j 0 v).
Proof. exact @versions_agree2. Qed.
Print Assumptions C21_versions_agree_2d.

Theorem C21_versions_agree_3d_no_gravity : forall (T : Type) (A : Arith T) (p : hparams T) g dt junk junk' impl impl'
  aIn aOut (s s1 s2 : store T),
  impl = 0 \/ impl = 1 -> impl' = 0 \/ impl' = 1 ->
  arr_ok aIn aOut -> hydro_grid3 g -> slope_ok p -> riemann_ok3 p ->
  run_kernels (godunov3 p g dt false junk impl aIn aOut) s s1 ->
  run_kernels (godunov3 p g dt false junk' impl' aIn aOut) s s2 ->
  forall a i j k v, a = aIn \/ a = aOut -> 0 <= i < nx g + 2 * gw g -> 0 <= j < ny g + 2 * gw g ->
  0 <= k < nz g + 2 * gw g -> 0 <= v < 5 -> s1 (Loc a i j k v) = s2 (Loc a i j k v).
Proof. exact @versions_agree3. Qed.
Print Assumptions C21_versions_agree_3d_no_gravity.

(** A rational test set-up: gamma = 2, so that the sound speeds are rational. *)
Definition demo_params : hparams Q :=
  HParams Q 2%Q (3#4)%Q (1#1000)%Q (1#1000)%Q (1#1000)%Q (1#1000)%Q 1%Q (1#2)%Q 1%Q 1%Q 1%Q RIEMANN_LLF.
Definition demo_hgrid2 : grid := Grid 4 4 1 2 4 (fun _ => 3).
Definition demo_hgrid3 : grid := Grid 4 4 4 2 5 (fun _ => 3).
Definition demo_junk : Z * Z * Z -> Z -> hs Q := fun _ _ => HS 7%Q 7%Q 7%Q 7%Q 7%Q.
(** Density 1, pressure 2, at rest; gravity along z only in the plane k = 4. *)
Definition demo_state3 : store Q := fun l =>
  if la l =? aG then (if (lk l =? 4) && (lv l =? 2) then 1%Q else 0%Q)
  else if lv l =? 0 then 1%Q else if lv l =? 1 then 2%Q else 0%Q.
(** Density 1 for i < 4 and 4 beyond, pressure 2, velocity (1, 0). *)
Definition demo_state2 : store Q := fun l =>
  let d := if li l <? 4 then 1%Q else 4%Q in
  if lv l =? 0 then d else if lv l =? 1 then (2 + (1#2) * d)%Q else if lv l =? 2 then d else 0%Q.
Definition demo_state5 : store Q := fun l =>
  let d := if li l <? 4 then 1%Q else 4%Q in
  if lv l =? 0 then d else if lv l =? 1 then (2 + (1#2) * d)%Q else if lv l =? 2 then d else 0%Q.

Lemma demo_ok : slope_ok demo_params /\ riemann_ok2 demo_params /\ riemann_ok3 demo_params /\
  hydro_grid2 demo_hgrid2 /\ hydro_grid3 demo_hgrid3 /\ arr_ok aU aU2 /\
  all_periodic demo_hgrid2 /\ all_periodic demo_hgrid3.
Proof.
  split; [right; left; reflexivity|]. split; [cbn; auto|]. split; [cbn; auto|].
  split; [unfold hydro_grid2; cbn; lia|]. split; [unfold hydro_grid3; cbn; lia|].
  split; [left; split; reflexivity|]. split; intros f; reflexivity.
Qed.

Ltac bounds := solve [vm_compute; intuition congruence].

(** In 3D with gravity the two versions differ. *)
Theorem C21_versions_agree_3d_gravity_refuted : exists (p : hparams Q) g dt junk (s s0 s1 : store Q) l,
  hydro_grid3 g /\ slope_ok p /\ riemann_ok3 p /\
  run_kernels (godunov3 p g dt true junk 0 aU aU2) s s0 /\
  run_kernels (godunov3 p g dt true junk 1 aU aU2) s s1 /\
  la l = aU2 /\ inside3 g (li l) (lj l) (lk l) /\ ~ (s0 l == s1 l)%Q.
Proof.
  destruct demo_ok as (H1 & H2 & H3 & H4 & H5 & H6 & _).
  exists demo_params, demo_hgrid3, (1#4)%Q, demo_junk, demo_state3.
  assert (E0 := run_kernels_seq (godunov3 demo_params demo_hgrid3 (1#4)%Q true demo_junk 0 aU aU2) demo_state3).
  assert (E1 := run_kernels_seq (godunov3 demo_params demo_hgrid3 (1#4)%Q true demo_junk 1 aU aU2) demo_state3).
  eexists. eexists. exists (Loc aU2 4 4 4 0).
  do 3 (split; [assumption|]). split; [exact E0|]. split; [exact E1|].
  split; [reflexivity|]. split; [unfold inside3; cbn; lia|].
  destruct (after3_spec demo_params demo_hgrid3 (1#4)%Q true demo_junk 0 aU aU2 _ _ (or_introl eq_refl) H6 H5 H1 H3 E0 4 4 4 0)
    as [-> _]; [bounds..|].
  destruct (after3_spec demo_params demo_hgrid3 (1#4)%Q true demo_junk 1 aU aU2 _ _ (or_intror eq_refl) H6 H5 H1 H3 E1 4 4 4 0)
    as [-> _]; [bounds..|].
  vm_compute. discriminate.
Qed.
Print Assumptions C21_versions_agree_3d_gravity_refuted.

(** ** C22: version 2 is accepted but does not advance the hydro solution *)

Theorem C22_version2_freezes_2d : forall (T : Type) (A : Arith T) (p : hparams T) g dt ge junk aIn aOut (s s' : store T),
  arr_ok aIn aOut -> hydro_grid2 g ->
  run_kernels (godunov2 p g dt ge junk 2 aIn aOut) s s' ->
  forall i j v, inside2 g i j -> 0 <= v < 4 -> s' (Loc aOut i j 0 v) = s (Loc aIn i j 0 v).
Proof. exact @version2_copies2. Qed.
Print Assumptions C22_version2_freezes_2d.

Theorem C22_version2_freezes_3d : forall (T : Type) (A : Arith T) (p : hparams T) g dt ge junk aIn aOut (s s' : store T),
  arr_ok aIn aOut -> hydro_grid3 g ->
  run_kernels (godunov3 p g dt ge junk 2 aIn aOut) s s' ->
  forall i j k v, inside3 g i j k -> 0 <= v < 5 -> s' (Loc aOut i j k v) = s (Loc aIn i j k v).
Proof. exact @version2_copies3. Qed.
Print Assumptions C22_version2_freezes_3d.

(** There are data on which versions 0 and 1 change a cell and version 2 does not. *)
Theorem C22_every_version_advances_2d_refuted : exists (p : hparams Q) g dt junk (s : store Q) l,
  hydro_grid2 g /\ slope_ok p /\ riemann_ok2 p /\ la l = aU2 /\ inside2 g (li l) (lj l) /\
  (forall impl s', impl = 0 \/ impl = 1 -> run_kernels (godunov2 p g dt false junk impl aU aU2) s s' ->
     ~ (s' l == s (Loc aU (li l) (lj l) (lk l) (lv l)))%Q) /\
  (forall s', run_kernels (godunov2 p g dt false junk 2 aU aU2) s s' ->
     s' l = s (Loc aU (li l) (lj l) (lk l) (lv l))).
Proof.
  destruct demo_ok as (H1 & H2 & H3 & H4 & H5 & H6 & _).
  exists demo_params, demo_hgrid2, (1#4)%Q, demo_junk, demo_state2, (Loc aU2 4 4 0 0).
  do 3 (split; [assumption|]). split; [reflexivity|]. split; [unfold inside2; cbn; lia|]. split.
  - intros impl s' Hi E.
    destruct (after2_spec demo_params demo_hgrid2 (1#4)%Q false demo_junk impl aU aU2 _ _ Hi H6 H4 H1 H2 E 4 4 0)
      as [-> _]; [bounds..|].
    vm_compute. discriminate.
  - intros s' E. apply (version2_copies2 demo_params demo_hgrid2 (1#4)%Q false demo_junk aU aU2 demo_state2 s' H6 H4 E 4 4 0);
      [unfold inside2; cbn; lia|lia].
Qed.
Print Assumptions C22_every_version_advances_2d_refuted.

Theorem C22_every_version_advances_3d_refuted : exists (p : hparams Q) g dt junk (s : store Q) l,
  hydro_grid3 g /\ slope_ok p /\ riemann_ok3 p /\ la l = aU2 /\ inside3 g (li l) (lj l) (lk l) /\
  (forall impl s', impl = 0 \/ impl = 1 -> run_kernels (godunov3 p g dt false junk impl aU aU2) s s' ->
     ~ (s' l == s (Loc aU (li l) (lj l) (lk l) (lv l)))%Q) /\
  (forall s', run_kernels (godunov3 p g dt false junk 2 aU aU2) s s' ->
     s' l = s (Loc aU (li l) (lj l) (lk l) (lv l))).
Proof.
  destruct demo_ok as (H1 & H2 & H3 & H4 & H5 & H6 & _).
  exists demo_params, demo_hgrid3, (1#4)%Q, demo_junk, demo_state5, (Loc aU2 4 4 4 0).
  do 3 (split; [assumption|]). split; [reflexivity|]. split; [unfold inside3; cbn; lia|]. split.
  - intros impl s' Hi E.
    destruct (after3_spec demo_params demo_hgrid3 (1#4)%Q false demo_junk impl aU aU2 _ _ Hi H6 H5 H1 H3 E 4 4 4 0)
      as [-> _]; [bounds..|].
    destruct Hi as [-> | ->]; vm_compute; discriminate.
  - intros s' E. apply (version2_copies3 demo_params demo_hgrid3 (1#4)%Q false demo_junk aU aU2 demo_state5 s' H6 H5 E 4 4 4 0);
      [unfold inside3; cbn; lia|lia].
Qed.
Print Assumptions C22_every_version_advances_3d_refuted.

(** ** C23: memory safety and schedule independence *)

Theorem C23_schedule_independent_2d : forall (T : Type) (A : Arith T) (p : hparams T) g dt ge junk impl aIn aOut
  (s s1 s2 : store T),
  impl = 0 \/ impl = 1 \/ impl = 2 -> arr_ok aIn aOut -> hydro_grid2 g ->
  run_kernels (godunov2 p g dt ge junk impl aIn aOut) s s1 ->
  run_kernels (godunov2 p g dt ge junk impl aIn aOut) s s2 -> forall l, s1 l = s2 l.
Proof. exact @godunov2_det. Qed.
Print Assumptions C23_schedule_independent_2d.

Theorem C23_schedule_independent_3d : forall (T : Type) (A : Arith T) (p : hparams T) g dt ge junk impl aIn aOut
  (s s1 s2 : store T),
  impl = 0 \/ impl = 1 \/ impl = 2 -> arr_ok aIn aOut -> hydro_grid3 g ->
  run_kernels (godunov3 p g dt ge junk impl aIn aOut) s s1 ->
  run_kernels (godunov3 p g dt ge junk impl aIn aOut) s s2 -> forall l, s1 l = s2 l.
Proof. exact @godunov3_det. Qed.
Print Assumptions C23_schedule_independent_3d.

(** Every access of every thread is to an element of an array allocated for
    that implementation version. *)
Theorem C23_memory_safe_2d : forall (T : Type) (A : Arith T) (p : hparams T) g dt ge junk impl aIn aOut ps q,
  impl = 0 \/ impl = 1 \/ impl = 2 -> arr_ok aIn aOut -> hydro_grid2 g ->
  In ps (godunov2 p g dt ge junk impl aIn aOut) -> In q ps -> accesses_in (allocated2 g impl ge) q.
Proof. exact @godunov2_safe. Qed.
Print Assumptions C23_memory_safe_2d.

Theorem C23_memory_safe_3d : forall (T : Type) (A : Arith T) (p : hparams T) g dt ge junk impl aIn aOut ps q,
  impl = 0 \/ impl = 1 \/ impl = 2 -> arr_ok aIn aOut -> hydro_grid3 g ->
  In ps (godunov3 p g dt ge junk impl aIn aOut) -> In q ps -> accesses_in (allocated3 g impl ge) q.
Proof. exact @godunov3_safe. Qed.
Print Assumptions C23_memory_safe_3d.

(** With supported settings nothing uninitialised reaches the solution.  (In
    2D this is C21_versions_agree_2d with impl = impl'.) *)
Theorem C23_no_uninitialised_3d : forall (T : Type) (A : Arith T) (p : hparams T) g dt ge junk junk' impl aIn aOut
  (s s1 s2 : store T),
  impl = 0 \/ impl = 1 ->
  arr_ok aIn aOut -> hydro_grid3 g -> slope_ok p -> riemann_ok3 p ->
  run_kernels (godunov3 p g dt ge junk impl aIn aOut) s s1 ->
  run_kernels (godunov3 p g dt ge junk' impl aIn aOut) s s2 ->
  forall a i j k v, a = aIn \/ a = aOut -> 0 <= i < nx g + 2 * gw g -> 0 <= j < ny g + 2 * gw g ->
  0 <= k < nz g + 2 * gw g -> 0 <= v < 5 -> s1 (Loc a i j k v) = s2 (Loc a i j k v).
Proof. exact @junk_irrelevant3. Qed.
Print Assumptions C23_no_uninitialised_3d.

(** ** C24: a uniform flow stays uniform (exact arithmetic) *)

Theorem C24_uniform_flow_2d : forall (p : hparams R) g dt junk impl aIn aOut (s s' : store R) (c : Z -> R),
  impl = 0 \/ impl = 1 -> arr_ok aIn aOut -> hydro_grid2 g -> slope_ok p -> riemann_ok2 p ->
  (forall f, In f [FACE_XMIN; FACE_XMAX; FACE_YMIN; FACE_YMAX] -> kind_of_code (bc g f) <> Reflecting) ->
  (forall i j v, inside2 g i j -> 0 <= v < 4 -> s (Loc aIn i j 0 v) = c v) ->
  run_kernels (godunov2 p g dt false junk impl aIn aOut) s s' ->
  forall a i j v, a = aIn \/ a = aOut -> 0 <= i < nx g + 2 * gw g -> 0 <= j < ny g + 2 * gw g -> 0 <= v < 4 ->
  s' (Loc a i j 0 v) = c v.
Proof. exact uniform2. Qed.
Print Assumptions C24_uniform_flow_2d.

Theorem C24_uniform_flow_3d : forall (p : hparams R) g dt junk impl aIn aOut (s s' : store R) (c : Z -> R),
  impl = 0 \/ impl = 1 -> arr_ok aIn aOut -> hydro_grid3 g -> slope_ok p -> riemann_ok3 p ->
  (forall f, kind_of_code (bc g f) <> Reflecting) ->
  (forall i j k v, inside3 g i j k -> 0 <= v < 5 -> s (Loc aIn i j k v) = c v) ->
  run_kernels (godunov3 p g dt false junk impl aIn aOut) s s' ->
  forall a i j k v, a = aIn \/ a = aOut -> 0 <= i < nx g + 2 * gw g -> 0 <= j < ny g + 2 * gw g ->
  0 <= k < nz g + 2 * gw g -> 0 <= v < 5 -> s' (Loc a i j k v) = c v.
Proof. exact uniform3. Qed.
Print Assumptions C24_uniform_flow_3d.

(** ** C29: stencil locality, for any arithmetic *)

(** The new value of an interior cell is determined by the (ghost-filled)
    values of the cells at distance at most 2, and the gravity field at
    distance at most 1. *)
Theorem C29_locality_2d : forall (T : Type) (A : Arith T) (p : hparams T) g dt ge junk junk' impl impl' aIn aOut
  (s t s' t' : store T) i j,
  impl = 0 \/ impl = 1 -> impl' = 0 \/ impl' = 1 ->
  arr_ok aIn aOut -> hydro_grid2 g -> slope_ok p -> riemann_ok2 p ->
  run_kernels (godunov2 p g dt ge junk impl aIn aOut) s s' ->
  run_kernels (godunov2 p g dt ge junk' impl' aIn aOut) t t' ->
  inside2 g i j ->
  (forall i' j' v, Z.abs (i' - i) + Z.abs (j' - j) <= 2 -> 0 <= v < 4 ->
     filled2d false g (fun i j v => s (Loc aIn i j 0 v)) i' j' v
     = filled2d false g (fun i j v => t (Loc aIn i j 0 v)) i' j' v) ->
  (forall i' j' d, ge = true -> Z.abs (i' - i) + Z.abs (j' - j) <= 1 -> s (Loc aG i' j' 0 d) = t (Loc aG i' j' 0 d)) ->
  forall v, 0 <= v < 4 -> s' (Loc aOut i j 0 v) = t' (Loc aOut i j 0 v).
Proof. exact @local2. Qed.
Print Assumptions C29_locality_2d.

Theorem C29_locality_3d : forall (T : Type) (A : Arith T) (p : hparams T) g dt ge junk junk' impl aIn aOut
  (s t s' t' : store T) i j k,
  impl = 0 \/ impl = 1 ->
  arr_ok aIn aOut -> hydro_grid3 g -> slope_ok p -> riemann_ok3 p ->
  run_kernels (godunov3 p g dt ge junk impl aIn aOut) s s' ->
  run_kernels (godunov3 p g dt ge junk' impl aIn aOut) t t' ->
  inside3 g i j k ->
  (forall i' j' k' v, Z.abs (i' - i) + Z.abs (j' - j) + Z.abs (k' - k) <= 2 -> 0 <= v < 5 ->
     filled3d false g (fun i j k v => s (Loc aIn i j k v)) i' j' k' v
     = filled3d false g (fun i j k v => t (Loc aIn i j k v)) i' j' k' v) ->
  (forall i' j' k' d, ge = true -> Z.abs (i' - i) + Z.abs (j' - j) + Z.abs (k' - k) <= 1 ->
     s (Loc aG i' j' k' d) = t (Loc aG i' j' k' d)) ->
  forall v, 0 <= v < 5 -> s' (Loc aOut i j k v) = t' (Loc aOut i j k v).
Proof. exact @local3. Qed.
Print Assumptions C29_locality_3d.

(** Stated with the stored data only: cells whose whole stencil is interior. *)
Theorem C29_locality_interior_2d : forall (T : Type) (A : Arith T) (p : hparams T) g dt ge junk junk' impl impl' aIn aOut
  (s t s' t' : store T) i j,
  impl = 0 \/ impl = 1 -> impl' = 0 \/ impl' = 1 ->
  arr_ok aIn aOut -> hydro_grid2 g -> slope_ok p -> riemann_ok2 p ->
  run_kernels (godunov2 p g dt ge junk impl aIn aOut) s s' ->
  run_kernels (godunov2 p g dt ge junk' impl' aIn aOut) t t' ->
  (forall i' j', Z.abs (i' - i) + Z.abs (j' - j) <= 2 -> inside2 g i' j') ->
  (forall i' j' v, Z.abs (i' - i) + Z.abs (j' - j) <= 2 -> 0 <= v < 4 -> s (Loc aIn i' j' 0 v) = t (Loc aIn i' j' 0 v)) ->
  (forall i' j' d, ge = true -> Z.abs (i' - i) + Z.abs (j' - j) <= 1 -> s (Loc aG i' j' 0 d) = t (Loc aG i' j' 0 d)) ->
  forall v, 0 <= v < 4 -> s' (Loc aOut i j 0 v) = t' (Loc aOut i j 0 v).
Proof. exact @local2_interior. Qed.
Print Assumptions C29_locality_interior_2d.

Theorem C29_locality_interior_3d : forall (T : Type) (A : Arith T) (p : hparams T) g dt ge junk junk' impl aIn aOut
  (s t s' t' : store T) i j k,
  impl = 0 \/ impl = 1 ->
  arr_ok aIn aOut -> hydro_grid3 g -> slope_ok p -> riemann_ok3 p ->
  run_kernels (godunov3 p g dt ge junk impl aIn aOut) s s' ->
  run_kernels (godunov3 p g dt ge junk' impl aIn aOut) t t' ->
  (forall i' j' k', Z.abs (i' - i) + Z.abs (j' - j) + Z.abs (k' - k) <= 2 -> inside3 g i' j' k') ->
  (forall i' j' k' v, Z.abs (i' - i) + Z.abs (j' - j) + Z.abs (k' - k) <= 2 -> 0 <= v < 5 ->
     s (Loc aIn i' j' k' v) = t (Loc aIn i' j' k' v)) ->
  (forall i' j' k' d, ge = true -> Z.abs (i' - i) + Z.abs (j' - j) + Z.abs (k' - k) <= 1 ->
     s (Loc aG i' j' k' d) = t (Loc aG i' j' k' d)) ->
  forall v, 0 <= v < 5 -> s' (Loc aOut i j k v) = t' (Loc aOut i j k v).
Proof. exact @local3_interior. Qed.
Print Assumptions C29_locality_interior_3d.

(** ** Non-vacuity *)
Definition demo_paramsR : hparams R :=
  HParams R 1.4%R (2.4/2.8)%R 0.01%R 0.01%R 0.01%R 0.0001%R 1%R 0.5%R 0.1%R 0.2%R 0.3%R RIEMANN_HLLC.
Definition demo_open2 : grid := Grid 5 7 1 2 4 (fun f => match f with FACE_XMIN => 2 | FACE_XMAX => 2 | _ => 3 end).

Example C20_hypotheses_hold : forall junk s,
  slope_ok demo_paramsR /\ riemann_ok2 demo_paramsR /\ riemann_ok3 demo_paramsR /\
  (exists s', run_kernels (godunov2 demo_paramsR demo_hgrid2 0.01%R false junk 1 aU aU2) s s') /\
  (exists s', run_kernels (godunov3 demo_paramsR demo_hgrid3 0.01%R false junk 0 aU2 aU) s s').
Proof.
  intros junk s. split.
  { right. left. cbn. destruct (Req_EM_T 1 1); congruence. }
  split; [cbn; auto|]. split; [cbn; auto|].
  split; eexists; apply run_kernels_seq.
Qed.

Example C24_hypotheses_hold :
  hydro_grid2 demo_open2 /\ forall f, kind_of_code (bc demo_open2 f) <> Reflecting.
Proof. split; [unfold hydro_grid2; cbn; lia|]. intros f. destruct f; cbn; discriminate. Qed.

(** A grid on which some cell has its whole stencil inside. *)
Example C29_hypotheses_hold : forall i' j', Z.abs (i' - 4) + Z.abs (j' - 4) <= 2 -> inside2 (Grid 5 5 1 2 4 (fun _ => 1)) i' j'.
Proof. intros i' j' H. unfold inside2. cbn. lia. Qed.
