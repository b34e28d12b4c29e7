(** C09, C10, C11: the single-process boundary fill. *)
From Coq Require Import ZArith List Lia QArith Permutation.
From Verif Require Import Arith Par ParProofs GridModel BoundaryModel BoundarySpec BoundaryProofs.
Import ListNotations.
Open Scope Z_scope.

(** C09.  Every complete execution (any interleaving) of the 2D boundary fill
    leaves each cell of the array with the prescribed value (in particular
    interior cells unchanged) and changes nothing else. *)
Theorem C09_boundary_fill_2d : forall (T : Type) (A : Arith T) mhd g a (s s' : store T),
  grid_ok2d g ->
  run_kernels (make_boundaries_serial2d mhd g a) s s' ->
  (forall i j v, 0 <= i < nx g + 2 * gw g -> 0 <= j < ny g + 2 * gw g -> 0 <= v < nbvar g ->
     s' (Loc a i j 0 v) = filled2d mhd g (fun i j v => s (Loc a i j 0 v)) i j v) /\
  (forall l, ~ alloc2d g a l -> s' l = s l).
Proof. exact @fill2_spec. Qed.
Print Assumptions C09_boundary_fill_2d.

Theorem C09_boundary_fill_3d : forall (T : Type) (A : Arith T) mhd g a (s s' : store T),
  grid_ok3d g ->
  run_kernels (make_boundaries_serial3d mhd g a) s s' ->
  (forall i j k v, 0 <= i < nx g + 2 * gw g -> 0 <= j < ny g + 2 * gw g ->
                   0 <= k < nz g + 2 * gw g -> 0 <= v < nbvar g ->
     s' (Loc a i j k v) = filled3d mhd g (fun i j k v => s (Loc a i j k v)) i j k v) /\
  (forall l, ~ alloc3d g a l -> s' l = s l).
Proof. exact @fill3_spec. Qed.
Print Assumptions C09_boundary_fill_3d.

Theorem C09_interior_unchanged_2d : forall (T : Type) (A : Arith T) mhd g (u : Z -> Z -> Z -> T) i j v,
  gw g <= i < gw g + nx g -> gw g <= j < gw g + ny g -> filled2d mhd g u i j v = u i j v.
Proof. exact @filled2d_interior. Qed.
Print Assumptions C09_interior_unchanged_2d.

Theorem C09_interior_unchanged_3d : forall (T : Type) (A : Arith T) mhd g (u : Z -> Z -> Z -> Z -> T) i j k v,
  gw g <= i < gw g + nx g -> gw g <= j < gw g + ny g -> gw g <= k < gw g + nz g ->
  filled3d mhd g u i j k v = u i j k v.
Proof. exact @filled3d_interior. Qed.
Print Assumptions C09_interior_unchanged_3d.

(** The source of every ghost value is an interior cell. *)
Theorem C09_image_is_interior : forall lo hi n w p,
  0 < w <= n -> - w <= p < n + w -> 0 <= image lo hi n p < n.
Proof. exact image_interior. Qed.
Print Assumptions C09_image_is_interior.

(** C10: memory safety, for every size (even smaller than the ghost width). *)
Theorem C10_boundary_in_bounds_2d : forall (T : Type) (A : Arith T) mhd g a ps p,
  0 < gw g -> 0 <= nx g -> 0 <= ny g ->
  In ps (make_boundaries_serial2d mhd g a) -> In p ps -> accesses_in (T:=T) (alloc2d g a) p.
Proof. exact @fill2_safe. Qed.
Print Assumptions C10_boundary_in_bounds_2d.

Theorem C10_boundary_in_bounds_3d : forall (T : Type) (A : Arith T) mhd g a ps p,
  0 < gw g -> 0 <= nx g -> 0 <= ny g -> 0 <= nz g ->
  In ps (make_boundaries_serial3d mhd g a) -> In p ps -> accesses_in (T:=T) (alloc3d g a) p.
Proof. exact @fill3_safe. Qed.
Print Assumptions C10_boundary_in_bounds_3d.

(** C10: any two interleavings give the same memory.  [no_race_f g f]: the
    direction has at least ghost-width cells, or face [f] is not periodic. *)
Theorem C10_boundary_schedule_independent_2d : forall (T : Type) (A : Arith T) mhd g a (s s1 s2 : store T),
  0 < gw g -> 0 <= nx g -> 0 <= ny g ->
  (forall f, In f [FACE_XMIN; FACE_XMAX; FACE_YMIN; FACE_YMAX] -> no_race_f g f) ->
  run_kernels (make_boundaries_serial2d mhd g a) s s1 ->
  run_kernels (make_boundaries_serial2d mhd g a) s s2 -> forall l, s1 l = s2 l.
Proof. exact @fill2_det. Qed.
Print Assumptions C10_boundary_schedule_independent_2d.

Theorem C10_boundary_schedule_independent_3d : forall (T : Type) (A : Arith T) mhd g a (s s1 s2 : store T),
  0 < gw g -> 0 <= nx g -> 0 <= ny g -> 0 <= nz g ->
  (forall f, no_race_f g f) ->
  run_kernels (make_boundaries_serial3d mhd g a) s s1 ->
  run_kernels (make_boundaries_serial3d mhd g a) s s2 -> forall l, s1 l = s2 l.
Proof. exact @fill3_det. Qed.
Print Assumptions C10_boundary_schedule_independent_3d.

(** C11: filling twice is filling once. *)
Theorem C11_boundary_idempotent_2d : forall (T : Type) (A : Arith T) mhd g a (s s1 s2 : store T),
  grid_ok2d g ->
  run_kernels (make_boundaries_serial2d mhd g a) s s1 ->
  run_kernels (make_boundaries_serial2d mhd g a) s1 s2 -> forall l, s2 l = s1 l.
Proof. exact @fill2_idem. Qed.
Print Assumptions C11_boundary_idempotent_2d.

Theorem C11_boundary_idempotent_3d : forall (T : Type) (A : Arith T) mhd g a (s s1 s2 : store T),
  grid_ok3d g ->
  run_kernels (make_boundaries_serial3d mhd g a) s s1 ->
  run_kernels (make_boundaries_serial3d mhd g a) s1 s2 -> forall l, s2 l = s1 l.
Proof. exact @fill3_idem. Qed.
Print Assumptions C11_boundary_idempotent_3d.

(** ** Concrete instances *)
Definition demo_grid : grid :=
  Grid 3 4 2 2 8 (fun f => match f with FACE_XMIN => 1 | FACE_XMAX => 2 | FACE_YMIN => 3 | FACE_YMAX => 3
                           | FACE_ZMIN => 2 | FACE_ZMAX => 1 end).
Definition demo_store : store Q := fun l => inject_Z (1000 * la l + 100 * li l + 10 * lj l + lk l + lv l).

Example C09_nonvacuous : grid_ok2d demo_grid /\ grid_ok3d demo_grid /\
  (exists s', run_kernels (make_boundaries_serial2d true demo_grid 0) demo_store s').
Proof.
  split; [unfold grid_ok2d; cbn; lia|]. split; [unfold grid_ok3d, grid_ok2d; cbn; lia|].
  eexists. apply run_kernels_seq.
Qed.

(** A reflecting corner value: cell (0, 1), variable IU, is minus the value of
    cell (3, 5). *)
Example C09_corner_value :
  (filled2d true demo_grid (fun i j v => demo_store (Loc 0 i j 0 v)) 0 1 2 == - demo_store (Loc 0 3 5 0 2))%Q.
Proof. reflexivity. Qed.

Example C10_nonvacuous : forall f, no_race_f demo_grid f.
Proof. intros f. destruct f; left; cbn; lia. Qed.

(** Without the size condition the fill races: 1 interior cell, ghost width 2,
    periodic.  The two sequential orders of the first loop already differ. *)
Definition thin_grid : grid := Grid 1 2 2 2 1 (fun _ => 3).

Theorem C10_schedule_independence_thin_refuted : exists (s s1 s2 : store Q) l,
  par_exec s (make_boundary2d false thin_grid 0 FACE_XMIN) s1 /\
  par_exec s (make_boundary2d false thin_grid 0 FACE_XMIN) s2 /\
  ~ (s1 l == s2 l)%Q.
Proof.
  exists demo_store.
  exists (seq_exec (make_boundary2d false thin_grid 0 FACE_XMIN) demo_store).
  exists (seq_exec (rev (make_boundary2d false thin_grid 0 FACE_XMIN)) demo_store).
  exists (Loc 0 0 0 0 0). split; [apply par_exec_seq|]. split.
  - apply par_exec_order. apply Permutation_rev.
  - intros H. vm_compute in H. discriminate.
Qed.
Print Assumptions C10_schedule_independence_thin_refuted.
