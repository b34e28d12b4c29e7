(** Vocabulary for the statements about the MPI build. *)
From Coq Require Import ZArith List Bool.
From Verif Require Import Arith Par GridModel HydroKernels LoopModel MpiModel.
Import ListNotations.
Open Scope Z_scope.

(** A process grid with at least one process in each direction. *)
Definition topo_ok (tp : topo) : Prop := 0 < mx tp /\ 0 < my tp /\ 0 < mz tp.

(** Position of a process in the process grid. *)
Definition rx (tp : topo) (r : nat) : Z := let '(x, y, z) := coords tp r in x.
Definition ry (tp : topo) (r : nat) : Z := let '(x, y, z) := coords tp r in y.
Definition rz (tp : topo) (r : nat) : Z := let '(x, y, z) := coords tp r in z.

(** The whole domain: the grid a single process would have to use. *)
Definition whole (tp : topo) (g : grid) : grid :=
  Grid (nx g * mx tp) (ny g * my tp) (nz g * mz tp) (gw g) (nbvar g) (bc g).

(** Boundary types that exist in the parameter file. *)
Definition known_codes (g : grid) : Prop :=
  forall f, In (bc g f) [BC_DIRICHLET; BC_NEUMANN; BC_PERIODIC; BC_COPY].

Section Spec.
Context {T : Type}.
(** Array [a] of every process holds, in its interior cells, its part of the
    field [u] on the whole domain: cell (i, j) of the process at position
    (rx, ry) is cell (rx*nx + i, ry*ny + j) of the whole. *)
Definition parts2 (tp : topo) (g : grid) (u : Z -> Z -> Z -> T) (a : Z) (mem : nat -> store T) : Prop :=
  forall r i j v, (r < nprocs tp)%nat ->
    gw g <= i < gw g + nx g -> gw g <= j < gw g + ny g -> 0 <= v < nbvar g ->
    mem r (Loc a i j 0 v) = u (rx tp r * nx g + i) (ry tp r * ny g + j) v.
Definition parts3 (tp : topo) (g : grid) (u : Z -> Z -> Z -> Z -> T) (a : Z) (mem : nat -> store T) : Prop :=
  forall r i j k v, (r < nprocs tp)%nat ->
    gw g <= i < gw g + nx g -> gw g <= j < gw g + ny g -> gw g <= k < gw g + nz g -> 0 <= v < nbvar g ->
    mem r (Loc a i j k v) = u (rx tp r * nx g + i) (ry tp r * ny g + j) (rz tp r * nz g + k) v.
End Spec.

(** The same for the gravity field, ghost cells included. *)
Section Gravity.
Context {T : Type}.
Definition gparts2 (tp : topo) (g : grid) (G : Z -> Z -> Z -> T) (mem : nat -> store T) : Prop :=
  forall r i j d, (r < nprocs tp)%nat -> 0 <= i < nx g + 2 * gw g -> 0 <= j < ny g + 2 * gw g ->
    mem r (Loc aG i j 0 d) = G (rx tp r * nx g + i) (ry tp r * ny g + j) d.
Definition gparts3 (tp : topo) (g : grid) (G : Z -> Z -> Z -> Z -> T) (mem : nat -> store T) : Prop :=
  forall r i j k d, (r < nprocs tp)%nat ->
    0 <= i < nx g + 2 * gw g -> 0 <= j < ny g + 2 * gw g -> 0 <= k < nz g + 2 * gw g ->
    mem r (Loc aG i j k d) = G (rx tp r * nx g + i) (ry tp r * ny g + j) (rz tp r * nz g + k) d.
(** The part of a field on the whole domain that belongs to process [r], in its
    own indices. *)
Definition part2 (tp : topo) (g : grid) (r : nat) (u : Z -> Z -> Z -> T) : Z -> Z -> Z -> T :=
  fun i j v => u (rx tp r * nx g + i) (ry tp r * ny g + j) v.
Definition part3 (tp : topo) (g : grid) (r : nat) (u : Z -> Z -> Z -> Z -> T) : Z -> Z -> Z -> Z -> T :=
  fun i j k v => u (rx tp r * nx g + i) (ry tp r * ny g + j) (rz tp r * nz g + k) v.
End Gravity.

(** The states of the processes are the parts of the state of a single-process
    simulation: same time, same iteration number, and the current array (and the
    gravity field, if there is one) distributed over the processes. *)
Definition distributed2 {T} (tp : topo) (g : grid) (ge : bool) (s : sim T T) (sp : nat -> pstate T) : Prop :=
  (forall r, (r < nprocs tp)%nat -> p_t (sp r) = m_t s /\ p_it (sp r) = m_iteration s) /\
  parts2 tp g (fun i j v => mem s (Loc (current (m_iteration s)) i j 0 v)) (current (m_iteration s)) (fun r => p_mem (sp r)) /\
  (ge = true -> gparts2 tp g (fun i j d => mem s (Loc aG i j 0 d)) (fun r => p_mem (sp r))).
Definition distributed3 {T} (tp : topo) (g : grid) (ge : bool) (s : sim T T) (sp : nat -> pstate T) : Prop :=
  (forall r, (r < nprocs tp)%nat -> p_t (sp r) = m_t s /\ p_it (sp r) = m_iteration s) /\
  parts3 tp g (fun i j k v => mem s (Loc (current (m_iteration s)) i j k v)) (current (m_iteration s)) (fun r => p_mem (sp r)) /\
  (ge = true -> gparts3 tp g (fun i j k d => mem s (Loc aG i j k d)) (fun r => p_mem (sp r))).

(** Rounded arithmetic: the result of an operation is not changed by a
    multiplication by 1.0. *)
Definition unit_stable {T} {A : Arith T} : Prop :=
  (forall x y : T, mul (add x y) one = add x y) /\ (forall x y : T, mul (sub x y) one = sub x y) /\
  (forall x y : T, mul (mul x y) one = mul x y).
