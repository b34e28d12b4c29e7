(** Vocabulary of the theorems about the spectral difference solver. *)
From Coq Require Import ZArith List Bool Reals.
From Verif Require Import Arith Par GridModel BoundarySpec HydroState HydroKernels MoodKernels SdmGeom SdmKernels.
Import ListNotations.
Open Scope Z_scope.

(** The solver as it is configured: at least one point per direction, one layer of
    ghost cells, at least one cell per direction. *)
Definition sdm_ok {T} (b3 : bool) (P : points T) (g : grid) : Prop :=
  1 <= npts P /\ gw g = 1 /\ 1 <= nx g /\ 1 <= ny g /\ (b3 = true -> 1 <= nz g).

Section Fill.
Context {T : Type} {A : Arith T}.
Variable P : points T.
Variable g : grid.
(** Boundary conditions at the two ends of direction [a], for a field given per
    cell, point of the cell and variable.  A ghost cell takes the values of the
    cell it is the image of; behind a reflecting wall the points are mirrored too
    and the normal momentum changes sign. *)
Definition ghost_along (a : Z) (V : cell -> cell -> Z -> T) (c q : cell) (v : Z) : T :=
  let n := sizeN g a in
  let r := coord c a - gw g in
  let lo := kind_of_code (bc_of g a false) in
  let hi := kind_of_code (bc_of g a true) in
  let c' := setc a (gw g + image lo hi n r) c in
  if is_ghost n r then
    if reflected lo hi n r
    then mul (V c' (setc a (npts P - 1 - coord q a) q) v) (if v =? ivel a then opp one else one)
    else V c' q v
  else V c q v.
(** All directions: x, then y, then z. *)
Definition ghosts (b3 : bool) (V : cell -> cell -> Z -> T) : cell -> cell -> Z -> T :=
  fold_left (fun W a => ghost_along a W) (dirs b3) V.
End Fill.

(** Arrays of states: U and the Runge-Kutta stages. *)
Definition sdm_state (a : Z) : Prop := In a [aU; aK 1; aK 2; aK 3; aK 4].
