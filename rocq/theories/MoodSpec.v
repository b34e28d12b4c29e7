(** Vocabulary of the theorems about the MOOD solver. *)
From Coq Require Import ZArith List Bool Reals.
From Verif Require Import Arith Par GridModel BoundarySpec HydroState HydroKernels HydroSpec MoodPoly MoodKernels.
Import ListNotations.
Open Scope Z_scope.

(** The solver as it is configured: at least the constant monomial, as many
    columns of the pseudo-inverse as neighbours, a grid with at least as many
    cells as ghost cells, one array component per variable, and a stencil that
    reaches at most [ghostWidth - 1] cells away. *)
Definition mood_ok {T} (m : mcfg T) (g : grid) : Prop :=
  mm m <> [] /\ mat_cols m = length (neighbours (os m)) /\
  (if d3 m then grid_ok3d g else grid_ok2d g) /\ nbvar g = (if d3 m then 5 else 4) /\
  (forall x y z, In (x, y, z) (os m) ->
     Z.abs x < gw g /\ Z.abs y < gw g /\ Z.abs z < gw g /\ (d3 m = false -> z = 0)).

(** The configuration for one of the stencils of the code. *)
Definition config {T} (s : stencil_id) (mm : list (list Z)) (P : nat -> nat -> T) : mcfg T :=
  MCfg (Nat.eqb (stencil_dim s) 3) mm (offsets s) (QUADRATURE_NUM_POINTS s) P (Z.to_nat (STENCIL_SIZE s) - 1).

(** Interior cells; the third index is 0 in 2D. *)
Definition insideD (b3 : bool) (g : grid) (i j k : Z) : Prop :=
  gw g <= i < gw g + nx g /\ gw g <= j < gw g + ny g /\
  (if b3 then gw g <= k < gw g + nz g else k = 0).

(** Arrays holding conservative states: U, U2 and the stages of the Runge-Kutta
    integrators. *)
Definition state4 (a : Z) : Prop := In a [aU; aU2; aRK1; aRK2].

(** The state of the ghost cells and interior of array [a] after the boundary fill. *)
Definition filledD {T} {A : Arith T} (b3 : bool) (g : grid) (s : store T) (a i j k v : Z) : T :=
  if b3 then filled3d false g (fun i j k v => s (Loc a i j k v)) i j k v
  else filled2d false g (fun i j v => s (Loc a i j 0 v)) i j v.
