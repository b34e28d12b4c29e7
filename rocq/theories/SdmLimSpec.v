(** Vocabulary for the slope limiter of the spectral difference solver. *)
From Coq Require Import ZArith List Bool Reals.
From Coquelicot Require Import Coquelicot.
From Verif Require Import Arith Par GridModel HydroState HydroKernels MoodKernels SdmGeom SdmSpec SdmKernels SdmConsSpec.
Import ListNotations.
Open Scope R_scope.

(** [r] is the slope [a] limited by the differences [b] and [c] to the two
    neighbours: slopes below the threshold [M] are kept, others are replaced by the
    smallest of the three if all have the same sign, and by zero if not. *)
Definition tvb_limited (M a b c r : R) : Prop :=
  (Rabs a < M -> r = a) /\
  (M <= Rabs a ->
     (0 < a /\ 0 < b /\ 0 < c -> r = Rmin a (Rmin b c)) /\
     (a < 0 /\ b < 0 /\ c < 0 -> r = Rmax a (Rmax b c)) /\
     (~ (0 < a /\ 0 < b /\ 0 < c) -> ~ (a < 0 /\ b < 0 /\ c < 0) -> r = 0)).
(** The values [U] of a cell are those of the function with value [m] at the centre
    and slope [k a] along direction [a]; the width of the cell is one. *)
Definition affine_cell (b3 : bool) (P : points R) (m : Z -> R) (k : Z -> Z -> R) (U : cell -> Z -> R) : Prop :=
  forall q v, In q (dofs b3 P) -> In v (vars b3) ->
    U q v = m v + lsum (fun a => (solp P (coord q a) - / 2) * k a v) (dirs b3).
(** The cell is not one of the outermost of the array. *)
Definition not_outermost (b3 : bool) (g : grid) (c : cell) : Prop :=
  forall a, In a (dirs b3) -> (0 < coord c a < sizeN g a + 2 * gw g - 1)%Z.
