(** Mesh geometry: cell sizes, cell centres and the positions at which the
    initial conditions are evaluated. *)
From Coq Require Import ZArith List Bool.
From Verif Require Import Arith GridModel MpiModel.
Open Scope Z_scope.

Section Geom.
Context {T : Type} {A : Arith T}.

(** HydroParams::init, src/shared/HydroParams.cpp:438-440 (single process), and
    the end of HydroParams::setup_mpi, 400-402.  [n] and [m] are C ints; their
    product is computed in int and converted.  The same for dy and dz. *)
Definition dx_serial (xmin xmax : T) (n : Z) : T := div (sub xmax xmin) (lit n 1).
Definition dx_mpi (xmin xmax : T) (n m : Z) : T := div (sub xmax xmin) (lit (n * m) 1).

(** Cell centre, as in all the initial condition functors of src/muscl
    (HydroInitFunctors2D.h:81-82, 185-186, ...; HydroInitFunctors3D.h:121-123, ...;
    MHDInitFunctors2D.h:82, ...; MHDInitFunctors3D.h:86, ...).
    [pos] is the process coordinate (params.myMpiPos, 0 without MPI), [n] the
    local size, [w] the ghost width. *)
Definition centre (xmin dx : T) (w n pos i : Z) : T :=
  add (add xmin (div dx two)) (mul (lit (i + n * pos - w) 1) dx).

(** Position of solution point [pt] (in [0,1]) of an SDM cell, as in the
    functors of src/sdm/init (InitBlastFunctor.h:97-103, InitSodFunctor.h:99-104, ...). *)
Definition sdm_position (xmin dx : T) (w n pos i : Z) (pt : T) : T :=
  add (add xmin (mul (lit (i + n * pos - w) 1) dx)) (mul pt dx).
(** The two-dimensional InitFourQuadrantFunctor (src/sdm/init/
    InitFourQuadrantFunctor.h:110-115). *)
Definition sdm_position_four_quadrant (xmin dx : T) (w n pos i : Z) (pt : T) : T :=
  add (add (add xmin (div dx two)) (mul (lit (i + n * pos - w) 1) dx)) (mul pt dx).
End Geom.

(** Specification: the box [xmin, xmax] cut into N equal cells, numbered from 0. *)
From Coq Require Import Reals.
Definition left_edge (xmin xmax : R) (N I : Z) : R := (xmin + IZR I * (xmax - xmin) / IZR N)%R.
