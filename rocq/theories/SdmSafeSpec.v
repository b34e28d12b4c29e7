(** The memory of the spectral difference solver. *)
From Coq Require Import ZArith List Bool.
From Verif Require Import Arith Par GridModel HydroState HydroKernels MoodKernels SdmGeom SdmKernels.
Import ListNotations.
Open Scope Z_scope.

(** The arrays allocated by the constructor, SolverHydroSDM.h:455-562: U, Uaux and
    the Runge-Kutta stages used by the integrator hold [nbvar] values per solution
    point of the cell, Fluxes [nbvar] values per flux point of one direction. *)
Definition allocatedS (b3 : bool) (N : Z) (g : grid) (ti : integrator) (l : loc) : Prop :=
  let nb := if b3 then 5 else 4 in
  0 <= li l < isize g /\ 0 <= lj l < jsize g /\ (if b3 then 0 <= lk l < ksize g else lk l = 0) /\
  ((la l = aSF /\ 0 <= lv l < (if b3 then (N + 1) * N * N else (N + 1) * N) * nb) \/
   (0 <= lv l < (if b3 then N * N * N else N * N) * nb /\
    (la l = aU \/ la l = aFdiv \/ (la l = aK 1 /\ ti <> FE) \/ (la l = aK 2 /\ (ti = RK3 \/ ti = RK54)) \/
     (In (la l) [aK 3; aK 4] /\ ti = RK54)))).
