(** Vocabulary for the positivity correction of the spectral difference solver. *)
From Coq Require Import ZArith List Bool Reals.
From Coquelicot Require Import Coquelicot.
From Verif Require Import Arith Par GridModel HydroState HydroKernels MoodKernels SdmGeom SdmSpec SdmKernels SdmConsSpec EulerSpec.
Import ListNotations.
Open Scope R_scope.

(** Flux point number [n] on the line [q] along [dir]. *)
Definition flux_point (b3 : bool) (P : points R) (dir : Z) (q : cell) (n : Z) : Prop :=
  In dir (dirs b3) /\ In q (lines b3 P dir) /\ (0 <= n <= npts P)%Z.
(** Value there of the polynomial through the values [U] at the solution points of
    the line. *)
Definition value_at (P : points R) (U : cell -> Z -> R) (dir : Z) (q : cell) (n v : Z) : R :=
  lsum (fun i => U (setc dir i q) v * lagrange (npts P) (solp P) i (flxp P n)) (zrange 0 (npts P)).
(** Conservative state with given components. *)
Definition state_of (b3 : bool) (f : Z -> R) : hs R :=
  HS (f ID) (f IP) (f IU) (f IV) (if b3 then f IW else 0).
(** Stored cell averages. *)
Definition stored_average (a : Z) (s : store R) (c : cell) (v : Z) : R := s (at_cell a c v).
