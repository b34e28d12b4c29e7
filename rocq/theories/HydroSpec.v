(** Vocabulary for the statements about the hydrodynamics step. *)
From Coq Require Import ZArith List Bool Reals.
From Verif Require Import Arith Par GridModel BoundarySpec HydroState HydroKernels.
Import ListNotations.
Open Scope Z_scope.

(** Memory the solver constructor allocates (src/muscl/SolverHydroMuscl.h:203-293):
    U, U2, Q always; the flux and slope arrays according to the implementation
    version; the gravity field if gravity is enabled. *)
Definition state_array (d3 : bool) (impl : Z) (a : Z) : Prop :=
  a = aU \/ a = aU2 \/ a = aQ \/
  (impl = 0 /\ (a = aFx \/ a = aFy \/ (d3 = true /\ a = aFz))) \/
  (impl = 1 /\ (a = aFx \/ a = aSx \/ a = aSy \/ (d3 = true /\ a = aSz))).
Definition in_box2 (g : grid) (l : loc) : Prop :=
  0 <= li l < nx g + 2 * gw g /\ 0 <= lj l < ny g + 2 * gw g /\ lk l = 0.
Definition in_box3 (g : grid) (l : loc) : Prop :=
  0 <= li l < nx g + 2 * gw g /\ 0 <= lj l < ny g + 2 * gw g /\ 0 <= lk l < nz g + 2 * gw g.
Definition allocated2 (g : grid) (impl : Z) (ge : bool) (l : loc) : Prop :=
  in_box2 g l /\
  ((state_array false impl (la l) /\ 0 <= lv l < nbvar g) \/
   (ge = true /\ la l = aG /\ 0 <= lv l < 2)).
Definition allocated3 (g : grid) (impl : Z) (ge : bool) (l : loc) : Prop :=
  in_box3 g l /\
  ((state_array true impl (la l) /\ 0 <= lv l < nbvar g) \/
   (ge = true /\ la l = aG /\ 0 <= lv l < 3)).

(** Input and output arrays of a step. *)
Definition arr_ok (aIn aOut : Z) : Prop := (aIn = aU /\ aOut = aU2) \/ (aIn = aU2 /\ aOut = aU).

(** Grids of the MUSCL hydrodynamics solver (src/shared/HydroParams.cpp: ghost
    width 2, 4 variables in 2D, 5 in 3D). *)
Definition hydro_grid2 (g : grid) : Prop := gw g = 2 /\ nbvar g = 4 /\ 2 <= nx g /\ 2 <= ny g.
Definition hydro_grid3 (g : grid) : Prop :=
  gw g = 2 /\ nbvar g = 5 /\ 2 <= nx g /\ 2 <= ny g /\ 2 <= nz g.

(** Interior cells, in array indices. *)
Definition inside2 (g : grid) (i j : Z) : Prop := gw g <= i < gw g + nx g /\ gw g <= j < gw g + ny g.
Definition inside3 (g : grid) (i j k : Z) : Prop :=
  gw g <= i < gw g + nx g /\ gw g <= j < gw g + ny g /\ gw g <= k < gw g + nz g.

(** Sums over index ranges and over the interior. *)
Definition sumZ (a b : Z) (f : Z -> R) : R := fold_right Rplus 0%R (map f (zrange a b)).
Definition total2 (g : grid) (s : store R) (a v : Z) : R :=
  sumZ (gw g) (gw g + nx g) (fun i => sumZ (gw g) (gw g + ny g) (fun j => s (Loc a i j 0 v))).
Definition total3 (g : grid) (s : store R) (a v : Z) : R :=
  sumZ (gw g) (gw g + nx g) (fun i => sumZ (gw g) (gw g + ny g) (fun j =>
    sumZ (gw g) (gw g + nz g) (fun k => s (Loc a i j k v)))).

Definition all_periodic (g : grid) : Prop := forall f, bc g f = BC_PERIODIC.

(** Settings with a defined meaning. *)
Definition slope_ok {T} {A : Arith T} (p : hparams T) : Prop :=
  eqb (slope_type p) zero = true \/ eqb (slope_type p) one = true \/ eqb (slope_type p) two = true.
Definition riemann_ok2 {T} (p : hparams T) : Prop :=
  In (riemann_type p) [RIEMANN_APPROX; RIEMANN_HLL; RIEMANN_HLLC; RIEMANN_LLF].
Definition riemann_ok3 {T} (p : hparams T) : Prop :=
  In (riemann_type p) [RIEMANN_APPROX; RIEMANN_HLLC; RIEMANN_LLF].
