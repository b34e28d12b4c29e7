(** The Euler equations in conservative variables. *)
From Coq Require Import ZArith List Bool Reals.
From Verif Require Import Arith GridModel HydroState HydroKernels MoodKernels.
Import ListNotations.
Open Scope R_scope.

(** Pressure of the conservative state [q] = (rho, E, rho u, rho v, rho w). *)
Definition cons_pressure (gamma : R) (q : hs R) : R :=
  (gamma - 1) * (hP q - (hU q * hU q + hV q * hV q + hW q * hW q) / (2 * hD q)).
(** Momentum in direction [dir]. *)
Definition normal_momentum (dir : Z) (q : hs R) : R :=
  if (dir =? IX)%Z then hU q else if (dir =? IY)%Z then hV q else hW q.
(** Flux in direction [dir]. *)
Definition cons_flux (gamma : R) (dir : Z) (q : hs R) : hs R :=
  let p := cons_pressure gamma q in
  let m := normal_momentum dir q in
  let un := m / hD q in
  HS m (un * (hP q + p))
     (un * hU q + if (dir =? IX)%Z then p else 0)
     (un * hV q + if (dir =? IY)%Z then p else 0)
     (un * hW q + if (dir =? IZ)%Z then p else 0).
(** [q + t d]. *)
Definition shift_state (q d : hs R) (t : R) : hs R :=
  HS (hD q + t * hD d) (hP q + t * hP d) (hU q + t * hU d) (hV q + t * hV d) (hW q + t * hW d).
(** Characteristic variables multiplied by the wave speeds: un - c, un + c, and un
    for the others. *)
Definition wave_speeds (un c : R) (w : hs R) : hs R :=
  HS ((un - c) * hD w) ((un + c) * hP w) (un * hU w) (un * hV w) (un * hW w).
