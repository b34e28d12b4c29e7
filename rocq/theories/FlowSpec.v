(** The Euler equations with gravity, for fields given as functions of time and position. *)
From Coq Require Import List Reals.
From Coquelicot Require Import Coquelicot.
From Verif Require Import Arith HydroState Physics.
Import ListNotations.
Local Open Scope R_scope.

(** Primitive fields. *)
Definition flow := R -> R -> R -> R -> hs R.

(** Flux along y and z: by exchanging the axes. *)
Definition swap_y (q : hs R) : hs R := HS (hD q) (hP q) (hV q) (hU q) (hW q).
Definition swap_z (q : hs R) : hs R := HS (hD q) (hP q) (hW q) (hV q) (hU q).
Definition flux_y (gam : R) (q : hs R) : hs R := swap_y (euler_flux gam (swap_y q)).
Definition flux_z (gam : R) (q : hs R) : hs R := swap_z (euler_flux gam (swap_z q)).
(** Source by the acceleration (gx,gy,gz): none for mass, the power for energy, the force for momentum. *)
Definition gravity_source (a : R * R * R) (q : hs R) : hs R :=
  let '(gx, gy, gz) := a in
  HS 0 (hD q * (gx * hU q + gy * hV q + gz * hW q)) (hD q * gx) (hD q * gy) (hD q * gz).

(** At the given time and position: d/dt conservative + d/dx flux_x + d/dy flux_y + d/dz flux_z = source,
    for mass, energy and the three momenta. *)
Definition solves (gam : R) (a : R * R * R) (w : flow) (t x y z : R) : Prop :=
  forall c : hs R -> R, In c [hD; hP; hU; hV; hW] ->
  exists dt dx dy dz,
    is_derive (fun t => c (conservative gam (w t x y z))) t dt /\
    is_derive (fun x => c (euler_flux gam (w t x y z))) x dx /\
    is_derive (fun y => c (flux_y gam (w t x y z))) y dy /\
    is_derive (fun z => c (flux_z gam (w t x y z))) z dz /\
    dt + dx + dy + dz = c (gravity_source a (w t x y z)).
Definition no_gravity : R * R * R := (0, 0, 0).
