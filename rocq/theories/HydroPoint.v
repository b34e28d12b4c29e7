(** Cell-local functions of the MUSCL hydrodynamics solver:
    src/muscl/HydroBaseFunctor2D.h, src/muscl/HydroBaseFunctor3D.h.

    Simplification used throughout: the code mixes [real_t] with double
    literals ([0.5 * dt], [1.0 + 2.0 * k]); the model computes everything in
    the one type [T]. *)
From Coq Require Import ZArith Bool.
From Verif Require Import Arith GridModel HydroState.
Open Scope arith_scope.

Section Point.
Context {T : Type} {A : Arith T}.
Variable p : hparams T.

(** computePrimitives: HydroBaseFunctor2D.h:79-105; returns the sound speed
    and the primitive state. *)
Definition computePrimitives2 (u : hs T) : T * hs T :=
  let d := maxv (hD u) (smallr p) in
  let ux := hU u / d in
  let uy := hV u / d in
  let eken := half * (ux * ux + uy * uy) in
  let e := hP u / d - eken in
  let pr := maxv ((gamma0 p - one) * d * e) (d * smallp p) in
  let c := sqr (gamma0 p * pr / d) in
  (c, HS d pr ux uy zero).

(** computePrimitives: HydroBaseFunctor3D.h:79-107. *)
Definition computePrimitives3 (u : hs T) : T * hs T :=
  let d := maxv (hD u) (smallr p) in
  let ux := hU u / d in
  let uy := hV u / d in
  let uz := hW u / d in
  let eken := half * (ux * ux + uy * uy + uz * uz) in
  let e := hP u / d - eken in
  let pr := maxv ((gamma0 p - one) * d * e) (d * smallp p) in
  let c := sqr (gamma0 p * pr / d) in
  (c, HS d pr ux uy uz).

(** One direction of slope_unsplit_hydro_2d_scalar (HydroBaseFunctor2D.h:436-444,
    447-455) and slope_unsplit_hydro_3d_scalar (HydroBaseFunctor3D.h:429-437,
    440-448, 451-459). *)
Definition slope1 (q qPlus qMinus : T) : T :=
  let dlft := slope_type p * (q - qMinus) in
  let drgt := slope_type p * (qPlus - q) in
  let dcen := half * (qPlus - qMinus) in
  let dsgn := if zero <=? dcen then one else - one in
  let slop := minv (absv dlft) (absv drgt) in
  let dlim := if dlft * drgt <=? zero then zero else slop in
  dsgn * minv dlim (absv dcen).

(** The same for all variables of a state. *)
Definition slope_dir2 (q qPlus qMinus : hs T) : hs T :=
  HS (slope1 (hD q) (hD qPlus) (hD qMinus)) (slope1 (hP q) (hP qPlus) (hP qMinus))
     (slope1 (hU q) (hU qPlus) (hU qMinus)) (slope1 (hV q) (hV qPlus) (hV qMinus)) zero.
Definition slope_dir3 (q qPlus qMinus : hs T) : hs T :=
  HS (slope1 (hD q) (hD qPlus) (hD qMinus)) (slope1 (hP q) (hP qPlus) (hP qMinus))
     (slope1 (hU q) (hU qPlus) (hU qMinus)) (slope1 (hV q) (hV qPlus) (hV qMinus))
     (slope1 (hW q) (hW qPlus) (hW qMinus)).

Definition zero_state : hs T := HS zero zero zero zero zero.

(** slope_unsplit_hydro_2d, HydroBaseFunctor2D.h:475-518.  [jx], [jy]: contents
    of the output arguments before the call. *)
Definition slope_unsplit_hydro_2d (q qPX qMX qPY qMY jx jy : hs T) : hs T * hs T :=
  if slope_type p =? zero then (zero_state, zero_state)
  else if (slope_type p =? one) || (slope_type p =? two)
  then (slope_dir2 q qPX qMX, slope_dir2 q qPY qMY)
  else (jx, jy).

(** slope_unsplit_hydro_3d, HydroBaseFunctor3D.h:482-578. *)
Definition slope_unsplit_hydro_3d (q qPX qMX qPY qMY qPZ qMZ jx jy jz : hs T)
  : hs T * hs T * hs T :=
  if slope_type p =? zero then (zero_state, zero_state, zero_state)
  else if (slope_type p =? one) || (slope_type p =? two)
  then (slope_dir3 q qPX qMX, slope_dir3 q qPY qMY, slope_dir3 q qPZ qMZ)
  else (jx, jy, jz).

(** trace_unsplit_2d_along_dir, HydroBaseFunctor2D.h:216-293.  The z faces are
    never requested in 2D; the model returns the input state for them. *)
Definition trace_unsplit_2d_along_dir (q dqX dqY : hs T) (dtdx dtdy : T) (f : face) : hs T :=
  let r := hD q in let pr := hP q in let u := hU q in let v := hV q in
  let drx := hD dqX in let dpx := hP dqX in let dux := hU dqX in let dvx := hV dqX in
  let dry := hD dqY in let dpy := hP dqY in let duy := hU dqY in let dvy := hV dqY in
  let sr0 := - u * drx - v * dry - (dux + dvy) * r in
  let sp0 := - u * dpx - v * dpy - (dux + dvy) * gamma0 p * pr in
  let su0 := - u * dux - v * duy - dpx / r in
  let sv0 := - u * dvx - v * dvy - dpy / r in
  match f with
  | FACE_XMIN =>
      HS (maxv (smallr p) (r - half * drx + sr0 * dtdx * half))
         (pr - half * dpx + sp0 * dtdx * half)
         (u - half * dux + su0 * dtdx * half)
         (v - half * dvx + sv0 * dtdx * half) zero
  | FACE_XMAX =>
      HS (maxv (smallr p) (r + half * drx + sr0 * dtdx * half))
         (pr + half * dpx + sp0 * dtdx * half)
         (u + half * dux + su0 * dtdx * half)
         (v + half * dvx + sv0 * dtdx * half) zero
  | FACE_YMIN =>
      HS (maxv (smallr p) (r - half * dry + sr0 * dtdy * half))
         (pr - half * dpy + sp0 * dtdy * half)
         (u - half * duy + su0 * dtdy * half)
         (v - half * dvy + sv0 * dtdy * half) zero
  | FACE_YMAX =>
      HS (maxv (smallr p) (r + half * dry + sr0 * dtdy * half))
         (pr + half * dpy + sp0 * dtdy * half)
         (u + half * duy + su0 * dtdy * half)
         (v + half * dvy + sv0 * dtdy * half) zero
  | _ => q
  end.

(** trace_unsplit_3d_along_dir, HydroBaseFunctor3D.h:274-389. *)
Definition trace_unsplit_3d_along_dir (q dqX dqY dqZ : hs T) (dtdx dtdy dtdz : T) (f : face)
  : hs T :=
  let r := hD q in let pr := hP q in let u := hU q in let v := hV q in let w := hW q in
  let drx := hD dqX in let dpx := hP dqX in
  let dux := hU dqX in let dvx := hV dqX in let dwx := hW dqX in
  let dry := hD dqY in let dpy := hP dqY in
  let duy := hU dqY in let dvy := hV dqY in let dwy := hW dqY in
  let drz := hD dqZ in let dpz := hP dqZ in
  let duz := hU dqZ in let dvz := hV dqZ in let dwz := hW dqZ in
  let sr0 := - u * drx - v * dry - w * drz - (dux + dvy + dwz) * r in
  let sp0 := - u * dpx - v * dpy - w * dpz - (dux + dvy + dwz) * gamma0 p * pr in
  let su0 := - u * dux - v * duy - w * duz - dpx / r in
  let sv0 := - u * dvx - v * dvy - w * dvz - dpy / r in
  let sw0 := - u * dwx - v * dwy - w * dwz - dpz / r in
  match f with
  | FACE_XMIN =>
      HS (maxv (smallr p) (r - half * drx + sr0 * dtdx * half))
         (pr - half * dpx + sp0 * dtdx * half)
         (u - half * dux + su0 * dtdx * half)
         (v - half * dvx + sv0 * dtdx * half)
         (w - half * dwx + sw0 * dtdx * half)
  | FACE_XMAX =>
      HS (maxv (smallr p) (r + half * drx + sr0 * dtdx * half))
         (pr + half * dpx + sp0 * dtdx * half)
         (u + half * dux + su0 * dtdx * half)
         (v + half * dvx + sv0 * dtdx * half)
         (w + half * dwx + sw0 * dtdx * half)
  | FACE_YMIN =>
      HS (maxv (smallr p) (r - half * dry + sr0 * dtdy * half))
         (pr - half * dpy + sp0 * dtdy * half)
         (u - half * duy + su0 * dtdy * half)
         (v - half * dvy + sv0 * dtdy * half)
         (w - half * dwy + sw0 * dtdy * half)
  | FACE_YMAX =>
      HS (maxv (smallr p) (r + half * dry + sr0 * dtdy * half))
         (pr + half * dpy + sp0 * dtdy * half)
         (u + half * duy + su0 * dtdy * half)
         (v + half * dvy + sv0 * dtdy * half)
         (w + half * dwy + sw0 * dtdy * half)
  | FACE_ZMIN =>
      HS (maxv (smallr p) (r - half * drz + sr0 * dtdz * half))
         (pr - half * dpz + sp0 * dtdz * half)
         (u - half * duz + su0 * dtdz * half)
         (v - half * dvz + sv0 * dtdz * half)
         (w - half * dwz + sw0 * dtdz * half)
  | FACE_ZMAX =>
      HS (maxv (smallr p) (r + half * drz + sr0 * dtdz * half))
         (pr + half * dpz + sp0 * dtdz * half)
         (u + half * duz + su0 * dtdz * half)
         (v + half * dvz + sv0 * dtdz * half)
         (w + half * dwz + sw0 * dtdz * half)
  end.

(** swapValues(&q[IU], &q[IV]) and (&q[IU], &q[IW]),
    HydroBaseFunctor2D.h:34-44 at its call sites. *)
Definition swapUV (q : hs T) : hs T := HS (hD q) (hP q) (hV q) (hU q) (hW q).
Definition swapUW (q : hs T) : hs T := HS (hD q) (hP q) (hW q) (hV q) (hU q).

(** flux[v] * c for every variable (e.g. HydroRunFunctors2D.h:669-672). *)
Definition scale (q : hs T) (c : T) : hs T :=
  HS (hD q * c) (hP q * c) (hU q * c) (hV q * c) (hW q * c).

(** Contribution of one cell in ComputeDtFunctor2D (HydroRunFunctors2D.h:57-73)
    and ComputeDtFunctor3D (HydroRunFunctors3D.h:61-79). *)
Definition invdt_cell2 (u : hs T) : T :=
  let '(c, q) := computePrimitives2 u in
  (c + absv (hU q)) / dx p + (c + absv (hV q)) / dy p.
Definition invdt_cell3 (u : hs T) : T :=
  let '(c, q) := computePrimitives3 u in
  (c + absv (hU q)) / dx p + (c + absv (hV q)) / dy p + (c + absv (hW q)) / dz p.

(** ComputeDtGravityFunctor2D (HydroRunFunctors2D.h:130-168) and 3D
    (HydroRunFunctors3D.h:139-182); (gx, gy, gz) is the gravity vector of the
    cell. *)
Definition gravity_corrected (velocity gsum d : T) : T :=
  let k := gsum * (cfl p * d / (velocity * velocity)) in
  let k := maxv k (lit 1 10000) in
  velocity * (k / (sqr (one + two * k) - one)) / d.
Definition invdt_cell_gravity2 (u : hs T) (gx gy : T) : T :=
  let d := minv (dx p) (dy p) in
  let '(c, q) := computePrimitives2 u in
  let velocity := zero + (c + absv (hU q)) in
  let velocity := velocity + (c + absv (hV q)) in
  gravity_corrected velocity (absv gx + absv gy) d.
Definition invdt_cell_gravity3 (u : hs T) (gx gy gz : T) : T :=
  let d := minv (minv (dx p) (dy p)) (dz p) in
  let '(c, q) := computePrimitives3 u in
  let velocity := zero + (c + absv (hU q)) in
  let velocity := velocity + (c + absv (hV q)) in
  let velocity := velocity + (c + absv (hW q)) in
  gravity_corrected velocity (absv gx + absv gy + absv gz) d.

(** Gravity source term of one cell, GravitySourceTermFunctor2D
    (HydroRunFunctors2D.h:1310-1329) and 3D (HydroRunFunctors3D.h:1476-1499).
    The 2D version floors the new density, the 3D version does not. *)
Definition gravity_source2 (dt rhoOld : T) (u : hs T) (gx gy : T) : hs T :=
  let rhoNew := maxv (smallr p) (hD u) in
  let rhou := hU u in let rhov := hV u in
  let ekin_old := half * (rhou * rhou + rhov * rhov) / rhoNew in
  let rhou := rhou + half * dt * gx * (rhoOld + rhoNew) in
  let rhov := rhov + half * dt * gy * (rhoOld + rhoNew) in
  let ekin_new := half * (rhou * rhou + rhov * rhov) / rhoNew in
  HS (hD u) (hP u + (ekin_new - ekin_old)) rhou rhov zero.
Definition gravity_source3 (dt rhoOld : T) (u : hs T) (gx gy gz : T) : hs T :=
  let rhoNew := hD u in
  let rhou := hU u in let rhov := hV u in let rhow := hW u in
  let ekin_old := half * (rhou * rhou + rhov * rhov + rhow * rhow) / rhoNew in
  let rhou := rhou + half * dt * gx * (rhoOld + rhoNew) in
  let rhov := rhov + half * dt * gy * (rhoOld + rhoNew) in
  let rhow := rhow + half * dt * gz * (rhoOld + rhoNew) in
  let ekin_new := half * (rhou * rhou + rhov * rhov + rhow * rhow) / rhoNew in
  HS (hD u) (hP u + (ekin_new - ekin_old)) rhou rhov rhow.
End Point.
