(** src/shared/EulerEquations.h: pressure, primitive variables, fluxes and the
    characteristic transforms of the Euler equations.  The code has one
    specialisation per dimension; here [b3] selects the 3D one and a 2D state has
    [hW = zero]. *)
From Coq Require Import ZArith List Bool.
From Verif Require Import Arith GridModel HydroState HydroKernels.
Import ListNotations.
Open Scope Z_scope.

Section Euler.
Context {T : Type} {A : Arith T}.
Local Open Scope arith_scope.
Variable b3 : bool.
Variable gamma0 : T.

(** EulerEquations.h:36, 423. *)
Definition eul_smallp : T := lit 1 10000000.
(** [0.5 * (q[IU]^2 + q[IV]^2 (+ q[IW]^2)) / rho]. *)
Definition eul_ekin (q : hs T) (rho : T) : T :=
  (half * (if b3 then hU q * hU q + hV q * hV q + hW q * hW q else hU q * hU q + hV q * hV q)) / rho.
(** compute_pressure, EulerEquations.h:94-107 (2D), 491-504 (3D). *)
Definition compute_pressure (q : hs T) : T :=
  let pressure := (gamma0 - one) * (hP q - eul_ekin q (hD q)) in
  if ltb (eul_smallp * hD q) pressure then pressure else eul_smallp * hD q.
(** compute_speed_of_sound, EulerEquations.h:117-123 (2D), 514-520 (3D). *)
Definition compute_speed_of_sound (w : hs T) : T := hP w * gamma0 / hD w.
(** convert_to_primitive, EulerEquations.h:131-150 (2D), 528-546 (3D); only the 2D
    version floors the density used for the kinetic energy. *)
Definition convert_to_primitive (q : hs T) : hs T :=
  let rho := if b3 then hD q else maxv (hD q) (lit 1 100000000) in
  let pressure := (gamma0 - one) * (hP q - eul_ekin q rho) in
  let pressure := maxv pressure (eul_smallp * rho) in
  HS (hD q) pressure (hU q / hD q) (hV q / hD q) (if b3 then hW q / hD q else zero).
(** flux_x, flux_y, flux_z, EulerEquations.h:160-184 (2D), 557-616 (3D). *)
Definition eul_flux (dir : Z) (q : hs T) (p : T) : hs T :=
  if b3 then
    if (dir =? IX)%Z then
      let u := hU q / hD q in
      HS (hU q) (u * (hP q + p)) (u * hU q + p) (u * hV q) (u * hW q)
    else if (dir =? IY)%Z then
      let v := hV q / hD q in
      HS (hV q) (v * (hP q + p)) (v * hU q) (v * hV q + p) (v * hW q)
    else
      let w := hW q / hD q in
      HS (hW q) (w * (hP q + p)) (w * hU q) (w * hV q) (w * hW q + p)
  else
    if (dir =? IX)%Z then
      HS (hU q) (hU q / hD q * (hP q + p)) (hU q * hU q / hD q + p) (hU q * hV q / hD q) zero
    else
      HS (hV q) (hV q / hD q * (hP q + p)) (hV q * hU q / hD q) (hV q * hV q / hD q + p) zero.

(** cons_to_charac, EulerEquations.h:273-326 (2D), 737-811 (3D).  [data[ID]],
    [data[IU]], [data[IV]], [data[IW]], [data[IE]] are the fields of [d]. *)
Definition cons_to_charac (dir : Z) (d q : hs T) (c : T) : hs T :=
  let u := hU q / hD q in
  let v := hV q / hD q in
  let w := if b3 then hW q / hD q else zero in
  let c2 := c * c in
  let g1 := gamma0 - one in
  let beta := one / two / c2 in
  let V2 := if b3 then u * u + v * v + w * w else u * u + v * v in
  let H := half * V2 + c2 / g1 in
  let phi2 := g1 * H - c2 in
  if b3 then
    if (dir =? IX)%Z then
      HS (hD d * beta * (phi2 + u * c) + hU d * (opp beta * (g1 * u + c)) + hV d * (opp beta * g1 * v)
            + hW d * (opp beta * g1 * w) + hP d * beta * g1)
         (hD d * beta * (phi2 - u * c) + hU d * (opp beta * (g1 * u - c)) + hV d * (opp beta * g1 * v)
            + hW d * (opp beta * g1 * w) + hP d * beta * g1)
         (hD d * (one - phi2 / c2) + hU d * g1 * u / c2 + hV d * g1 * v / c2 + hW d * g1 * w / c2
            + hP d * (opp g1 / c2))
         (hD d * opp v + hV d) (hD d * opp w + hW d)
    else if (dir =? IY)%Z then
      HS (hD d * beta * (phi2 + v * c) + hU d * (opp beta * g1 * u) + hV d * (opp beta * (g1 * v + c))
            + hW d * (opp beta * g1 * w) + hP d * beta * g1)
         (hD d * beta * (phi2 - v * c) + hU d * (opp beta * g1 * u) + hV d * (opp beta * (g1 * v - c))
            + hW d * (opp beta * g1 * w) + hP d * beta * g1)
         (hD d * (one - phi2 / c2) + hU d * g1 * u / c2 + hV d * g1 * v / c2 + hW d * g1 * w / c2
            + hP d * (opp g1 / c2))
         (hD d * opp u + hU d) (hD d * opp w + hW d)
    else
      HS (hD d * beta * (phi2 + w * c) + hU d * (opp beta * g1 * u) + hV d * (opp beta * g1 * v)
            + hW d * (opp beta * (g1 * w + c)) + hP d * beta * g1)
         (hD d * beta * (phi2 - w * c) + hU d * (opp beta * g1 * u) + hV d * (opp beta * g1 * v)
            + hW d * (opp beta * (g1 * w - c)) + hP d * beta * g1)
         (hD d * (one - phi2 / c2) + hU d * g1 * u / c2 + hV d * g1 * v / c2 + hW d * g1 * w / c2
            + hP d * (opp g1 / c2))
         (hD d * opp u + hU d) (hD d * opp v + hV d)
  else
    if (dir =? IX)%Z then
      HS (hD d * beta * (phi2 + u * c) + hU d * (opp beta * (g1 * u + c)) + hV d * (opp beta * g1 * v)
            + hP d * beta * g1)
         (hD d * beta * (phi2 - u * c) + hU d * (opp beta * (g1 * u - c)) + hV d * (opp beta * g1 * v)
            + hP d * beta * g1)
         (hD d * (one - phi2 / c2) + hU d * g1 * u / c2 + hV d * g1 * v / c2 + hP d * (opp g1 / c2))
         (hD d * opp v + hV d) zero
    else
      HS (hD d * beta * (phi2 + v * c) + hU d * (opp beta * g1 * u) + hV d * (opp beta * (g1 * v + c))
            + hP d * beta * g1)
         (hD d * beta * (phi2 - v * c) + hU d * (opp beta * g1 * u) + hV d * (opp beta * (g1 * v - c))
            + hP d * beta * g1)
         (hD d * (one - phi2 / c2) + hU d * g1 * u / c2 + hV d * g1 * v / c2 + hP d * (opp g1 / c2))
         (hD d * opp u + hU d) zero.

(** charac_to_cons, EulerEquations.h:360-408 (2D), 852-916 (3D). *)
Definition charac_to_cons (dir : Z) (d q : hs T) (c : T) : hs T :=
  let u := hU q / hD q in
  let v := hV q / hD q in
  let w := if b3 then hW q / hD q else zero in
  let c2 := c * c in
  let g1 := gamma0 - one in
  let V2 := if b3 then u * u + v * v + w * w else u * u + v * v in
  let H := half * V2 + c2 / g1 in
  let rho := hD d + hU d + hP d in

  let plus x a := hD d * x + hU d * x + a + hP d * x in
  let normal x := hD d * (x - c) + hU d * x + hP d * (x + c) in
  if b3 then
    if (dir =? IX)%Z then
      HS rho (hD d * (H - u * c) + hU d * V2 / two + hV d * v + hW d * w + hP d * (H + u * c))
         (normal u) (plus v (hV d)) (plus w (hW d))
    else if (dir =? IY)%Z then
      HS rho (hD d * (H - v * c) + hU d * V2 / two + hV d * u + hW d * w + hP d * (H + v * c))
         (plus u (hV d)) (normal v) (plus w (hW d))
    else
      HS rho (hD d * (H - w * c) + hU d * V2 / two + hV d * u + hW d * v + hP d * (H + w * c))
         (plus u (hV d)) (plus v (hW d)) (normal w)
  else
    if (dir =? IX)%Z then
      HS rho (hD d * (H - u * c) + hU d * V2 / two + hV d * v + hP d * (H + u * c))
         (normal u) (plus v (hV d)) zero
    else
      HS rho (hD d * (H - v * c) + hU d * V2 / two + hV d * u + hP d * (H + v * c))
         (plus u (hV d)) (normal v) zero.
End Euler.
