(** Point-wise functions of the 3D MHD MUSCL solver: slopes, electric field, trace
    (src/muscl/MHDBaseFunctor3D.h) and the reconstructions of the low-memory
    variant (src/muscl/MHDRunFunctors3D.h).  Conversion to primitive variables and the
    one-dimensional limiter are shared with the 2D solver ([MhdPoint]). *)
From Coq Require Import ZArith Bool.
From Verif Require Import Arith HydroState MhdState MhdRiemann MhdPoint.
Open Scope Z_scope.

Section Point.
Context {T : Type} {AT : Arith T}.
Variable p : mparams T.
Local Notation h := (mh p).

(** The two axes of the plane normal to an edge: an X edge lies in the (Y,Z)
    plane, a Y edge in (X,Z), a Z edge in (X,Y). *)
Definition axis1 (e : comp3) : comp3 := match e with CX => CY | CY => CX | CZ => CX end.
Definition axis2 (e : comp3) : comp3 := match e with CX => CZ | CY => CZ | CZ => CY end.

(** Set the field component along an axis. *)
Definition setb (d : comp3) (q : ms T) (x : T) : ms T :=
  match d with CX => with_A q x | CY => with_B q x | CZ => with_C q x end.
(** Rotation of a state to the frame of an axis: the swaps of
    MHDRunFunctors3D.h:1865-1870, 1884-1889. *)
Definition mrot (d : comp3) (q : ms T) : ms T :=
  match d with CX => q | CY => mswapY q | CZ => mswapZ q end.

(** slope_unsplit_hydro_3d, MHDBaseFunctor3D.h:340-505: limited slopes in the three
    directions for slope types 1 and 2, zero otherwise; the Z slope of component IC is
    computed with qMinusY[IC] (line 458). *)
Definition slope_vec (q qp qm : ms T) : ms T :=
  let l f := limit1 (slope_type h) (f q) (f qp) (f qm) in
  MS (l mD) (l mP) (l mU) (l mV) (l mW) (l mA) (l mB) (l mC).
Definition slope_hydro3 (q : ms T) (qp qm : comp3 -> ms T) (d : comp3) : ms T :=
  if slope12 p then
    match d with
    | CZ => with_C (slope_vec q (qp CZ) (qm CZ))
              (limit1 (slope_type h) (mC q) (mC (qp CZ)) (mC (qm CY)))
    | _ => slope_vec q (qp d) (qm d)
    end
  else ms_zero.

(** slope_unsplit_mhd_3d, MHDBaseFunctor3D.h:562-668: slope of one face component in
    one transverse direction. *)
Definition slope_face3 (b bp bm : T) : T := limit1 (minv (slope_type h) two) b bp bm.

(** compute_limited_slope, MHDBaseFunctor3D.h:129-155, used by the low-memory variant:
    along Z the "minus" neighbour read is the plus neighbour (b_minus uses
    k + delta_k). *)
Definition limited_slope3 (d : comp3) (b bp bm : T) : T :=
  limit1 (slope_type h) b bp (match d with CZ => bp | _ => bm end).

(** Electric field at an edge, MHDRunFunctors3D.h:318-352.  q00, q01, q10, q11: the
    cells at (axis1, axis2) offsets (-1,-1), (-1,0), (0,-1), (0,0); X1, X0: the axis-1 field
    component at axis-2 offsets -1, 0; Y1, Y0: the axis-2 component at axis-1 offsets -1, 0. *)
Definition vel (d : comp3) (q : ms T) : T := match d with CX => mU q | CY => mV q | CZ => mW q end.
Definition elec3 (e : comp3) (q00 q01 q10 q11 : ms T) (X1 X0 Y1 Y0 : T) : T :=
  let avg f := (lit 1 4 * (f q00 + f q01 + f q10 + f q11))%A in
  let v1 := avg (vel (axis1 e)) in let v2 := avg (vel (axis2 e)) in
  let b1 := (half * (X1 + X0))%A in let b2 := (half * (Y1 + Y0))%A in
  match e with CY => (v2 * b1 - v1 * b2)%A | _ => (v1 * b2 - v2 * b1)%A end.

(** Density and pressure floors of the trace, e.g. MHDBaseFunctor3D.h:913-914: the pressure floor
    is smallp (not multiplied by the density as in 2D and in the low-memory variant). *)
Definition floors3 (q : ms T) : ms T :=
  with_P (with_D q (maxv (smallr h) (mD q))) (maxv (smallp h) (mP q)).

(** Source terms of the half-step predictor: MHDBaseFunctor3D.h:842-859,
    MHDRunFunctors3D.h:979-996. *)
Definition source3 (q dqX dqY dqZ : ms T) (dAx dBy dCz dtdx dtdy dtdz : T) : ms T :=
  let r := mD q in let pr := mP q in let u := mU q in let v := mV q in let w := mW q in
  let A := mA q in let B := mB q in let C := mC q in
  let drx := mD dqX in let dpx := mP dqX in let dux := mU dqX in let dvx := mV dqX in
  let dwx := mW dqX in let dBx := mB dqX in let dCx := mC dqX in
  let dry := mD dqY in let dpy := mP dqY in let duy := mU dqY in let dvy := mV dqY in
  let dwy := mW dqY in let dAy := mA dqY in let dCy := mC dqY in
  let drz := mD dqZ in let dpz := mP dqZ in let duz := mU dqZ in let dvz := mV dqZ in
  let dwz := mW dqZ in let dAz := mA dqZ in let dBz := mB dqZ in
  let gamma := gamma0 h in
  MS ((- u * drx - dux * r) * dtdx + (- v * dry - dvy * r) * dtdy + (- w * drz - dwz * r) * dtdz)%A
     ((- u * dpx - dux * gamma * pr) * dtdx + (- v * dpy - dvy * gamma * pr) * dtdy
      + (- w * dpz - dwz * gamma * pr) * dtdz)%A
     ((- u * dux - (dpx + B * dBx + C * dCx) / r) * dtdx + (- v * duy + B * dAy / r) * dtdy
      + (- w * duz + C * dAz / r) * dtdz)%A
     ((- u * dvx + A * dBx / r) * dtdx + (- v * dvy - (dpy + A * dAy + C * dCy) / r) * dtdy
      + (- w * dvz + C * dBz / r) * dtdz)%A
     ((- u * dwx + A * dCx / r) * dtdx + (- v * dwy + B * dCy / r) * dtdy
      + (- w * dwz - (dpz + A * dAz + B * dBz) / r) * dtdz)%A
     ((u * dBy + B * duy - v * dAy - A * dvy) * dtdy
      + (u * dCz + C * duz - w * dAz - A * dwz) * dtdz)%A
     ((v * dAx + A * dvx - u * dBx - B * dux) * dtdx
      + (v * dCz + C * dvz - w * dBz - B * dwz) * dtdz)%A
     ((w * dAx + A * dwx - u * dCx - C * dux) * dtdx
      + (w * dBy + B * dwy - v * dCy - C * dvy) * dtdy)%A.

(** Shearing terms, MHDBaseFunctor3D.h:860-871. *)
Definition shear3 (xPos : T) (s q dqY dqZ : ms T) (dAx dtdx dtdy dtdz : T) : ms T :=
  if ltb zero (Omega0 p) then
    let shear := (opp (lit 3 2) * Omega0 p * xPos)%A in
    let m s d := (s - shear * d * dtdy)%A in
    MS (m (mD s) (mD dqY)) (m (mP s) (mP dqY)) (m (mU s) (mU dqY)) (m (mV s) (mV dqY)) (m (mW s) (mW dqY))
       (m (mA s) (mA dqY))
       (mB s + (shear * dAx - lit 3 2 * Omega0 p * mA q * dx h) * dtdx + shear * mB dqZ * dtdz)%A
       (m (mC s) (mC dqY))
  else s.

(** Face and edge states of a cell.  [tf d false] = qp[d] (state at the lower face along d),
    [tf d true] = qm[d] (upper face); [te e a b]: state at an edge along e, [a] and [b] tell
    whether it is the upper side along axis 1 and axis 2 of e (RT, RB, LT, LB = true true, true false,
    false true, false false). *)
Record tr3 := Tr3 { tf : comp3 -> bool -> ms T; te : comp3 -> bool -> bool -> ms T }.

(** trace_unsplit_mhd_3d_simpler, MHDBaseFunctor3D.h:688-1114.  q: cell state; d: its
    slopes; E e a b: electric fields elecFields[e][a][b]; fc d s: the face field (lower or upper
    face along d); db d d' s: slope along d' of the field on the lower or upper face along d. *)
Definition trace3_core (xPos : T) (q : ms T) (d : comp3 -> ms T) (E : comp3 -> bool -> bool -> T)
  (fc : comp3 -> bool -> T) (db : comp3 -> comp3 -> bool -> T) (dtdx dtdy dtdz : T) : tr3 :=
  let hd d' := ms_map (fun x => mul x half) (d d') in
  let hb d1 d2 s := (half * db d1 d2 s)%A in
  let dAx := (half * (fc CX true - fc CX false))%A in
  let dBy := (half * (fc CY true - fc CY false))%A in
  let dCz := (half * (fc CZ true - fc CZ false))%A in
  let s0 := shear3 xPos (source3 q (hd CX) (hd CY) (hd CZ) dAx dBy dCz dtdx dtdy dtdz)
              q (hd CY) (hd CZ) dAx dtdx dtdy dtdz in
  let sfc d' s :=
    match d' with
    | CX => ((E CZ s true - E CZ s false) * dtdy * half - (E CY s true - E CY s false) * dtdz * half)%A
    | CY => (- (E CZ true s - E CZ false s) * dtdx * half + (E CX s true - E CX s false) * dtdz * half)%A
    | CZ => ((E CY true s - E CY false s) * dtdx * half - (E CX true s - E CX false s) * dtdy * half)%A
    end in
  let q := ms_map2 add q s0 in
  let fc d' s := (fc d' s + sfc d' s)%A in
  let sg (b : bool) (x : T) := if b then x else opp x in
  Tr3 (fun d' s => floors3 (setb d' (ms_map2 (if s then add else sub) q (hd d')) (fc d' s)))
      (fun e a b =>
         let d1 := axis1 e in let d2 := axis2 e in
         let v := ms_map2 add q (ms_map2 (fun x y => add (sg a x) (sg b y)) (hd d1) (hd d2)) in
         floors3 (setb d2 (setb d1 v (fc d1 a + sg b (hb d1 d2 a))%A) (fc d2 b + sg a (hb d2 d1 b))%A)).

(** Half-step primitive state of the low-memory variant, MHDRunFunctors3D.h:977-1007:
    no shearing terms. *)
Definition primvar3 (q dX dY dZ : ms T) (dAx dBy dCz dtdx dtdy dtdz : T) : ms T :=
  ms_map2 (fun x s => add x (mul half s)) q (source3 q dX dY dZ dAx dBy dCz dtdx dtdy dtdz).

(** reconstruct_state_at_edge<dir0, dir1>, MHDRunFunctors3D.h:1455-1529: s0, s1, t0, t1 are the signs
    sign_dq0, sign_dq1, sign_b0, sign_b1; B0, B1 the predicted face fields and dB0d1, dB1d0 their limited
    slopes.  Component IB is treated twice (lines 1496-1512): by the test on dir0 and
    by the test on dir1. *)
Definition is (a b : comp3) : bool :=
  match a, b with CX, CX | CY, CY | CZ, CZ => true | _, _ => false end.
Definition recon3 (d0 d1 : comp3) (s0 s1 t0 t1 : bool) (q2 dq0 dq1 : ms T) (B0 dB0d1 B1 dB1d0 : T) : ms T :=
  let inc f x := (x + half * (sgn1 s0 (f dq0) + sgn1 s1 (f dq1)))%A in
  let n0 := (B0 + half * sgn1 t0 dB0d1)%A in
  let n1 := (B1 + half * sgn1 t1 dB1d0)%A in
  let a := if is d0 CX then n0 else inc mA (mA q2) in
  let b := if is d0 CY then n0 else inc mB (mB q2) in
  let b := if is d1 CY then n1 else inc mB b in
  let c := if is d1 CZ then n1 else inc mC (mC q2) in
  floors p (MS (inc mD (mD q2)) (inc mP (mP q2)) (inc mU (mU q2)) (inc mV (mV q2)) (inc mW (mW q2)) a b c).
End Point.
Arguments Tr3 {T}.
Arguments tf {T}. Arguments te {T}.
