(** Point-wise functions of the MHD MUSCL solver, 2D: conversion to primitive
    variables, slopes, electric field, trace (src/muscl/MHDBaseFunctor2D.h) and
    the reconstructions of the low-memory variant (src/muscl/MHDRunFunctors2D.h). *)
From Coq Require Import ZArith Bool.
From Verif Require Import Arith HydroState MhdState MhdRiemann.
Open Scope Z_scope.

Section Point.
Context {T : Type} {AT : Arith T}.
Variable p : mparams T.
Local Notation h := (mh p).

(** constoprim_mhd, MHDBaseFunctor2D.h:192-242 (identical in
    MHDBaseFunctor3D.h:200-250); the sound speed [c] is not used.
    nA, nB, nC: field on the opposite faces. *)
Definition constoprim_mhd (u : ms T) (nA nB nC : T) : ms T :=
  let d := maxv (mD u) (smallr h) in
  let qu := (mU u / d)%A in let qv := (mV u / d)%A in let qw := (mW u / d)%A in
  let qa := (half * (mA u + nA))%A in
  let qb := (half * (mB u + nB))%A in
  let qc := (half * (mC u + nC))%A in
  let eken := (half * (qu * qu + qv * qv + qw * qw))%A in
  let emag := (half * (qa * qa + qb * qb + qc * qc))%A in
  let pr := if ltb zero (cIso p) then (d * cIso p * cIso p)%A
            else let eint := ((mP u - emag) / d - eken)%A in
                 maxv ((gamma0 h - one) * d * eint)%A (d * smallp h)%A in
  MS d pr qu qv qw qa qb qc.

(** The limiter of slope_unsplit_hydro_2d_scalar (MHDBaseFunctor2D.h:261-327,
    both overloads), compute_limited_slope (129-155) and slope_unsplit_mhd_2d
    (484-507); [st] is the slope type. *)
Definition limit1 (st q qPlus qMinus : T) : T :=
  let dlft := (st * (q - qMinus))%A in
  let drgt := (st * (qPlus - q))%A in
  let dcen := (half * (qPlus - qMinus))%A in
  let dsgn := if leb zero dcen then one else opp one in
  let slop := minv (absv dlft) (absv drgt) in
  let dlim := if leb (dlft * drgt)%A zero then zero else slop in
  (dsgn * minv dlim (absv dcen))%A.

(** slope_unsplit_hydro_2d, MHDBaseFunctor2D.h:345-390 (one direction) and
    405-433: only slope types 1 and 2 are handled, otherwise [dq] keeps the
    contents it had ([junk]). *)
Definition slope12 : bool := eqb (slope_type h) one || eqb (slope_type h) two.
Definition slope_mhd (q qp qm junk : ms T) : ms T :=
  if slope12 then
    let l f := limit1 (slope_type h) (f q) (f qp) (f qm) in
    MS (l mD) (l mP) (l mU) (l mV) (l mW) (l mA) (l mB) (l mC)
  else junk.

(** Ez = u*B - v*A at an edge: MHDBaseFunctor2D.h:815-838,
    MHDRunFunctors2D.h:285-304.  qmm, qm0, q0m, q00: cells (i-1,j-1), (i-1,j),
    (i,j-1), (i,j); Am, A0: Bx at (i,j-1), (i,j); Bm, B0: By at (i-1,j), (i,j). *)
Definition elec_z (qmm qm0 q0m q00 : ms T) (Am A0 Bm B0 : T) : T :=
  let u := (lit 1 4 * (mU qmm + mU qm0 + mU q0m + mU q00))%A in
  let v := (lit 1 4 * (mV qmm + mV qm0 + mV q0m + mV q00))%A in
  let A := (half * (Am + A0))%A in
  let B := (half * (Bm + B0))%A in
  (u * B - v * A)%A.

(** Density and pressure floors at faces and edges, e.g. MHDBaseFunctor2D.h:1021-1022. *)
Definition floors (q : ms T) : ms T :=
  let d := maxv (smallr h) (mD q) in
  with_P (with_D q d) (maxv (smallp h * d)%A (mP q)).

(** The source terms sr0 ... sC0 of the half-step predictor:
    MHDBaseFunctor2D.h:972-982, MHDRunFunctors2D.h:1021-1031. *)
Definition source2 (q dqX dqY : ms T) (dAx dBy dtdx dtdy : T) : ms T :=
  let r := mD q in let pr := mP q in let u := mU q in let v := mV q in let w := mW q in
  let A := mA q in let B := mB q in let C := mC q in
  let drx := mD dqX in let dpx := mP dqX in let dux := mU dqX in let dvx := mV dqX in
  let dwx := mW dqX in let dBx := mB dqX in let dCx := mC dqX in
  let dry := mD dqY in let dpy := mP dqY in let duy := mU dqY in let dvy := mV dqY in
  let dwy := mW dqY in let dAy := mA dqY in let dCy := mC dqY in
  MS ((- u * drx - dux * r) * dtdx + (- v * dry - dvy * r) * dtdy)%A
     ((- u * dpx - dux * gamma0 h * pr) * dtdx + (- v * dpy - dvy * gamma0 h * pr) * dtdy)%A
     ((- u * dux - dpx / r - B * dBx / r - C * dCx / r) * dtdx
      + (- v * duy + B * dAy / r) * dtdy)%A
     ((- u * dvx + A * dBx / r) * dtdx
      + (- v * dvy - dpy / r - A * dAy / r - C * dCy / r) * dtdy)%A
     ((- u * dwx + A * dCx / r) * dtdx + (- v * dwy + B * dCy / r) * dtdy)%A
     ((u * dBy + B * duy - v * dAy - A * dvy) * dtdy)%A
     ((- u * dBx - B * dux + v * dAx + A * dvx) * dtdx)%A
     ((w * dAx + A * dwx - u * dCx - C * dux) * dtdx
      + (- v * dCy - C * dvy + w * dBy + B * dwy) * dtdy)%A.

(** Reconstructed states of a cell: qm[0], qp[0], qm[1], qp[1] and the corner
    states RT, RB, LT, LB. *)
Record tr2 := Tr2 { t_mx : ms T; t_px : ms T; t_my : ms T; t_py : ms T;
                    t_RT : ms T; t_RB : ms T; t_LT : ms T; t_LB : ms T }.

(** trace_unsplit_mhd_2d from line 857 on, MHDBaseFunctor2D.h:857-1108: q is the
    cell state, dX and dY its slopes, E?? the electric field at the corners, AL ...
    BR the face fields, dALy ... dBRx the (already halved) slopes of the face
    fields. *)
Definition trace2_core (q dX dY : ms T) (ELL ELR ERL ERR AL AR BL BR dALy dARy dBLx dBRx : T)
  (dtdx dtdy : T) : tr2 :=
  let hX := ms_map (fun x => mul x half) dX in
  let hY := ms_map (fun x => mul x half) dY in
  let dAx := (half * (AR - AL))%A in
  let dBy := (half * (BR - BL))%A in
  let s0 := source2 q hX hY dAx dBy dtdx dtdy in
  let sAL0 := ((ELR - ELL) * half * dtdy)%A in
  let sAR0 := ((ERR - ERL) * half * dtdy)%A in
  let sBL0 := (- (ERL - ELL) * half * dtdx)%A in
  let sBR0 := (- (ERR - ELR) * half * dtdx)%A in
  let q := ms_map2 add q s0 in
  let AL := (AL + sAL0)%A in let AR := (AR + sAR0)%A in
  let BL := (BL + sBL0)%A in let BR := (BR + sBR0)%A in
  let px := floors (with_A (ms_map2 sub q hX) AL) in
  let mx := floors (with_A (ms_map2 add q hX) AR) in
  let py := floors (with_B (ms_map2 sub q hY) BL) in
  let my := floors (with_B (ms_map2 add q hY) BR) in
  let corner (sx sy : T -> T) (a b : T) :=
    let e := ms_map2 add q (ms_map2 (fun x y => add (sx x) (sy y)) hX hY) in
    floors (with_B (with_A e a) b) in
  let id x := x in
  let RT := corner id id (AR + dARy)%A (BR + dBRx)%A in
  let RB := corner id opp (AR + - dARy)%A (BL + dBLx)%A in
  let LB := corner opp opp (AL + - dALy)%A (BL + - dBLx)%A in
  let LT := corner opp id (AL + dALy)%A (BR + - dBRx)%A in
  Tr2 mx px my py RT RB LT LB.

(** trace_unsplit_mhd_2d, MHDBaseFunctor2D.h:774-1109.  [q di dj] and
    [b di dj] = (Bx, By, Bz) are the neighbours at offset (di, dj): the arrays
    qNb[1+di][1+dj] and bfNb[1+di][1+dj].  jX, jY: contents of the uninitialised dq. *)
Definition bX (b : T * T * T) : T := fst (fst b).
Definition bY (b : T * T * T) : T := snd (fst b).
Definition bZ (b : T * T * T) : T := snd b.
Definition trace_unsplit_mhd_2d (q : Z -> Z -> ms T) (b : Z -> Z -> T * T * T) (jX jY : ms T)
  (dtdx dtdy : T) : tr2 :=
  let st := slope_type h in
  trace2_core (q 0 0)
    (slope_mhd (q 0 0) (q 1 0) (q (-1) 0) jX) (slope_mhd (q 0 0) (q 0 1) (q 0 (-1)) jY)
    (elec_z (q (-1) (-1)) (q (-1) 0) (q 0 (-1)) (q 0 0) (bX (b 0 (-1))) (bX (b 0 0)) (bY (b (-1) 0)) (bY (b 0 0)))
    (elec_z (q (-1) 0) (q (-1) 1) (q 0 0) (q 0 1) (bX (b 0 0)) (bX (b 0 1)) (bY (b (-1) 1)) (bY (b 0 1)))
    (elec_z (q 0 (-1)) (q 0 0) (q 1 (-1)) (q 1 0) (bX (b 1 (-1))) (bX (b 1 0)) (bY (b 0 0)) (bY (b 1 0)))
    (elec_z (q 0 0) (q 0 1) (q 1 0) (q 1 1) (bX (b 1 0)) (bX (b 1 1)) (bY (b 0 1)) (bY (b 1 1)))
    (bX (b 0 0)) (bX (b 1 0)) (bY (b 0 0)) (bY (b 0 1))
    (half * limit1 st (bX (b 0 0)) (bX (b 0 1)) (bX (b 0 (-1))))%A
    (half * limit1 st (bX (b 1 0)) (bX (b 1 1)) (bX (b 1 (-1))))%A
    (half * limit1 st (bY (b 0 0)) (bY (b 1 0)) (bY (b (-1) 0)))%A
    (half * limit1 st (bY (b 0 1)) (bY (b 1 1)) (bY (b (-1) 1)))%A
    dtdx dtdy.

(** Half-step primitive state of the low-memory variant,
    MHDRunFunctors2D.h:973-1040: dX, dY are the stored slopes. *)
Definition primvar2 (q dX dY : ms T) (dAx dBy dtdx dtdy : T) : ms T :=
  ms_map2 (fun x s => add x (mul half s)) q (source2 q dX dY dAx dBy dtdx dtdy).

(** Face states of the low-memory variant, MHDRunFunctors2D.h:1136-1204 (and
    MHDRunFunctors3D.h:1130-1212): half-step state minus/plus half the slope;
    the normal field component is set separately.  In the code the floors are
    applied before the field components are set; they do not depend on them. *)
Definition face_minus (q2 dq : ms T) : ms T :=
  floors (ms_map2 (fun x d => sub x (mul half d)) q2 dq).
Definition face_plus (q2 dq : ms T) : ms T :=
  floors (ms_map2 (fun x d => add x (mul half d)) q2 dq).

(** reconstruct_state_at_edge, MHDRunFunctors2D.h:1388-1466: A, B are the
    predicted face fields, dAy, dBx their limited slopes; the signs are those of
    the edge (LB: - - - -, RT: + + + +, RB: + - - +, LT: - + + -). *)
Definition sgn1 (s : bool) (x : T) : T := if s then mul one x else mul (opp one) x.
Definition recon2 (sx sy sa sb : bool) (q2 dqX dqY : ms T) (A dAy B dBx : T) : ms T :=
  let e := ms_map2 (fun x d => add x (mul half d)) q2
             (ms_map2 (fun x y => add (sgn1 sx x) (sgn1 sy y)) dqX dqY) in
  floors (with_B (with_A e (A + half * sgn1 sa dAy)%A) (B + half * sgn1 sb dBx)%A).
End Point.
Arguments Tr2 {T}.
Arguments t_mx {T}. Arguments t_px {T}. Arguments t_my {T}. Arguments t_py {T}.
Arguments t_RT {T}. Arguments t_RB {T}. Arguments t_LT {T}. Arguments t_LB {T}.
