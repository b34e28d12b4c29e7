(** MHD wave speeds, fluxes, Riemann solvers and the electromotive force:
    src/shared/mhd_utils.h, src/shared/RiemannSolvers_MHD.h. *)
From Coq Require Import ZArith Bool.
From Verif Require Import Arith HydroState MhdState.
Open Scope Z_scope.

Inductive comp3 := CX | CY | CZ.       (* ComponentIndex3D IX, IY, IZ *)
Inductive emfdir := EMFX | EMFY | EMFZ. (* EmfDir, src/shared/enums.h *)

Section Mhd.
Context {T : Type} {AT : Arith T}.
Variable p : mparams T.
Local Notation gam := (gamma0 (mh p)).
Local Notation "x ^2" := (mul x x) (at level 9, format "x ^2") : arith_scope.

(** FMAX4, FMIN4, FMAX5: mhd_utils.h:35-77. *)
Definition pickmax (r a : T) : T := if ltb r a then a else r.
Definition pickmin (r a : T) : T := if ltb a r then a else r.
Definition FMAX4 a0 a1 a2 a3 : T := pickmax (pickmax (pickmax a0 a1) a2) a3.
Definition FMIN4 a0 a1 a2 a3 : T := pickmin (pickmin (pickmin a0 a1) a2) a3.
Definition FMAX5 a0 a1 a2 a3 a4 : T := pickmax (pickmax (pickmax (pickmax a0 a1) a2) a3) a4.

Definition bcomp (d : comp3) (q : ms T) : T := match d with CX => mA q | CY => mB q | CZ => mC q end.

(** find_speed_fast<dir>, mhd_utils.h:87-117. *)
Definition find_speed_fast (dir : comp3) (q : ms T) : T :=
  let d := mD q in let a := mA q in let b := mB q in let c := mC q in
  let b2 := (a * a + b * b + c * c)%A in
  let c2 := (gam * mP q / d)%A in
  let d2 := (half * (b2 / d + c2))%A in
  let x := bcomp dir q in
  sqr (d2 + sqr (d2 * d2 - c2 * x * x / d))%A.

(** find_mhd_flux, mhd_utils.h:171-231: conservative variables and flux. *)
Definition iso_pressure (q : ms T) : T :=
  if ltb zero (cIso p) then (mD q * cIso p * cIso p)%A else mP q.
Definition find_mhd_flux (q : ms T) : ms T * ms T :=
  let pr := iso_pressure q in
  let entho := (one / (gam - one))%A in
  let d := mD q in let u := mU q in let v := mV q in let w := mW q in
  let a := mA q in let b := mB q in let c := mC q in
  let ecin := (half * (u * u + v * v + w * w) * d)%A in
  let emag := (half * (a * a + b * b + c * c))%A in
  let etot := (pr * entho + ecin + emag)%A in
  let ptot := (pr + emag)%A in
  (MS d etot (d * u)%A (d * v)%A (d * w)%A a b c,
   MS (d * u)%A ((etot + ptot) * u - a * (a * u + b * v + c * w))%A
      (d * u * u - a * a + ptot)%A (d * u * v - a * b)%A (d * u * w - a * c)%A
      zero (b * u - a * v)%A (c * u - a * w)%A).

(** find_speed_info (all directions), mhd_utils.h:319-365, and the overload for
    x alone, 376-402. *)
Definition find_speed_info_dir (dir : comp3) (q : ms T) : T :=
  (find_speed_fast dir q + absv (match dir with CX => mU q | CY => mV q | CZ => mW q end))%A.
Definition find_speed_info (q : ms T) : T := find_speed_info_dir CX q.

(** riemann_hll, RiemannSolvers_MHD.h:27-67. *)
Definition riemann_hll_mhd (ql qr : ms T) : ms T :=
  let bx := (half * (mA ql + mA qr))%A in
  let ql := with_A ql bx in let qr := with_A qr bx in
  let '(ul, fl) := find_mhd_flux ql in
  let '(ur, fr) := find_mhd_flux qr in
  let cfl := find_speed_fast CX ql in let cfr := find_speed_fast CX qr in
  let sl := minv (minv (mU ql) (mU qr) - maxv cfl cfr)%A zero in
  let sr := maxv (maxv (mU ql) (mU qr) + maxv cfl cfr)%A zero in
  let h fl fr ul ur := ((sr * fl - sl * fr + sr * sl * (ur - ul)) / (sr - sl))%A in
  MS (h (mD fl) (mD fr) (mD ul) (mD ur)) (h (mP fl) (mP fr) (mP ul) (mP ur))
     (h (mU fl) (mU fr) (mU ul) (mU ur)) (h (mV fl) (mV fr) (mV ul) (mV ur))
     (h (mW fl) (mW fr) (mW ul) (mW ur)) (h (mA fl) (mA fr) (mA ul) (mA ur))
     (h (mB fl) (mB fr) (mB ul) (mB ur)) (h (mC fl) (mC fr) (mC ul) (mC ur)).

(** riemann_llf, RiemannSolvers_MHD.h:81-111. *)
Definition riemann_llf_mhd (ql qr : ms T) : ms T :=
  let bx := (half * (mA ql + mA qr))%A in
  let ql := with_A ql bx in let qr := with_A qr bx in
  let '(ul, fl) := find_mhd_flux ql in
  let '(ur, fr) := find_mhd_flux qr in
  let vel := maxv (find_speed_info ql) (find_speed_info qr) in
  let h fl fr ul ur := ((fl + fr) / two - vel * (ur - ul) / two)%A in
  MS (h (mD fl) (mD fr) (mD ul) (mD ur)) (h (mP fl) (mP fr) (mP ul) (mP ur))
     (h (mU fl) (mU fr) (mU ul) (mU ur)) (h (mV fl) (mV fr) (mV ul) (mV ur))
     (h (mW fl) (mW fr) (mW ul) (mW ur)) (h (mA fl) (mA fr) (mA ul) (mA ur))
     (h (mB fl) (mB fr) (mB ul) (mB ur)) (h (mC fl) (mC fr) (mC ul) (mC ur)).

(** riemann_hlld, RiemannSolvers_MHD.h:133-367. *)

(** Star values of the transverse velocity and field on one side: left 207-234,
    right 242-269.  [s] is the outer wave speed on that side. *)
Record hlld_star := HStar { xr : T; xv : T; xw : T; xb : T; xc : T; xvb : T; xet : T; xsq : T }.
Definition hlld_side (a s ustar ptotstar : T) (r u v w b c etot ptot vdotb : T) : hlld_star :=
  let rstar := (r * (s - u) / (s - ustar))%A in
  let estar := (r * (s - u) * (s - ustar) - a * a)%A in
  let e := (r * (s - u) * (s - u) - a * a)%A in
  let keep := ltb zero (a * a)%A && leb (absv (estar / (a * a) - one))%A (lit 1 100000000) in
  let vs := if keep then v else (v - a * b * (ustar - u) / estar)%A in
  let bs := if keep then b else (b * e / estar)%A in
  let ws := if keep then w else (w - a * c * (ustar - u) / estar)%A in
  let cs := if keep then c else (c * e / estar)%A in
  let vbs := (ustar * a + vs * bs + ws * cs)%A in
  let ets := (((s - u) * etot - ptot * u + ptotstar * ustar + a * (vdotb - vbs)) / (s - ustar))%A in
  HStar rstar vs ws bs cs vbs ets (sqr rstar).

Definition hlld_flux (a : T) (r u v w b c ptot etot vdotb : T) : ms T :=
  MS (r * u)%A ((etot + ptot) * u - a * vdotb)%A (r * u * u - a * a + ptot)%A
     (r * u * v - a * b)%A (r * u * w - a * c)%A zero (b * u - a * v)%A (c * u - a * w)%A.

Definition riemann_hlld (ql qr : ms T) : ms T :=
  let entho := (one / (gam - one))%A in
  let a := (half * (mA ql + mA qr))%A in
  let sgnm := if leb zero a then one else opp one in
  let ql := with_P (with_A ql a) (iso_pressure ql) in
  let qr := with_P (with_A qr a) (iso_pressure qr) in
  let rl := mD ql in let pl := mP ql in let ul := mU ql in let vl := mV ql in let wl := mW ql in
  let bl := mB ql in let cl := mC ql in
  let ecinl := (half * (ul * ul + vl * vl + wl * wl) * rl)%A in
  let emagl := (half * (a * a + bl * bl + cl * cl))%A in
  let etotl := (pl * entho + ecinl + emagl)%A in
  let ptotl := (pl + emagl)%A in
  let vdotbl := (ul * a + vl * bl + wl * cl)%A in
  let rr := mD qr in let pr := mP qr in let ur := mU qr in let vr := mV qr in let wr := mW qr in
  let br := mB qr in let cr := mC qr in
  let ecinr := (half * (ur * ur + vr * vr + wr * wr) * rr)%A in
  let emagr := (half * (a * a + br * br + cr * cr))%A in
  let etotr := (pr * entho + ecinr + emagr)%A in
  let ptotr := (pr + emagr)%A in
  let vdotbr := (ur * a + vr * br + wr * cr)%A in
  let cfastl := find_speed_fast CX ql in
  let cfastr := find_speed_fast CX qr in
  let sl := (minv ul ur - maxv cfastl cfastr)%A in
  let sr := (maxv ul ur + maxv cfastl cfastr)%A in
  let rcl := (rl * (ul - sl))%A in
  let rcr := (rr * (sr - ur))%A in
  let ustar := ((rcr * ur + rcl * ul + (ptotl - ptotr)) / (rcr + rcl))%A in
  let ptotstar := ((rcr * ptotl + rcl * ptotr + rcl * rcr * (ul - ur)) / (rcr + rcl))%A in
  let L := hlld_side a sl ustar ptotstar rl ul vl wl bl cl etotl ptotl vdotbl in
  let sal := (ustar - absv a / xsq L)%A in
  let R := hlld_side a sr ustar ptotstar rr ur vr wr br cr etotr ptotr vdotbr in
  let sar := (ustar + absv a / xsq R)%A in
  let vss := ((xsq L * xv L + xsq R * xv R + sgnm * (xb R - xb L)) / (xsq L + xsq R))%A in
  let wss := ((xsq L * xw L + xsq R * xw R + sgnm * (xc R - xc L)) / (xsq L + xsq R))%A in
  let bss := ((xsq L * xb R + xsq R * xb L + sgnm * xsq L * xsq R * (xv R - xv L))
              / (xsq L + xsq R))%A in
  let css := ((xsq L * xc R + xsq R * xc L + sgnm * xsq L * xsq R * (xw R - xw L))
              / (xsq L + xsq R))%A in
  let vbss := (ustar * a + vss * bss + wss * css)%A in
  let etssl := (xet L - sgnm * xsq L * (xvb L - vbss))%A in
  let etssr := (xet R + sgnm * xsq R * (xvb R - vbss))%A in
  if ltb zero sl then hlld_flux a rl ul vl wl bl cl ptotl etotl vdotbl
  else if ltb zero sal then hlld_flux a (xr L) ustar (xv L) (xw L) (xb L) (xc L) ptotstar (xet L) (xvb L)
  else if ltb zero ustar then hlld_flux a (xr L) ustar vss wss bss css ptotstar etssl vbss
  else if ltb zero sar then hlld_flux a (xr R) ustar vss wss bss css ptotstar etssr vbss
  else if ltb zero sr then hlld_flux a (xr R) ustar (xv R) (xw R) (xb R) (xc R) ptotstar (xet R) (xvb R)
  else hlld_flux a rr ur vr wr br cr ptotr etotr vdotbr.

(** riemann_mhd, RiemannSolvers_MHD.h:372-392.  Other solver types leave [flux]
    uninitialised ([junk]). *)
Definition riemann_mhd (ql qr junk : ms T) : ms T :=
  if riemann_type (mh p) =? RIEMANN_HLLD then riemann_hlld ql qr
  else if riemann_type (mh p) =? RIEMANN_HLL then riemann_hll_mhd ql qr
  else if riemann_type (mh p) =? RIEMANN_LLF then riemann_llf_mhd ql qr
  else junk.

(** mag_riemann2d_hlld, RiemannSolvers_MHD.h:398-630.  The [int] masks
    ([SB_pos] ...) are booleans here, converted by [b2t] when they multiply. *)
Definition b2t (b : bool) : T := if b then one else zero.
Definition posb (x : T) : bool := ltb zero (copysign1 x).

(** The intermediate quantities of lines 452-571. *)
Record mag_mid := MagMid {
  wSL : T; wSR : T; wSB : T; wST : T; wSAL : T; wSAR : T; wSAB : T; wSAT : T;
  wELLx : T; wELLy : T; wELL : T; wELRx : T; wELRy : T; wELR : T;
  wERLx : T; wERLy : T; wERL : T; wERRx : T; wERRy : T; wERR : T;
  wAT : T; wAB : T; wBR : T; wBL : T }.

Definition mag_middle (qLL qRL qLR qRR : ms T) : mag_mid :=
  let rLL := mD qLL in let uLL := mU qLL in let vLL := mV qLL in
  let aLL := mA qLL in let bLL := mB qLL in let cLL := mC qLL in
  let rLR := mD qLR in let uLR := mU qLR in let vLR := mV qLR in
  let aLR := mA qLR in let bLR := mB qLR in let cLR := mC qLR in
  let rRL := mD qRL in let uRL := mU qRL in let vRL := mV qRL in
  let aRL := mA qRL in let bRL := mB qRL in let cRL := mC qRL in
  let rRR := mD qRR in let uRR := mU qRR in let vRR := mV qRR in
  let aRR := mA qRR in let bRR := mB qRR in let cRR := mC qRR in
  let cx := FMAX4 (find_speed_fast CX qLL) (find_speed_fast CX qLR)
                  (find_speed_fast CX qRL) (find_speed_fast CX qRR) in
  let cy := FMAX4 (find_speed_fast CY qLL) (find_speed_fast CY qLR)
                  (find_speed_fast CY qRL) (find_speed_fast CY qRR) in
  let SL := (FMIN4 uLL uLR uRL uRR - cx)%A in
  let SR := (FMAX4 uLL uLR uRL uRR + cx)%A in
  let SB := (FMIN4 vLL vLR vRL vRR - cy)%A in
  let ST := (FMAX4 vLL vLR vRL vRR + cy)%A in
  let PtotLL := (mP qLL + half * (aLL * aLL + bLL * bLL + cLL * cLL))%A in
  let PtotLR := (mP qLR + half * (aLR * aLR + bLR * bLR + cLR * cLR))%A in
  let PtotRL := (mP qRL + half * (aRL * aRL + bRL * bRL + cRL * cRL))%A in
  let PtotRR := (mP qRR + half * (aRR * aRR + bRR * bRR + cRR * cRR))%A in
  let rcLLx := (rLL * (uLL - SL))%A in let rcRLx := (rRL * (SR - uRL))%A in
  let rcLRx := (rLR * (uLR - SL))%A in let rcRRx := (rRR * (SR - uRR))%A in
  let rcLLy := (rLL * (vLL - SB))%A in let rcLRy := (rLR * (ST - vLR))%A in
  let rcRLy := (rRL * (vRL - SB))%A in let rcRRy := (rRR * (ST - vRR))%A in
  let ustar := ((rcLLx * uLL + rcLRx * uLR + rcRLx * uRL + rcRRx * uRR
                 + (PtotLL - PtotRL + PtotLR - PtotRR)) / (rcLLx + rcLRx + rcRLx + rcRRx))%A in
  let vstar := ((rcLLy * vLL + rcLRy * vLR + rcRLy * vRL + rcRRy * vRR
                 + (PtotLL - PtotLR + PtotRL - PtotRR)) / (rcLLy + rcLRy + rcRLy + rcRRy))%A in
  let rstarLLx := (rLL * (SL - uLL) / (SL - ustar))%A in
  let BstarLL := (bLL * (SL - uLL) / (SL - ustar))%A in
  let rstarLLy := (rLL * (SB - vLL) / (SB - vstar))%A in
  let AstarLL := (aLL * (SB - vLL) / (SB - vstar))%A in
  let rstarLL := (rLL * (SL - uLL) / (SL - ustar) * (SB - vLL) / (SB - vstar))%A in
  let EstarLLx := (ustar * BstarLL - vLL * aLL)%A in
  let EstarLLy := (uLL * bLL - vstar * AstarLL)%A in
  let EstarLL := (ustar * BstarLL - vstar * AstarLL)%A in
  let rstarLRx := (rLR * (SL - uLR) / (SL - ustar))%A in
  let BstarLR := (bLR * (SL - uLR) / (SL - ustar))%A in
  let rstarLRy := (rLR * (ST - vLR) / (ST - vstar))%A in
  let AstarLR := (aLR * (ST - vLR) / (ST - vstar))%A in
  let rstarLR := (rLR * (SL - uLR) / (SL - ustar) * (ST - vLR) / (ST - vstar))%A in
  let EstarLRx := (ustar * BstarLR - vLR * aLR)%A in
  let EstarLRy := (uLR * bLR - vstar * AstarLR)%A in
  let EstarLR := (ustar * BstarLR - vstar * AstarLR)%A in
  let rstarRLx := (rRL * (SR - uRL) / (SR - ustar))%A in
  let BstarRL := (bRL * (SR - uRL) / (SR - ustar))%A in
  let rstarRLy := (rRL * (SB - vRL) / (SB - vstar))%A in
  let AstarRL := (aRL * (SB - vRL) / (SB - vstar))%A in
  let rstarRL := (rRL * (SR - uRL) / (SR - ustar) * (SB - vRL) / (SB - vstar))%A in
  let EstarRLx := (ustar * BstarRL - vRL * aRL)%A in
  let EstarRLy := (uRL * bRL - vstar * AstarRL)%A in
  let EstarRL := (ustar * BstarRL - vstar * AstarRL)%A in
  let rstarRRx := (rRR * (SR - uRR) / (SR - ustar))%A in
  let BstarRR := (bRR * (SR - uRR) / (SR - ustar))%A in
  let rstarRRy := (rRR * (ST - vRR) / (ST - vstar))%A in
  let AstarRR := (aRR * (ST - vRR) / (ST - vstar))%A in
  let rstarRR := (rRR * (SR - uRR) / (SR - ustar) * (ST - vRR) / (ST - vstar))%A in
  let EstarRRx := (ustar * BstarRR - vRR * aRR)%A in
  let EstarRRy := (uRR * bRR - vstar * AstarRR)%A in
  let EstarRR := (ustar * BstarRR - vstar * AstarRR)%A in
  let sc := smallc (mh p) in
  let calfvenL := FMAX5 (absv aLR / sqr rstarLRx)%A (absv AstarLR / sqr rstarLR)%A
                        (absv aLL / sqr rstarLLx)%A (absv AstarLL / sqr rstarLL)%A sc in
  let calfvenR := FMAX5 (absv aRR / sqr rstarRRx)%A (absv AstarRR / sqr rstarRR)%A
                        (absv aRL / sqr rstarRLx)%A (absv AstarRL / sqr rstarRL)%A sc in
  let calfvenB := FMAX5 (absv bLL / sqr rstarLLy)%A (absv BstarLL / sqr rstarLL)%A
                        (absv bRL / sqr rstarRLy)%A (absv BstarRL / sqr rstarRL)%A sc in
  let calfvenT := FMAX5 (absv bLR / sqr rstarLRy)%A (absv BstarLR / sqr rstarLR)%A
                        (absv bRR / sqr rstarRRy)%A (absv BstarRR / sqr rstarRR)%A sc in
  let SAL := minv (ustar - calfvenL)%A zero in
  let SAR := maxv (ustar + calfvenR)%A zero in
  let SAB := minv (vstar - calfvenB)%A zero in
  let SAT := maxv (vstar + calfvenT)%A zero in
  let AstarT := ((SAR * AstarRR - SAL * AstarLR) / (SAR - SAL))%A in
  let AstarB := ((SAR * AstarRL - SAL * AstarLL) / (SAR - SAL))%A in
  let BstarR := ((SAT * BstarRR - SAB * BstarRL) / (SAT - SAB))%A in
  let BstarL := ((SAT * BstarLR - SAB * BstarLL) / (SAT - SAB))%A in
  MagMid SL SR SB ST SAL SAR SAB SAT EstarLLx EstarLLy EstarLL EstarLRx EstarLRy EstarLR
         EstarRLx EstarRLy EstarRL EstarRRx EstarRRy EstarRR AstarT AstarB BstarR BstarL.

(** Candidate values of the electromotive force, lines 585-612. *)
Definition mag_center (m : mag_mid) : T :=
  ((wSAL m * wSAB m * wERR m - wSAL m * wSAT m * wERL m - wSAR m * wSAB m * wELR m
    + wSAR m * wSAT m * wELL m) / (wSAR m - wSAL m) / (wSAT m - wSAB m)
   - wSAT m * wSAB m / (wSAT m - wSAB m) * (wAT m - wAB m)
   + wSAR m * wSAL m / (wSAR m - wSAL m) * (wBR m - wBL m))%A.
Definition mag_bottom (m : mag_mid) (bLL bRL : T) : T :=
  ((wSAR m * wELLx m - wSAL m * wERLx m + wSAR m * wSAL m * (bRL - bLL)) / (wSAR m - wSAL m))%A.
Definition mag_top (m : mag_mid) (bLR bRR : T) : T :=
  ((wSAR m * wELRx m - wSAL m * wERRx m + wSAR m * wSAL m * (bRR - bLR)) / (wSAR m - wSAL m))%A.
Definition mag_left (m : mag_mid) (aLL aLR : T) : T :=
  ((wSAT m * wELLy m - wSAB m * wELRy m - wSAT m * wSAB m * (aLR - aLL)) / (wSAT m - wSAB m))%A.
Definition mag_right (m : mag_mid) (aRL aRR : T) : T :=
  ((wSAT m * wERLy m - wSAB m * wERRy m - wSAT m * wSAB m * (aRR - aRL)) / (wSAT m - wSAB m))%A.

(** Lines 573-612. *)
Definition mag_riemann2d_hlld (qLL qRL qLR qRR : ms T) (ELL ERL ELR ERR : T) : T :=
  let m := mag_middle qLL qRL qLR qRR in
  let B := posb (wSB m) in let Tp := posb (wST m) in let L := posb (wSL m) in let R := posb (wSR m) in
  let E := (zero + b2t (negb B && Tp && negb L && R) * mag_center m)%A in
  let tmp := mag_bottom m (mB qLL) (mB qRL) in
  let tmp := (b2t L * ELL + b2t (negb L && negb R) * ERL + b2t (negb L && R) * tmp)%A in
  let E := (E + b2t B * tmp)%A in
  let tmp := mag_top m (mB qLR) (mB qRR) in
  let tmp := (b2t L * ELR + b2t (negb L && negb R) * ERR + b2t (negb L && R) * tmp)%A in
  let E := (E + b2t (negb B && negb Tp) * tmp)%A in
  let E := (E + b2t (negb B && Tp && L) * mag_left m (mA qLL) (mA qLR))%A in
  (E + b2t (negb B && Tp && negb L && negb R) * mag_right m (mA qRL) (mA qRR))%A.

(** The velocity and field components in the plane orthogonal to [d]
    (RiemannSolvers_MHD.h:703-831): (first, second, orthogonal). *)
Definition rot_emf (d : emfdir) (q : ms T) : ms T :=
  match d with
  | EMFZ => q
  | EMFY => MS (mD q) (mP q) (mW q) (mU q) (mV q) (mC q) (mA q) (mB q)
  | EMFX => MS (mD q) (mP q) (mV q) (mW q) (mU q) (mB q) (mC q) (mA q)
  end.

(** compute_emf<emfDir>, RiemannSolvers_MHD.h:651-874. *)
Definition compute_emf (d : emfdir) (qRT qRB qLT qLB : ms T) : T :=
  let rt := rot_emf d qRT in let lt := rot_emf d qLT in
  let rb := rot_emf d qRB in let lb := rot_emf d qLB in
  let mk q bx by_ := with_P (with_B (with_A q bx) by_) (iso_pressure q) in
  let qLL := mk rt (half * (mA rt + mA lt))%A (half * (mB rt + mB rb))%A in
  let qRL := mk lt (half * (mA rt + mA lt))%A (half * (mB lt + mB lb))%A in
  let qLR := mk rb (half * (mA rb + mA lb))%A (half * (mB rt + mB rb))%A in
  let qRR := mk lb (half * (mA rb + mA lb))%A (half * (mB lt + mB lb))%A in
  let E q := (mU q * mB q - mV q * mA q)%A in
  mag_riemann2d_hlld qLL qRL qLR qRR (E qLL) (E qRL) (E qLR) (E qRR).
End Mhd.
