(** The hydrodynamics Riemann solvers, src/shared/RiemannSolvers.h.

    Every solver is a C++ template over the state type; the boolean [d3] is the
    compile-time test [std::is_same<HydroState, HydroState3d>::value].
    Output parameters are results of the model functions.  The output [qgdnv]
    (Godunov state) is not used by any caller and is not returned. *)
From Coq Require Import ZArith.
From Verif Require Import Arith HydroState.
Open Scope arith_scope.

Section Riemann.
Context {T : Type} {A : Arith T}.
Variable p : hparams T.
Variable d3 : bool.

(** cmpflx, src/shared/RiemannSolvers.h:19-48. *)
Definition cmpflx (q : hs T) : hs T :=
  let fD := hD q * hU q in
  let fU := fD * hU q + hP q in
  let fV := fD * hV q in
  let fW := if d3 then fD * hW q else zero in
  let entho := one / (gamma0 p - one) in
  let ekin := half * hD q * (hU q * hU q + hV q * hV q) in
  let ekin := if d3 then ekin + half * hD q * (hW q * hW q) else ekin in
  let etot := hP q * entho + ekin in
  HS fD (hU q * (etot + hP q)) fU fV fW.

(** Newton-Raphson loop, src/shared/RiemannSolvers.h:94-106. *)
Fixpoint newton (fuel : nat) (pl pr ul ur cl cr pold conv : T) : T :=
  match fuel with
  | O => pold
  | S fuel =>
    if lit 1 1000000 <? conv then
      let wwl := sqr (cl * (one + gamma6 p * (pold - pl) / pl)) in
      let wwr := sqr (cr * (one + gamma6 p * (pold - pr) / pr)) in
      let ql := two * wwl * wwl * wwl / (wwl * wwl + cl) in
      let qr := two * wwr * wwr * wwr / (wwr * wwr + cr) in
      let usl := ul - (pold - pl) / wwl in
      let usr := ur + (pold - pr) / wwr in
      let delp := maxv (qr * ql / (qr + ql) * (usl - usr)) (- pold) in
      let pold := pold + delp in
      newton fuel pl pr ul ur cl cr pold (absv (delp / (pold + smallpp p)))
    else pold
  end.

(** Star-region pressure: first guess (lines 82-91) improved by at most ten
    Newton steps (line 94). *)
Definition approx_pstar (rl ul pl rr ur pr : T) : T :=
  let cl := gamma0 p * pl * rl in
  let cr := gamma0 p * pr * rr in
  let wl := sqr cl in
  let wr := sqr cr in
  let pstar := maxv (((wr * pl + wl * pr) + wl * wr * (ul - ur)) / (wl + wr)) zero in
  newton 10 pl pr ul ur cl cr pstar one.

(** lines 111-112 *)
Definition approx_w (r pp pstar : T) : T :=
  sqr (gamma0 p * pp * r * (one + gamma6 p * (pstar - pp) / pp)).

(** line 116 *)
Definition approx_ustar (rl ul pl rr ur pr pstar : T) : T :=
  half * (ul + (pl - pstar) / approx_w rl pl pstar + ur - (pr - pstar) / approx_w rr pr pstar).

(** Sampling at x/t=0, lines 137-181: density, velocity, pressure. *)
Definition approx_sample (sgnm ro uo po wo pstar ustar : T) : T * T * T :=
  let co := maxv (smallc p) (sqr (absv (gamma0 p * po / ro))) in
  let rstar := maxv (ro / (one + ro * (po - pstar) / (wo * wo))) (smallr p) in
  let cstar := maxv (smallc p) (sqr (absv (gamma0 p * pstar / rstar))) in
  let spout := co - sgnm * uo in
  let spin := cstar - sgnm * ustar in
  let ushock := wo / ro - sgnm * uo in
  let '(spin, spout) := if po <=? pstar then (ushock, ushock) else (spin, spout) in
  let scr := maxv (spout - spin) (smallc p + absv (spout + spin)) in
  let frac := half * (one + (spout + spin) / scr) in
  let frac := if negb (frac =? frac) then zero
              else if one <=? frac then one else if frac <=? zero then zero else frac in
  let q := (frac * rstar + (one - frac) * ro,
            frac * ustar + (one - frac) * uo,
            frac * pstar + (one - frac) * po) in
  let q := if spout <? zero then (ro, uo, po) else q in
  let q := if zero <? spin then (rstar, ustar, pstar) else q in
  q.

(** riemann_approx, src/shared/RiemannSolvers.h:59-199. *)
Definition riemann_approx (ql qr : hs T) : hs T :=
  let rl := maxv (hD ql) (smallr p) in
  let ul := hU ql in
  let pl := maxv (hP ql) (rl * smallp p) in
  let rr := maxv (hD qr) (smallr p) in
  let ur := hU qr in
  let pr := maxv (hP qr) (rr * smallp p) in
  let pstar := approx_pstar rl ul pl rr ur pr in
  let wl := approx_w rl pl pstar in
  let wr := approx_w rr pr pstar in
  let ustar := approx_ustar rl ul pl rr ur pr pstar in
  let sgnm := copysign1 ustar in
  let '(gD, gU, gP) :=
    if zero <? sgnm then approx_sample sgnm rl ul pl wl pstar ustar
    else approx_sample sgnm rr ur pr wr pstar ustar in
  let gV := if zero <? sgnm then hV ql else hV qr in
  let gW := if d3 then (if zero <? sgnm then hW ql else hW qr) else zero in
  cmpflx (HS gD gP gU gV gW).

(** Conservative variables, lines 257-287 and 382-404. *)
Definition cons_of (q : hs T) : hs T :=
  let entho := one / (gamma0 p - one) in
  let e := hP q * entho + half * hD q * hU q * hU q in
  let e := e + half * hD q * hV q * hV q in
  let e := if d3 then e + half * hD q * hW q * hW q else e in
  HS (hD q) e (hD q * hU q) (hD q * hV q) (if d3 then hD q * hW q else zero).

(** Lax-Friedrichs fluxes of one side, lines 292-313. *)
Definition llf_side (q u : hs T) : hs T :=
  let fD := hD u * hU q in
  HS fD (hU q * (hP u + hP q)) (hP q + hU u * hU q) (fD * hV q)
     (if d3 then fD * hW q else zero).

(** HLL fluxes of one side, lines 407-422. *)
Definition hll_side (q u : hs T) : hs T :=
  let fD := hU u in
  HS fD (hU q * (hP u + hP q)) (hP q + hU u * hU q) (fD * hV q)
     (if d3 then fD * hW q else zero).

(** Componentwise combination of four vectors: the loops
    [for nVar < HYDRO_2D_NBVAR] followed by the IW entry in 3D
    (lines 318-325, 425-433). *)
Definition comb4 (f : T -> T -> T -> T -> T) (a b c d : hs T) : hs T :=
  HS (f (hD a) (hD b) (hD c) (hD d)) (f (hP a) (hP b) (hP c) (hP d))
     (f (hU a) (hU b) (hU c) (hU d)) (f (hV a) (hV b) (hV c) (hV d))
     (if d3 then f (hW a) (hW b) (hW c) (hW d) else zero).

(** riemann_llf, src/shared/RiemannSolvers.h:217-327. *)
Definition riemann_llf (ql qr : hs T) : hs T :=
  let rl := maxv (hD ql) (smallr p) in
  let ul := hU ql in
  let pl := maxv (hP ql) (rl * smallp p) in
  let rr := maxv (hD qr) (smallr p) in
  let ur := hU qr in
  let pr := maxv (hP qr) (rr * smallp p) in
  let cl := sqr (gamma0 p * pl / rl) in
  let cr := sqr (gamma0 p * pr / rr) in
  let cmax := maxv (absv ul + cl) (absv ur + cr) in
  let uleft := cons_of ql in
  let uright := cons_of qr in
  comb4 (fun fl fr ul ur => half * (fl + fr - cmax * (ur - ul)))
        (llf_side ql uleft) (llf_side qr uright) uleft uright.

(** riemann_hll, src/shared/RiemannSolvers.h:343-435. *)
Definition riemann_hll (ql qr : hs T) : hs T :=
  let rl := maxv (hD ql) (smallr p) in
  let ul := hU ql in
  let pl := maxv (hP ql) (rl * smallp p) in
  let rr := maxv (hD qr) (smallr p) in
  let ur := hU qr in
  let pr := maxv (hP qr) (rr * smallp p) in
  let cl := sqr (gamma0 p * pl / rl) in
  let cr := sqr (gamma0 p * pr / rr) in
  let SL := minv (minv ul ur - maxv cl cr) zero in
  let SR := maxv (maxv ul ur + maxv cl cr) zero in
  let uleft := cons_of ql in
  let uright := cons_of qr in
  comb4 (fun fl fr ul ur => (SR * fl - SL * fr + SR * SL * (ur - ul)) / (SR - SL))
        (hll_side ql uleft) (hll_side qr uright) uleft uright.

(** Kinetic energy of a side in riemann_hllc, lines 467-470, 480-483. *)
Definition hllc_ecin (r u : T) (q : hs T) : T :=
  let e := half * r * u * u in
  let e := e + half * r * hV q * hV q in
  if d3 then e + half * r * hW q * hW q else e.

(** riemann_hllc, src/shared/RiemannSolvers.h:445-568. *)
Definition riemann_hllc (ql qr : hs T) : hs T :=
  let entho := one / (gamma0 p - one) in
  let rl := maxv (hD ql) (smallr p) in
  let pl := maxv (hP ql) (rl * smallp p) in
  let ul := hU ql in
  let etotl := pl * entho + hllc_ecin rl ul ql in
  let ptotl := pl in
  let rr := maxv (hD qr) (smallr p) in
  let pr := maxv (hP qr) (rr * smallp p) in
  let ur := hU qr in
  let etotr := pr * entho + hllc_ecin rr ur qr in
  let ptotr := pr in
  let cfastl := sqr (maxv (gamma0 p * pl / rl) (smallc p * smallc p)) in
  let cfastr := sqr (maxv (gamma0 p * pr / rr) (smallc p * smallc p)) in
  let SL := minv ul ur - maxv cfastl cfastr in
  let SR := maxv ul ur + maxv cfastl cfastr in
  let rcl := rl * (ul - SL) in
  let rcr := rr * (SR - ur) in
  let ustar := (rcr * ur + rcl * ul + (ptotl - ptotr)) / (rcr + rcl) in
  let ptotstar := (rcr * ptotl + rcl * ptotr + rcl * rcr * (ul - ur)) / (rcr + rcl) in
  let rstarl := rl * (SL - ul) / (SL - ustar) in
  let etotstarl := ((SL - ul) * etotl - ptotl * ul + ptotstar * ustar) / (SL - ustar) in
  let rstarr := rr * (SR - ur) / (SR - ustar) in
  let etotstarr := ((SR - ur) * etotr - ptotr * ur + ptotstar * ustar) / (SR - ustar) in
  let '(ro, uo, ptoto, etoto) :=
    if zero <? SL then (rl, ul, ptotl, etotl)
    else if zero <? ustar then (rstarl, ustar, ptotstar, etotstarl)
    else if zero <? SR then (rstarr, ustar, ptotstar, etotstarr)
    else (rr, ur, ptotr, etotr) in
  let fD := ro * uo in
  HS fD ((etoto + ptoto) * uo) (ro * uo * uo + ptoto)
     (if zero <? fD then fD * hV ql else fD * hV qr)
     (if d3 then (if zero <? fD then fD * hW ql else fD * hW qr) else zero).
End Riemann.

(** riemann_hydro for 2D states, src/shared/RiemannSolvers.h:573-603.  [flux0]
    is the content of the output variable before the call: every caller passes
    an uninitialised local variable. *)
Definition riemann_hydro2 {T} {A : Arith T} (p : hparams T) (ql qr flux0 : hs T) : hs T :=
  if Z.eqb (riemann_type p) RIEMANN_APPROX then riemann_approx p false ql qr
  else if Z.eqb (riemann_type p) RIEMANN_HLL then riemann_hll p false ql qr
  else if Z.eqb (riemann_type p) RIEMANN_HLLC then riemann_hllc p false ql qr
  else if Z.eqb (riemann_type p) RIEMANN_LLF then riemann_llf p false ql qr
  else flux0.

(** riemann_hydro for 3D states, src/shared/RiemannSolvers.h:608-633. *)
Definition riemann_hydro3 {T} {A : Arith T} (p : hparams T) (ql qr flux0 : hs T) : hs T :=
  if Z.eqb (riemann_type p) RIEMANN_APPROX then riemann_approx p true ql qr
  else if Z.eqb (riemann_type p) RIEMANN_HLLC then riemann_hllc p true ql qr
  else if Z.eqb (riemann_type p) RIEMANN_LLF then riemann_llf p true ql qr
  else flux0.
