(** Initial conditions of the MOOD solver: src/mood/MoodInitFunctors.h and the choice of
    the problem, src/mood/SolverHydroMood.h:385-423, 1530-1650.

    Blast and four quadrants are the formulas of the finite volume solver (HydroInit.v),
    the wedge that of the spectral difference solver (SdmInit.v), written again here in
    the code.  A value that an iteration writes and reads back at once is reused instead
    of re-read.  The flat loops over all cells are loops over the cells. *)
From Coq Require Import ZArith List Bool.
From Verif Require Import Arith Par GridModel HydroState HydroKernels CellKernels MhdState MoodKernels MhdInit HydroInit
  TaskModel SdmGeom SdmKernels SdmInit.
Import ListNotations.
Open Scope Z_scope.

(** The parameters of the vortex the other solvers do not use: the ambient velocity along
    z and the number of quadrature points (IsentropicVortexParams.h:49, 60). *)
Record mvortex (T : Type) := MVortex { mv_vortex : vortex T; mv_w : T; mv_points : Z }.
Arguments MVortex {T}. Arguments mv_vortex {T}. Arguments mv_w {T}. Arguments mv_points {T}.

Section MoodInit.
Context {T : Type} {A : Arith T}.
Variable m : slibm T.
Notation hmm := (sm m).
Notation lm := (hm (sm m)).
Variable b3 : bool.
Variable g : grid.
Variable h : hparams T.
Variable bx : MhdInit.box T.

(** x = xmin + dx/2 + (i - ghostWidth)*dx: the place of the process in the decomposition
    is not used, e.g. MoodInitFunctors.h:70-71, 118-120, 205-206, 536-537, 781-782, 1129-1130. *)
Definition mpx (i : Z) : T := (xmin bx + dx h / two + ofZ (i - gw g)%Z * dx h)%A.
Definition mpy (j : Z) : T := (ymin bx + dy h / two + ofZ (j - gw g)%Z * dy h)%A.
Definition mpz (k : Z) : T := (zmin bx + dz h / two + ofZ (k - gw g)%Z * dz h)%A.

(** ** Implosion: InitImplodeFunctor 51-90 (2D), 96-140 (3D) *)
Definition mimplode (x y z : T) : list (Z * T) :=
  if (if b3 then let tmp := (x + y + z)%A in (lit 1 2 <? tmp)%A && (tmp <? lit 5 2)%A
      else let tmp := (x + y)%A in (lit 1 2 <? tmp)%A)
  then cons_assign b3 one (one / (gamma0 h - one))%A zero zero zero
  else cons_assign b3 (lit 1 8) (lit 14 100 / (gamma0 h - one))%A zero zero zero.

(** ** Kelvin-Helmholtz: InitKelvinHelmholtzFunctor 505-600 (2D), 606-722 (3D).  The energy is
    computed from the momenta.  Without p_rand and p_sine_rob nothing is assigned. *)
Definition mkh_assign (q : kh T) (d mu mv mw : T) : list (Z * T) :=
  cons_assign b3 d
    (kh_pressure q / (gamma0 h - one) + half * (if b3 then mu * mu + mv * mv + mw * mw else mu * mu + mv * mv) / d)%A
    mu mv mw.
Definition mkh (rnd : Z -> T) (q : kh T) (x y z : T) : list (Z * T) :=
  let s := if b3 then z else y in
  let n := ofZ (kh_mode q) in
  if kh_rand q then
    let sn := if b3 then ((z - zmin bx) / (zmax bx - zmin bx))%A else ((y - ymin bx) / (ymax bx - ymin bx))%A in
    let out := (sn <? lit 1 4)%A || (lit 3 4 <? sn)%A in
    let d := if out then kh_d_out q else kh_d_in q in
    mkh_assign q d
      (d * ((if out then kh_v_out q else kh_v_in q) + kh_amplitude q * (rnd 0 - lit 1 2)))%A
      (d * (zero + kh_amplitude q * (rnd 1 - lit 1 2)))%A
      (d * (zero + kh_amplitude q * (rnd 2 - lit 1 2)))%A
  else if kh_sine_rob q then
    let ramp := (one / (one + fexp lm (two * (s - lit 1 4) / kh_delta q))
                 + one / (one + fexp lm (two * (lit 3 4 - s) / kh_delta q)))%A in
    let d := (kh_d_in q + ramp * (kh_d_out q - kh_d_in q))%A in
    let mu := (d * (kh_v_in q + ramp * (kh_v_out q - kh_v_in q)))%A in
    if b3 then
      mkh_assign q d mu (d * (kh_v_in q / two + ramp * (kh_v_out q / two - kh_v_in q / two)))%A
        (d * kh_w0 q * fsin lm (n * fpi lm * x) * fsin lm (n * fpi lm * y))%A
    else mkh_assign q d mu (d * kh_w0 q * fsin lm (n * fpi lm * x))%A zero
  else [].

(** ** Isentropic vortex: InitIsentropicVortexFunctor *)
(** compute_T 907-919, compute_rho 921-929, compute_u 931-944, compute_v 946-959. *)
Definition mv_r2 (q : vortex T) (x y : T) : T :=
  let xp := (x - iv_x q)%A in let yp := (y - iv_y q)%A in
  let r := sqr (xp * xp + yp * yp)%A in (r * r)%A.
Definition compute_T (q : vortex T) (x y : T) : T :=
  (iv_T q - (gamma0 h - one) * iv_beta q * iv_beta q / (ofZ 8 * gamma0 h * fpi lm * fpi lm) * fexp lm (one - mv_r2 q x y))%A.
Definition compute_rho (q : vortex T) (x y : T) : T :=
  (iv_rho q * fpow hmm (compute_T q x y / iv_T q) (one / (gamma0 h - one)))%A.
Definition compute_u (q : vortex T) (x y : T) : T :=
  (iv_u q + - (y - iv_y q) * iv_beta q / (two * fpi lm) * fexp lm (half * (one - mv_r2 q x y)))%A.
Definition compute_v (q : vortex T) (x y : T) : T :=
  (iv_v q + (x - iv_x q) * iv_beta q / (two * fpi lm) * fexp lm (half * (one - mv_r2 q x y)))%A.
Definition compute_e (q : vortex T) (w x y : T) : T :=
  let rho := compute_rho q x y in let u := compute_u q x y in let v := compute_v q x y in
  (rho * compute_T q x y / (gamma0 h - one) + half * rho * (u * u + v * v + w * w))%A.

(** pos_x (or pos_y) and weights for nQuadPts = 2, 3, 4 (1000-1010, 1035-1048, 1073-1091). *)
Definition gauss (n : Z) (x d : T) : list (T * T) :=
  if n =? 2 then [((x - half * d * one / sqr (ofZ 3))%A, half); ((x + half * d * one / sqr (ofZ 3))%A, half)]
  else if n =? 3 then
    [((x - half * d * sqr (ofZ 3) / sqr (ofZ 5))%A, (lit 5 2 / ofZ 9)%A); (x, (ofZ 4 / ofZ 9)%A);
     ((x + half * d * sqr (ofZ 3) / sqr (ofZ 5))%A, (lit 5 2 / ofZ 9)%A)]
  else if n =? 4 then
    let a := sqr (ofZ 3 / ofZ 7 - two / ofZ 7 * sqr (ofZ 6 / ofZ 5))%A in
    let b := sqr (ofZ 3 / ofZ 7 + two / ofZ 7 * sqr (ofZ 6 / ofZ 5))%A in
    let wa := (half * (half + sqr (ofZ 30) / ofZ 36))%A in
    let wb := (half * (half - sqr (ofZ 30) / ofZ 36))%A in
    [((x - half * d * a)%A, wa); ((x + half * d * a)%A, wa); ((x - half * d * b)%A, wb); ((x + half * d * b)%A, wb)]
  else [].
(** compute_HydroState_with_quadrature (961-1103), one component: the value at the centre
    for one point, otherwise the sum over jj (outer) and ii (inner). *)
Definition quadrature (n : Z) (f : T -> T -> T) (x y : T) : T :=
  if n =? 1 then f x y
  else fold_left (fun acc b => fold_left (fun acc a => (acc + f (fst a) (fst b) * snd a * snd b)%A) (gauss n x (dx h)) acc)
         (gauss n y (dy h)) zero.
(** The four components of q; [junk v] is what the memory at q[v] holds without an
    assignment: nQuadPts other than 1, 2, 3, 4, or v beyond the end of the array. *)
Definition mv_state (q : mvortex T) (junk : Z -> T) (x y : T) (v : Z) : T :=
  let n := mv_points q in let a := mv_vortex q in
  if (1 <=? n) && (n <=? 4) then
    if v =? ID then quadrature n (compute_rho a) x y
    else if v =? IU then quadrature n (fun x y => compute_rho a x y * compute_u a x y)%A x y
    else if v =? IV then quadrature n (fun x y => compute_rho a x y * compute_v a x y)%A x y
    else if v =? IP then quadrature n (compute_e a (mv_w q)) x y
    else junk v
  else junk v.
(** 1109-1140 (2D), 1146-1186 (3D): in 3D the energy is q[IW], the fifth of four components. *)
Definition mv_cell (q : mvortex T) (junk : Z -> T) (x y : T) : list (Z * T) :=
  let s := mv_state q junk x y in
  cons_assign b3 (s ID) (if b3 then s IW else s IP) (s IU) (s IV) (s ID * mv_w q)%A.

(** ** Choice of the problem: SolverHydroMood.h:385-423.  A name that is not recognised gives
    the four quadrants. *)
Inductive mproblem : Type :=
  | MImplode | MBlast (q : blast T) | MFourQuadrant (n : Z) (xt yt : T) | MKelvinHelmholtz (rnd : cell -> Z -> T) (q : kh T)
  | MWedge (q : wedge T) | MVortexP (q : mvortex T).
Definition mcell (junk : cell -> Z -> T) (pr : mproblem) (c : cell) : list (Z * T) :=
  let '(i, j, k) := c in
  let x := mpx i in let y := mpy j in let z := mpz k in
  match pr with
  | MImplode => mimplode x y z
  | MBlast q => hblast b3 h q x y z
  | MFourQuadrant n xt yt => hfour b3 h n xt yt x y
  | MKelvinHelmholtz rnd q => mkh (rnd c) q x y z
  | MWedge q => swedge m b3 q x y
  | MVortexP q => mv_cell q (junk c) x y
  end.
Definition init_mood (junk : cell -> Z -> T) (pr : mproblem) : list (list (prog T unit)) :=
  [md_for (cellsD b3 g) (fun c => assign aU c (mcell junk pr c))].
End MoodInit.
Arguments mproblem : clear implicits.
