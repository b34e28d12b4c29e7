(** Initial conditions of the hydrodynamics test problems: src/muscl/HydroInitFunctors2D.h,
    src/muscl/HydroInitFunctors3D.h, src/shared/problems/initRiemannConfig2d.h,
    DiskParams.h, PointSourceGravity.h and the choice of the problem,
    src/muscl/SolverHydroMuscl.cpp:66-247 (restart: not here).

    The code writes each problem twice, for 2D and for 3D.  The model has one
    definition with a flag [b3] where the two versions are alike; a 2D cell (i,j)
    is (i,j,0).  A value that an iteration writes and reads back at once (e.g.
    [Udata(i,j,ID)] in the energy) is reused instead of re-read.  The gravity array
    exists here also when the settings do not enable gravity (in the code it is then
    not allocated, SolverHydroMuscl.h:242-246, 282-286). *)
From Coq Require Import ZArith List Bool.
From Verif Require Import Arith Par GridModel HydroState HydroKernels MhdState MoodKernels MhdInit.
Import ListNotations.
Open Scope Z_scope.
Open Scope prog_scope.

(** Further functions of <math.h>: log, pow, atan2. *)
Record hlibm (T : Type) := HLibm { hm : libm T; flog : T -> T; fpow : T -> T -> T; fatan2 : T -> T -> T }.
Arguments HLibm {T}. Arguments hm {T}. Arguments flog {T}. Arguments fpow {T}. Arguments fatan2 {T}.

(** Problem parameters: src/shared/problems/GreshoParams.h:17-36,
    IsentropicVortexParams.h:14-66, RayleighTaylorInstabilityParams.h:14-37,
    RisingBubbleParams.h:15-43, DiskParams.h:14-67, PointSourceGravity.h:17-40.
    (Implosion, blast and Kelvin-Helmholtz: MhdInit.v.) *)
Record gresho (T : Type) := Gresho { gr_rho0 : T; gr_Ma : T; gr_u : T; gr_v : T; gr_w : T }.
Record vortex (T : Type) := Vortex { iv_rho : T; iv_p : T; iv_T : T; iv_u : T; iv_v : T;
  iv_x : T; iv_y : T; iv_beta : T }.
Record rayleigh (T : Type) := Rayleigh { rt_amplitude : T; rt_d0 : T; rt_d1 : T;
  rt_gx : T; rt_gy : T; rt_gz : T }.
Record bubble (T : Type) := Bubble { rb_R : T; rb_x0 : T; rb_y0 : T; rb_z0 : T; rb_din : T; rb_dout : T;
  rb_gx : T; rb_gy : T; rb_gz : T }.
Record disk (T : Type) := Disk { dk_radius : T; dk_radius_inner : T; dk_xc : T; dk_yc : T; dk_zc : T;
  dk_density : T; dk_contrast : T; dk_width : T; dk_sound : T }.
Record source (T : Type) := Source { ps_x : T; ps_y : T; ps_z : T; ps_GM : T; ps_eps : T }.
Arguments Gresho {T}. Arguments gr_rho0 {T}. Arguments gr_Ma {T}. Arguments gr_u {T}. Arguments gr_v {T}.
Arguments gr_w {T}.
Arguments Vortex {T}. Arguments iv_rho {T}. Arguments iv_p {T}. Arguments iv_T {T}. Arguments iv_u {T}.
Arguments iv_v {T}. Arguments iv_x {T}. Arguments iv_y {T}. Arguments iv_beta {T}.
Arguments Rayleigh {T}. Arguments rt_amplitude {T}. Arguments rt_d0 {T}. Arguments rt_d1 {T}.
Arguments rt_gx {T}. Arguments rt_gy {T}. Arguments rt_gz {T}.
Arguments Bubble {T}. Arguments rb_R {T}. Arguments rb_x0 {T}. Arguments rb_y0 {T}. Arguments rb_z0 {T}.
Arguments rb_din {T}. Arguments rb_dout {T}. Arguments rb_gx {T}. Arguments rb_gy {T}. Arguments rb_gz {T}.
Arguments Disk {T}. Arguments dk_radius {T}. Arguments dk_radius_inner {T}. Arguments dk_xc {T}.
Arguments dk_yc {T}. Arguments dk_zc {T}. Arguments dk_density {T}. Arguments dk_contrast {T}.
Arguments dk_width {T}. Arguments dk_sound {T}.
Arguments Source {T}. Arguments ps_x {T}. Arguments ps_y {T}. Arguments ps_z {T}. Arguments ps_GM {T}.
Arguments ps_eps {T}.

Section HydroInit.
Context {T : Type} {AT : Arith T}.
Variable m : hlibm T.
Variable b3 : bool.
Variable g : grid.
Variable h : hparams T.
Variable bx : box T.

(** x = xmin + dx/2 + (i + nx*i_mpi - ghostWidth)*dx, e.g. HydroInitFunctors2D.h:83-84,
    HydroInitFunctors3D.h:123-125. *)
Definition hx (i : Z) : T := (xmin bx + dx h / two + ofZ (i + nx g * mpi bx IX - gw g)%Z * dx h)%A.
Definition hy (j : Z) : T := (ymin bx + dy h / two + ofZ (j + ny g * mpi bx IY - gw g)%Z * dy h)%A.
Definition hz (k : Z) : T := (zmin bx + dz h / two + ofZ (k + nz g * mpi bx IZ - gw g)%Z * dz h)%A.

(** The assignments to the cell of [Udata]; IW exists in 3D only. *)
Definition cons_assign (d e mu mv mw : T) : list (Z * T) :=
  [(ID, d); (IP, e); (IU, mu); (IV, mv)] ++ (if b3 then [(IW, mw)] else []).
(** ... and of the gravity field. *)
Definition grav_assign (gx gy gz : T) : list (Z * T) :=
  [(IX, gx); (IY, gy)] ++ (if b3 then [(IZ, gz)] else []).

(** ** Implosion: InitImplodeFunctor2D 57-119, InitImplodeFunctor3D 91-164 *)
Definition himplode_region (q : implode T) (x y z : T) : bool :=
  if im_shape q =? 1 then
    let s := if b3 then (x + y + z)%A else (x + y * y)%A in
    (lit 1 2 <? s)%A && (s <? (if b3 then lit 5 2 else lit 3 2))%A
  else if b3 then ((xmin bx + xmax bx) / two + ymin bx + zmin bx <? x + y + z)%A
  else ((xmin bx + xmax bx) / two + ymin bx <? x + y)%A.
Definition himplode_state (q : ms T) : list (Z * T) :=
  cons_assign (mD q)
    (mP q / (gamma0 h - one)
     + half * mD q * (if b3 then mU q * mU q + mV q * mV q + mW q * mW q else mU q * mU q + mV q * mV q))%A
    (mU q) (mV q) (mW q).
Definition himplode (q : implode T) (x y z : T) : list (Z * T) :=
  himplode_state (if himplode_region q x y z then im_out q else im_in q).

(** ** Blast: InitBlastFunctor2D 151-206, InitBlastFunctor3D 196-261 *)
Definition hblast_inside (q : blast T) (x y z : T) : bool :=
  let a := (x - bl_x q)%A in let b := (y - bl_y q)%A in let c := (z - bl_z q)%A in
  ((if b3 then a * a + b * b + c * c else a * a + b * b) <? bl_radius q * bl_radius q)%A.
(** The blast that BlastParams.h:22-42 gives without a section [blast] of the parameter file. *)
Definition default_blast : blast T :=
  Blast ((xmin bx + xmax bx) / two / ofZ 10)%A ((xmin bx + xmax bx) / two)%A ((ymin bx + ymax bx) / two)%A
    ((zmin bx + zmax bx) / two)%A one (lit 12 10) (ofZ 10) (lit 1 10).
Definition hblast (q : blast T) (x y z : T) : list (Z * T) :=
  if hblast_inside q x y z
  then cons_assign (bl_rho_in q) (bl_p_in q / (gamma0 h - one))%A zero zero zero
  else cons_assign (bl_rho_out q) (bl_p_out q / (gamma0 h - one))%A zero zero zero.

(** ** Kelvin-Helmholtz: InitKelvinHelmholtzFunctor2D 239-338, InitKelvinHelmholtzFunctor3D
    294-415.  [rnd c n]: the n-th number drawn by the generator at cell c.  The flag
    p_sine is not used; without p_rand and p_sine_rob nothing is assigned. *)
Definition hkh_assign (q : kh T) (d u v w : T) : list (Z * T) :=
  cons_assign d
    (kh_pressure q / (gamma0 h - one) + half * d * (if b3 then u * u + v * v + w * w else u * u + v * v))%A
    (d * u)%A (d * v)%A (d * w)%A.
Definition hkh (rnd : Z -> T) (q : kh T) (x y z : T) : list (Z * T) :=
  let s := if b3 then z else y in
  let n := ofZ (kh_mode q) in
  if kh_rand q then
    let sn := if b3 then ((z - zmin bx) / (zmax bx - zmin bx))%A else ((y - ymin bx) / (ymax bx - ymin bx))%A in
    let out := (sn <? lit 1 4)%A || (lit 3 4 <? sn)%A in
    hkh_assign q (if out then kh_d_out q else kh_d_in q)
      ((if out then kh_v_out q else kh_v_in q) + kh_amplitude q * (rnd 0 - lit 1 2))%A
      (zero + kh_amplitude q * (rnd 1 - lit 1 2))%A
      (zero + kh_amplitude q * (rnd 2 - lit 1 2))%A
  else if kh_sine_rob q then
    let ramp := (one / (one + fexp (hm m) (two * (s - lit 1 4) / kh_delta q))
                 + one / (one + fexp (hm m) (two * (lit 3 4 - s) / kh_delta q)))%A in
    let d := (kh_d_in q + ramp * (kh_d_out q - kh_d_in q))%A in
    let u := (kh_v_in q + ramp * (kh_v_out q - kh_v_in q))%A in
    if b3 then
      hkh_assign q d u (kh_v_in q / two + ramp * (kh_v_out q / two - kh_v_in q / two))%A
        (kh_w0 q * fsin (hm m) (n * fpi (hm m) * x) * fsin (hm m) (n * fpi (hm m) * y))%A
    else hkh_assign q d u (kh_w0 q * fsin (hm m) (n * fpi (hm m) * x))%A zero
  else [].

(** ** Gresho vortex: InitGreshoVortexFunctor2D 374-443, InitGreshoVortexFunctor3D 451-532.
    The 3D version assigns the same value to the momenta IV and IW (525-526). *)
Definition hgresho_profile (p0 r : T) : T * T :=
  if (r <? lit 2 10)%A then ((ofZ 5 * r)%A, (p0 + ofZ 25 / two * r * r)%A)
  else if (r <? lit 4 10)%A then
    ((two - ofZ 5 * r)%A,
     (p0 + ofZ 25 / two * r * r + ofZ 4 * (one - ofZ 5 * r - flog m (lit 2 10) + flog m r))%A)
  else (zero, (p0 - two + ofZ 4 * flog m two)%A).
Definition hgresho (q : gresho T) (x y z : T) : list (Z * T) :=
  let rho0 := gr_rho0 q in
  let p0 := (rho0 / (gamma0 h * gr_Ma q * gr_Ma q))%A in
  let r := sqr (x * x + y * y)%A in
  let theta := fatan2 m y x in
  let cosT := fcos (hm m) theta in
  let sinT := fsin (hm m) theta in
  let '(uphi, p) := hgresho_profile p0 r in
  let mu := (rho0 * (- sinT * uphi))%A in
  let mv := (rho0 * (cosT * uphi))%A in
  let mw := (rho0 * (cosT * uphi))%A in
  cons_assign rho0
    (p / (gamma0 h - one) + half * (if b3 then mu * mu + mv * mv + mw * mw else mu * mu + mv * mv) / rho0)%A
    mu mv mw.

(** ** Four quadrants: InitFourQuadrantFunctor2D 496-559, SolverHydroMuscl.cpp:70-89,
    initRiemannConfig2d.h:23-38 (primToCons_2D) and 40-509 (getRiemannConfig2d: the
    states of the quadrants 0 to 3, primitive variables). *)
Definition riemann_config (n : Z) : hs T * hs T * hs T * hs T :=
  if n =? 0 then (HS one one zero zero zero,
      HS (lit 5197 10000) (lit 4 10) (lit (-7259) 10000) zero zero,
      HS (lit 1072 10000) (lit 439 10000) (lit (-7259) 10000) (lit (-14045) 10000) zero,
      HS (lit 2579 10000) (lit 15 100) zero (lit (-14045) 10000) zero)
  else if n =? 1 then (HS one one zero zero zero,
      HS (lit 5197 10000) (lit 4 10) (lit (-7259) 10000) zero zero,
      HS one one (lit (-7259) 10000) (lit (-7259) 10000) zero,
      HS (lit 5197 10000) (lit 4 10) zero (lit (-7259) 10000) zero)
  else if n =? 2 then (HS (lit 15 10) (lit 15 10) zero zero zero,
      HS (lit 5323 10000) (lit 3 10) (lit 1206 1000) zero zero,
      HS (lit 138 1000) (lit 29 1000) (lit 1206 1000) (lit 1206 1000) zero,
      HS (lit 5323 10000) (lit 3 10) zero (lit 1206 1000) zero)
  else if n =? 3 then (HS (lit 11 10) (lit 11 10) zero zero zero,
      HS (lit 5065 10000) (lit 35 100) (lit 8939 10000) zero zero,
      HS (lit 11 10) (lit 11 10) (lit 8939 10000) (lit 8939 10000) zero,
      HS (lit 5065 10000) (lit 35 100) zero (lit 8939 10000) zero)
  else if n =? 4 then (HS one one (lit (-75) 100) (lit (-5) 10) zero,
      HS two one (lit (-75) 100) (lit 5 10) zero,
      HS one one (lit 75 100) (lit 5 10) zero,
      HS (lit 3 1) one (lit 75 100) (lit (-5) 10) zero)
  else if n =? 5 then (HS one one (lit 75 100) (lit (-5) 10) zero,
      HS two (lit 5 10) (lit 75 100) (lit 5 10) zero,
      HS one one (lit (-75) 100) (lit 5 10) zero,
      HS (lit 3 1) one (lit (-75) 100) (lit (-5) 10) zero)
  else if n =? 6 then (HS one one (lit 1 10) (lit 1 10) zero,
      HS (lit 5197 10000) (lit 4 10) (lit (-6259) 10000) (lit 1 10) zero,
      HS (lit 8 10) (lit 4 10) (lit 1 10) (lit 1 10) zero,
      HS (lit 5197 10000) (lit 4 10) (lit 1 10) (lit (-6259) 10000) zero)
  else if n =? 7 then (HS (lit 5197 10000) (lit 4 10) (lit 1 10) (lit 1 10) zero,
      HS one one (lit (-6259) 10000) (lit 1 10) zero,
      HS (lit 8 10) one (lit 1 10) (lit 1 10) zero,
      HS one one (lit 1 10) (lit (-6259) 10000) zero)
  else if n =? 8 then (HS one one zero (lit 3 10) zero,
      HS two one zero (lit (-3) 10) zero,
      HS (lit 1039 1000) (lit 4 10) zero (lit (-8133) 10000) zero,
      HS (lit 5197 10000) (lit 4 10) zero (lit (-4259) 10000) zero)
  else if n =? 9 then (HS one one zero (lit 4297 10000) zero,
      HS (lit 5 10) one zero (lit 6076 10000) zero,
      HS (lit 2281 10000) (lit 3333 10000) zero (lit (-6076) 10000) zero,
      HS (lit 4562 10000) (lit 3333 10000) zero (lit (-4259) 10000) zero)
  else if n =? 10 then (HS one one (lit 1 10) zero zero,
      HS (lit 5313 10000) (lit 4 10) (lit 8276 10000) zero zero,
      HS (lit 8 10) (lit 4 10) (lit 1 10) zero zero,
      HS (lit 5313 10000) (lit 4 10) (lit 1 10) (lit 7276 10000) zero)
  else if n =? 11 then (HS (lit 5313 10000) (lit 4 10) zero zero zero,
      HS one one (lit 7276 10000) zero zero,
      HS (lit 8 10) one zero zero zero,
      HS one one zero (lit 7276 10000) zero)
  else if n =? 12 then (HS one one zero (lit (-3) 10) zero,
      HS two one zero (lit 3 10) zero,
      HS (lit 10625 10000) (lit 4 10) zero (lit 8145 10000) zero,
      HS (lit 5313 10000) (lit 4 10) zero (lit 4276 10000) zero)
  else if n =? 13 then (HS two (lit 8 1) zero (lit (-5606) 10000) zero,
      HS one (lit 8 1) zero (lit (-12172) 10000) zero,
      HS (lit 4736 10000) (lit 26667 10000) zero (lit 12172 10000) zero,
      HS (lit 9474 10000) (lit 26667 10000) zero (lit 11606 10000) zero)
  else if n =? 14 then (HS one one (lit 1 10) (lit (-3) 10) zero,
      HS (lit 5197 10000) (lit 4 10) (lit (-6259) 10000) (lit (-3) 10) zero,
      HS (lit 8 10) (lit 4 10) (lit 1 10) (lit (-3) 10) zero,
      HS (lit 5313 10000) (lit 4 10) (lit 1 10) (lit 4276 10000) zero)
  else if n =? 15 then (HS (lit 5313 10000) (lit 4 10) (lit 1 10) (lit 1 10) zero,
      HS (lit 10222 10000) one (lit (-6179) 10000) (lit 1 10) zero,
      HS (lit 8 10) one (lit 1 10) (lit 1 10) zero,
      HS one one (lit 1 10) (lit 8276 10000) zero)
  else if n =? 16 then (HS one one zero (lit (-4) 10) zero,
      HS two one zero (lit (-3) 10) zero,
      HS (lit 10625 10000) (lit 4 10) zero (lit 2145 10000) zero,
      HS (lit 5197 10000) (lit 4 10) zero (lit (-11259) 10000) zero)
  else if n =? 17 then (HS one one zero one zero,
      HS two one zero (lit (-3) 10) zero,
      HS (lit 10625 10000) (lit 4 10) zero (lit 2145 10000) zero,
      HS (lit 5197 10000) (lit 4 10) zero (lit 2741 10000) zero)
  else if n =? 18 then (HS one one zero (lit 3 10) zero,
      HS two one zero (lit (-3) 10) zero,
      HS (lit 10625 10000) (lit 4 10) zero (lit 2145 10000) zero,
      HS (lit 5197 10000) (lit 4 10) zero (lit (-4259) 10000) zero)
  else (HS one one zero zero zero,
      HS (lit 5197 10000) (lit 4 10) (lit (-7259) 10000) zero zero,
      HS (lit 1072 10000) (lit 439 10000) (lit (-7259) 10000) (lit (-14045) 10000) zero,
      HS (lit 2579 10000) (lit 15 100) zero (lit (-14045) 10000) zero).
Definition prim_to_cons (q : hs T) : list (Z * T) :=
  cons_assign (hD q) (hP q / (gamma0 h - one) + hD q * (hU q * hU q + hV q * hV q) * half)%A
    (hU q * hD q)%A (hV q * hD q)%A zero.
Definition quadrant (c : hs T * hs T * hs T * hs T) (xt yt x y : T) : hs T :=
  let '(U0, U1, U2, U3) := c in
  if (x <? xt)%A then if (y <? yt)%A then U2 else U1
  else if (y <? yt)%A then U3 else U0.
Definition hfour (n : Z) (xt yt x y : T) : list (Z * T) :=
  prim_to_cons (quadrant (riemann_config n) xt yt x y).

(** ** Isentropic vortex: InitIsentropicVortexFunctor2D 594-652 *)
Definition hvortex (q : vortex T) (x y : T) : list (Z * T) :=
  let xp := (x - iv_x q)%A in let yp := (y - iv_y q)%A in
  let r := sqr (xp * xp + yp * yp)%A in
  let beta := iv_beta q in
  let twopi := (two * fpi (hm m))%A in
  let du := (- yp * beta / twopi * fexp (hm m) (half * (one - r * r)))%A in
  let dv := (xp * beta / twopi * fexp (hm m) (half * (one - r * r)))%A in
  let Tm := (iv_T q - (gamma0 h - one) * beta * beta / (ofZ 8 * gamma0 h * fpi (hm m) * fpi (hm m))
                      * fexp (hm m) (one - r * r))%A in
  let rho := (iv_rho q * fpow m (Tm / iv_T q) (one / (gamma0 h - one)))%A in
  cons_assign rho
    (rho * Tm / (gamma0 h - one) + half * rho * (iv_u q + du) * (iv_u q + du)
     + half * rho * (iv_v q + dv) * (iv_v q + dv))%A
    (rho * (iv_u q + du))%A (rho * (iv_v q + dv))%A zero.

(** ** Rayleigh-Taylor: RayleighTaylorInstabilityFunctor2D 697-781,
    RayleighTaylorInstabilityFunctor3D 577-671 *)
Definition hrayleigh (q : rayleigh T) (x y z : T) : list (Z * T) :=
  let twopi := (two * fpi (hm m))%A in
  let mid := if b3 then ((zmin bx + zmax bx) / two)%A else ((ymin bx + ymax bx) / two)%A in
  let d := if (mid <? (if b3 then z else y))%A then rt_d1 q else rt_d0 q in
  let pert := (rt_amplitude q * (one + fcos (hm m) (twopi * x / (xmax bx - xmin bx)))
               * (one + fcos (hm m) (twopi * y / (ymax bx - ymin bx))) / ofZ 4)%A in
  cons_assign d
    ((one + d * (if b3 then rt_gx q * x + rt_gy q * y + rt_gz q * z else rt_gx q * x + rt_gy q * y))
     / (gamma0 h - one))%A
    zero (if b3 then zero else pert) pert.

(** ** Rising bubble: RisingBubbleFunctor2D 821-896, RisingBubbleFunctor3D 711-796 *)
Definition hbubble (q : bubble T) (x y z : T) : list (Z * T) :=
  let a := (x - rb_x0 q)%A in let b := (y - rb_y0 q)%A in let c := (z - rb_z0 q)%A in
  let r := sqr (if b3 then a * a + b * b + c * c else a * a + b * b)%A in
  let d := if (r <? rb_R q)%A then rb_din q else rb_dout q in
  cons_assign d
    ((one + d * (if b3 then rb_gx q * x + rb_gy q * y + rb_gz q * z else rb_gx q * x + rb_gy q * y))
     / (gamma0 h - one))%A
    zero zero zero.

(** ** Disk: InitDiskFunctor2D 940-1051, InitDiskFunctor3D 839-959, DiskParams.h:61-80
    (radial_speed_of_sound), PointSourceGravity.h:79-92 (eval).  [x,y,z]: the position
    of the cell centre; in 2D z - zc is 0. *)
Definition disk_sound (q : disk T) (r : T) : T :=
  if (r <? dk_radius_inner q)%A then (dk_sound q / sqr (dk_radius_inner q / dk_radius q))%A
  else (dk_sound q / sqr (r / dk_radius q))%A.
Definition source_eval (s : source T) (x y z : T) : T * T * T :=
  let r := sqr ((x - ps_x s) * (x - ps_x s) + (y - ps_y s) * (y - ps_y s) + (z - ps_z s) * (z - ps_z s)
                + ps_eps s * ps_eps s)%A in
  let GM2 := (ps_GM s / (r * r * r))%A in
  ((GM2 * (ps_x s - x))%A, (GM2 * (ps_y s - y))%A, (GM2 * (ps_z s - z))%A).
Definition disk_omega2 (q : disk T) (s : source T) (r r_soft r_sph csound : T) : T :=
  if (dk_radius_inner q <=? r)%A
  then (ps_GM s / (r_soft * r_soft * r_sph) - lit 7 2 * (csound / r_soft) * (csound / r_soft))%A
  else (ps_GM s / (r_soft * r_soft * r_soft) - lit 5 2 * (csound / r_soft) * (csound / r_soft))%A.
Definition disk_density (q : disk T) (s : source T) (z r r_soft r_sph csound : T) : T :=
  let rho := (dk_density q * fpow m (r_soft / dk_radius q) (lit (-5) 2)
              * fexp (hm m) (ps_GM s / (csound * csound) * (one / r_sph - one / r_soft)))%A in
  let rho' :=
    if (dk_radius q <? r)%A || (half * dk_radius q <? absv z)%A then
      if (dk_radius q + dk_width q <? r)%A || (half * dk_radius q + dk_width q <? absv z)%A
      then (rho / dk_contrast q)%A
      else (rho * fpow m (dk_contrast q)
             (- maxv ((r - dk_radius q) / dk_width q) ((absv z - half * dk_radius q) / dk_width q)))%A
    else rho in
  maxv rho' (lit 1 1000000).
Definition hdisk (q : disk T) (s : source T) (x0 y0 z0 : T) : list (Z * T) * list (Z * T) :=
  let x := (x0 - dk_xc q)%A in
  let y := (y0 - dk_yc q)%A in
  let z := if b3 then (z0 - dk_zc q)%A else zero in
  let '(gx, gy, gz) := source_eval s x y z in
  let eps := ps_eps s in
  let r2 := (x * x + y * y)%A in
  let r := sqr r2 in
  let r_soft := sqr (r2 + eps * eps)%A in
  let r_sph := sqr (r2 + eps * eps + z * z)%A in
  let x_soft := (x * (r_soft / r))%A in
  let y_soft := (y * (r_soft / r))%A in
  let csound := disk_sound q r in
  let omega2 := disk_omega2 q s r r_soft r_sph csound in
  let omega := sqr (maxv omega2 zero) in
  let rho := disk_density q s z r r_soft r_sph csound in
  let pressure := (csound * csound * rho)%A in
  (cons_assign rho (pressure / (gamma0 h - one) + half * rho * omega2 * (r2 + eps * eps))%A
     (- y_soft * omega * rho)%A (x_soft * omega * rho)%A zero,
   grav_assign gx gy gz).

(** ** Choice of the problem: SolverHydroMuscl<2>::init and SolverHydroMuscl<3>::init,
    SolverHydroMuscl.cpp:104-247.  The four quadrant and the isentropic vortex problem exist
    in 2D only; a name that is not recognised gives the implosion. *)
Inductive hproblem : Type :=
  | HImplode (q : implode T) | HBlast (q : blast T) | HKelvinHelmholtz (rnd : cell -> Z -> T) (q : kh T)
  | HGresho (q : gresho T) | HFourQuadrant (n : Z) (xt yt : T) | HVortex (q : vortex T)
  | HRayleigh (q : rayleigh T) | HBubble (q : bubble T) | HDisk (q : disk T) (s : source T).
(** The assignments of one iteration: to the fluid variables and to the gravity field. *)
Definition hcell (pr : hproblem) (c : cell) : list (Z * T) * list (Z * T) :=
  let '(i, j, k) := c in
  let x := hx i in let y := hy j in let z := hz k in
  match pr with
  | HImplode q => (himplode q x y z, [])
  | HBlast q => (hblast q x y z, [])
  | HKelvinHelmholtz rnd q => (hkh (rnd c) q x y z, [])
  | HGresho q => (hgresho q x y z, [])
  | HFourQuadrant n xt yt => (hfour n xt yt x y, [])
  | HVortex q => (hvortex q x y, [])
  | HRayleigh q => (hrayleigh q x y z, grav_assign (rt_gx q) (rt_gy q) (rt_gz q))
  | HBubble q => (hbubble q x y z, grav_assign (rb_gx q) (rb_gy q) (rb_gz q))
  | HDisk q s => hdisk q s x y z
  end.
Definition init_hydro (pr : hproblem) : list (list (prog T unit)) :=
  [md_for (cellsD b3 g) (fun c => assign aU c (fst (hcell pr c)) ;;; assign aG c (snd (hcell pr c)))].
End HydroInit.
Arguments hproblem : clear implicits.
