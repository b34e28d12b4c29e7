(** Initial conditions of the MHD test problems: src/muscl/MHDInitFunctors2D.h,
    src/muscl/MHDInitFunctors3D.h and the choice of the problem,
    src/muscl/SolverMHDMuscl.h:640-711 (restart: not here).

    The code writes each problem twice, for 2D and for 3D.  The model has one
    definition with a flag [b3] where the two versions are alike; a 2D cell (i,j)
    is (i,j,0).  A value that an iteration writes and reads back at once (e.g.
    [Udata(i,j,IA)] in the energy of the blast) is reused instead of re-read.
    [double] and [real_t] are the same type (double precision build). *)
From Coq Require Import ZArith List Bool.
From Verif Require Import Arith Par GridModel HydroState HydroKernels MhdState MhdKernels2 MoodKernels.
Import ListNotations.
Open Scope Z_scope.
Open Scope prog_scope.

(** The functions of <math.h> used by the problems, and pi (TWOPI_F = 2 pi,
    PI_F, PI_v<double>, M_PI, 4 asin(1) / 2 are the same number). *)
Record libm (T : Type) := Libm { fsin : T -> T; fcos : T -> T; fexp : T -> T; fatan : T -> T; fpi : T }.
Arguments Libm {T}. Arguments fatan {T}. Arguments fsin {T}. Arguments fcos {T}. Arguments fexp {T}. Arguments fpi {T}.

(** Bounding box and position of the subdomain of this process: params.xmin ...,
    params.myMpiPos (0 without MPI). *)
Record box (T : Type) := Box {
  xmin : T; xmax : T; ymin : T; ymax : T; zmin : T; zmax : T; mpi : Z -> Z }.
Arguments Box {T}. Arguments xmin {T}. Arguments xmax {T}. Arguments ymin {T}. Arguments ymax {T}.
Arguments zmin {T}. Arguments zmax {T}. Arguments mpi {T}.

(** Problem parameters: src/shared/problems/BlastParams.h:12-54, ImplodeParams.h:15-68,
    KHParams.h:15-84, RotorParams.h:13-30, FieldLoopParams.h:13-37, WaveParams.h:11-148
    (members used by the initial conditions). *)
Record blast (T : Type) := Blast { bl_radius : T; bl_x : T; bl_y : T; bl_z : T;
  bl_rho_in : T; bl_rho_out : T; bl_p_in : T; bl_p_out : T }.
Record implode (T : Type) := Implode { im_out : ms T; im_in : ms T; im_shape : Z }.
Record kh (T : Type) := Kh { kh_d_in : T; kh_d_out : T; kh_pressure : T; kh_sine : bool;
  kh_sine_rob : bool; kh_rand : bool; kh_v_in : T; kh_v_out : T; kh_amplitude : T;
  kh_mode : Z; kh_w0 : T; kh_delta : T }.
Record rotor (T : Type) := Rotor { ro_r0 : T; ro_r1 : T; ro_u0 : T; ro_p0 : T; ro_b0 : T }.
Record field_loop (T : Type) := FieldLoop { fl_radius : T; fl_density : T; fl_amplitude : T; fl_vflow : T }.
Record wave (T : Type) := Wave { wv_amplitude : T; wv_V0 : T; wv_rev : Z -> T; wv_d0 : T; wv_p0 : T;
  wv_sin2 : T; wv_cos2 : T; wv_sin3 : T; wv_cos3 : T; wv_dby : T; wv_dbz : T;
  wv_bx0 : T; wv_by0 : T; wv_bz0 : T; wv_k : T }.
Arguments Blast {T}. Arguments bl_radius {T}. Arguments bl_x {T}. Arguments bl_y {T}. Arguments bl_z {T}.
Arguments bl_rho_in {T}. Arguments bl_rho_out {T}. Arguments bl_p_in {T}. Arguments bl_p_out {T}.
Arguments Implode {T}. Arguments im_out {T}. Arguments im_in {T}. Arguments im_shape {T}.
Arguments Kh {T}. Arguments kh_d_in {T}. Arguments kh_d_out {T}. Arguments kh_pressure {T}.
Arguments kh_sine {T}. Arguments kh_sine_rob {T}. Arguments kh_rand {T}. Arguments kh_v_in {T}.
Arguments kh_v_out {T}. Arguments kh_amplitude {T}. Arguments kh_mode {T}. Arguments kh_w0 {T}.
Arguments kh_delta {T}.
Arguments Rotor {T}. Arguments ro_r0 {T}. Arguments ro_r1 {T}. Arguments ro_u0 {T}. Arguments ro_p0 {T}.
Arguments ro_b0 {T}.
Arguments FieldLoop {T}. Arguments fl_radius {T}. Arguments fl_density {T}. Arguments fl_amplitude {T}.
Arguments fl_vflow {T}.
Arguments Wave {T}. Arguments wv_amplitude {T}. Arguments wv_V0 {T}. Arguments wv_rev {T}.
Arguments wv_d0 {T}. Arguments wv_p0 {T}. Arguments wv_sin2 {T}. Arguments wv_cos2 {T}.
Arguments wv_sin3 {T}. Arguments wv_cos3 {T}. Arguments wv_dby {T}. Arguments wv_dbz {T}.
Arguments wv_bx0 {T}. Arguments wv_by0 {T}. Arguments wv_bz0 {T}. Arguments wv_k {T}.

(** The vector potential array of the functors (member Az / A). *)
Definition aVP := 60.

Section Init.
Context {T : Type} {AT : Arith T}.
Variable m : libm T.
Variable b3 : bool.
Variable g : grid.
Variable p : mparams T.
Variable bx : box T.
Local Notation h := (mh p).

(** Conversion of an int to real_t. *)
Definition ofZ (n : Z) : T := lit n 1.

(** x = xmin + dx/2 + (i + nx*i_mpi - ghostWidth)*dx, e.g. MHDInitFunctors2D.h:85-86,
    MHDInitFunctors3D.h:84-86. *)
Definition xpos (i : Z) : T := (xmin bx + dx h / two + ofZ (i + nx g * mpi bx IX - gw g)%Z * dx h)%A.
Definition ypos (j : Z) : T := (ymin bx + dy h / two + ofZ (j + ny g * mpi bx IY - gw g)%Z * dy h)%A.
Definition zpos (k : Z) : T := (zmin bx + dz h / two + ofZ (k + nz g * mpi bx IZ - gw g)%Z * dz h)%A.

(** Assignments [Udata(i,j,k,v) = x], in this order. *)
Definition assign (a : Z) (c : cell) (l : list (Z * T)) : prog T unit :=
  for_each l (fun vx => wr (at_cell a c (fst vx)) (snd vx)).
Definition assign_all (f : cell -> list (Z * T)) : list (prog T unit) :=
  md_for (cellsD b3 g) (fun c => assign aU c (f c)).
Definition rdU (c : cell) (v : Z) : prog T T := rd (at_cell aU c v).

(** The interior: ghostWidth <= i < isize-ghostWidth, etc. *)
Definition inner (c : cell) : bool := guard b3 g 0 (fun _ => 0) c.

(** ** Implosion: InitImplodeFunctor2D_MHD 56-131, InitImplodeFunctor3D_MHD 54-142 *)
Definition implode_region (q : implode T) (c : cell) : bool :=
  let '(i, j, k) := c in
  let s := if b3 then (xpos i + ypos j + zpos k)%A else (xpos i + ypos j)%A in
  if im_shape q =? 1 then (lit 1 2 <? s)%A && (s <? lit 5 2)%A
  else ((if b3 then (xmin bx + xmax bx) / two + ymin bx + zmin bx
         else (xmin bx + xmax bx) / two + ymin bx) <? s)%A.
Definition implode_state (q : ms T) : list (Z * T) :=
  [(ID, mD q);
   (IP, (mP q / (gamma0 h - one)
         + half * mD q * (if b3 then mU q * mU q + mV q * mV q + mW q * mW q
                          else mU q * mU q + mV q * mV q)
         + half * (if b3 then mA q * mA q + mB q * mB q + mC q * mC q else mA q * mA q + mB q * mB q))%A);
   (IU, mU q); (IV, mV q); (IW, if b3 then mW q else zero);
   (IA, mA q); (IB, mB q); (IC, if b3 then mC q else zero)].
Definition init_implode (q : implode T) : list (list (prog T unit)) :=
  [assign_all (fun c => implode_state (if implode_region q c then im_out q else im_in q))].

(** ** Blast: InitBlastFunctor2D_MHD 164-231, InitBlastFunctor3D_MHD 175-254 *)
Definition blast_inside (q : blast T) (c : cell) : bool :=
  let '(i, j, k) := c in
  let x := (xpos i - bl_x q)%A in let y := (ypos j - bl_y q)%A in let z := (zpos k - bl_z q)%A in
  ((if b3 then x * x + y * y + z * z else x * x + y * y) <? bl_radius q * bl_radius q)%A.
Definition blast_state (rho pr : T) : list (Z * T) :=
  [(ID, rho); (IU, zero); (IV, zero); (IW, zero); (IA, half); (IB, half); (IC, half);
   (IP, (pr / (gamma0 h - one) + half * (half * half + half * half + half * half))%A)].
Definition init_blast (q : blast T) : list (list (prog T unit)) :=
  [assign_all (fun c => if blast_inside q c then blast_state (bl_rho_in q) (bl_p_in q)
                        else blast_state (bl_rho_out q) (bl_p_out q))].

(** ** Orszag-Tang vortex: InitOrszagTangFunctor2D 289-382, InitOrszagTangFunctor3D 311-408.
    [kt] is the transverse wave number (3D). *)
Definition ot_p0 : T := (gamma0 h / (ofZ 4 * fpi m))%A.
Definition ot_d0 : T := (gamma0 h * ot_p0)%A.
Definition ot_B0 : T := (one / sqr (ofZ 4 * fpi m))%A.
Definition twopi : T := (two * fpi m)%A.
Definition ot_zfactor (kt : T) (k : Z) : T :=
  fcos m (two * twopi * kt * (zpos k - zmin bx) / (zmax bx - zmin bx))%A.
Definition ot_state (kt : T) (c : cell) : list (Z * T) :=
  let '(i, j, k) := c in
  [(ID, ot_d0);
   (IU, (- ot_d0 * one * fsin m (ypos j * twopi))%A);
   (IV, (ot_d0 * one * fsin m (xpos i * twopi))%A);
   (IW, zero);
   (IA, (if b3 then - ot_B0 * ot_zfactor kt k * fsin m (ypos j * twopi)
         else - ot_B0 * fsin m (ypos j * twopi))%A);
   (IB, (if b3 then ot_B0 * ot_zfactor kt k * fsin m (two * xpos i * twopi)
         else ot_B0 * fsin m (two * xpos i * twopi))%A);
   (IC, zero)].
(** INIT_ENERGY: all cells but the last row and column (in 3D: all k). *)
Definition ot_energy (c : cell) : prog T unit :=
  let '(i, j, k) := c in
  when ((i <? isize g - 1) && (j <? jsize g - 1))
   (d <- rdU c ID ;; u <- rdU c IU ;; v <- rdU c IV ;;
    a <- rdU c IA ;; a' <- rdU (i + 1, j, k) IA ;; b <- rdU c IB ;; b' <- rdU (i, j + 1, k) IB ;;
    wr (at_cell aU c IP)
       (ot_p0 / (gamma0 h - one)
        + half * (u * u / d + v * v / d + lit 1 4 * ((a + a') * (a + a'))
                  + lit 1 4 * ((b + b') * (b + b'))))%A).
Definition init_orszag_tang (kt : T) : list (list (prog T unit)) :=
  [assign_all (ot_state kt); md_for (cellsD b3 g) ot_energy].

(** ** Kelvin-Helmholtz: InitKelvinHelmholtzFunctor2D_MHD 416-566,
    InitKelvinHelmholtzFunctor3D_MHD 441-605.  [rnd c n]: the n-th number drawn by
    the generator at cell c (rand_gen.drand()). *)
Definition kh_energy (q : kh T) (d u v w bx : T) : T :=
  (kh_pressure q / (gamma0 h - one)
   + half * d * (if b3 then u * u + v * v + w * w else u * u + v * v)
   + half * (bx * bx + zero * zero + zero * zero))%A.
(** The magnetic field (1/2, 0, 0) and the energy (2D: IW is not assigned). *)
Definition kh_assign (q : kh T) (d u v w : T) : list (Z * T) :=
  [(ID, d); (IU, (d * u)%A); (IV, (d * v)%A)] ++ (if b3 then [(IW, (d * w)%A)] else []) ++
  [(IA, half); (IB, zero); (IC, zero); (IP, kh_energy q d u v w half)].
(** 3D, random perturbation: no magnetic field is assigned (3D 476-526). *)
Definition kh_assign_rand (q : kh T) (d u v w : T) : list (Z * T) :=
  if b3 then
    [(ID, d); (IU, (d * u)%A); (IV, (d * v)%A); (IW, (d * w)%A);
     (IP, (kh_pressure q / (gamma0 h - one) + half * d * (u * u + v * v + w * w))%A)]
  else kh_assign q d u v w.
Definition kh_state (rnd : cell -> Z -> T) (q : kh T) (c : cell) : list (Z * T) :=
  let '(i, j, k) := c in
  let x := xpos i in let y := ypos j in let z := zpos k in
  let s := if b3 then z else y in
  let n := ofZ (kh_mode q) in
  if kh_rand q then
    let sn := if b3 then ((z - zmin bx) / (zmax bx - zmin bx))%A else ((y - ymin bx) / (ymax bx - ymin bx))%A in
    let out := (sn <? lit 1 4)%A || (lit 3 4 <? sn)%A in
    let d := if out then kh_d_out q else kh_d_in q in
    let u := if out then kh_v_out q else kh_v_in q in
    kh_assign_rand q d
      (u + kh_amplitude q * (rnd c 0 - lit 1 2))%A
      (zero + kh_amplitude q * (rnd c 1 - lit 1 2))%A
      (zero + kh_amplitude q * (rnd c 2 - lit 1 2))%A
  else if kh_sine_rob q then
    let ramp := (one / (one + fexp m (two * (s - lit 1 4) / kh_delta q))
                 + one / (one + fexp m (two * (lit 3 4 - s) / kh_delta q)))%A in
    let d := (kh_d_in q + ramp * (kh_d_out q - kh_d_in q))%A in
    let u := (kh_v_in q + ramp * (kh_v_out q - kh_v_in q))%A in
    if b3 then
      kh_assign q d u (kh_v_in q / two + ramp * (kh_v_out q / two - kh_v_in q / two))%A
        (kh_w0 q * fsin m (n * fpi m * x) * fsin m (n * fpi m * y))%A
    else kh_assign q d u (kh_w0 q * fsin m (n * fpi m * x))%A zero
  else if kh_sine q then
    let mid := (lit 1 4 <=? s)%A && (s <=? lit 3 4)%A in
    let d := if mid then kh_d_in q else kh_d_out q in
    let u := if mid then kh_v_in q else kh_v_out q in
    if b3 then kh_assign q d u zero (kh_w0 q * fsin m (n * fpi m * x))%A
    else kh_assign q d u (kh_w0 q * fsin m (n * fpi m * x))%A zero
  else [].
Definition init_kelvin_helmholtz (rnd : cell -> Z -> T) (q : kh T) : list (list (prog T unit)) :=
  [assign_all (kh_state rnd q)].

(** ** Rotor: InitRotorFunctor2D_MHD 608-683, InitRotorFunctor3D_MHD 647-727.  In 2D the
    velocity is multiplied by the density, in 3D it is not. *)
Definition rotor_state (q : rotor T) (c : cell) : list (Z * T) :=
  let '(i, j, k) := c in
  let X := (xpos i - (xmax bx + xmin bx) / two)%A in
  let Y := (ypos j - (ymax bx + ymin bx) / two)%A in
  let r := sqr (X * X + Y * Y)%A in
  let f_r := ((ro_r1 q - r) / (ro_r1 q - ro_r0 q))%A in
  let '(d, u, v) :=
    if (r <=? ro_r0 q)%A then
      if b3 then (ofZ 10, (- ro_u0 q * Y / ro_r0 q)%A, (ro_u0 q * X / ro_r0 q)%A)
      else (ofZ 10, (- ofZ 10 * f_r * ro_u0 q * Y / ro_r0 q)%A, (ofZ 10 * f_r * ro_u0 q * X / ro_r0 q)%A)
    else if (r <=? ro_r1 q)%A then
      let d := (one + ofZ 9 * f_r)%A in
      if b3 then (d, (- f_r * ro_u0 q * Y / r)%A, (f_r * ro_u0 q * X / r)%A)
      else (d, (- d * f_r * ro_u0 q * Y / r)%A, (d * f_r * ro_u0 q * X / r)%A)
    else (one, zero, zero) in
  [(ID, d); (IU, u); (IV, v); (IW, zero); (IA, ro_b0 q); (IB, zero); (IC, zero);
   (IP, if b3 then (ro_p0 q / (gamma0 h - one) + (u * u + v * v + zero * zero) / two / d
                    + ro_b0 q * ro_b0 q / two)%A
        else (ro_p0 q / (gamma0 h - one) + half * (u * u + v * v + zero * zero) / d
              + half * (ro_b0 q * ro_b0 q))%A)].
Definition init_rotor (q : rotor T) : list (list (prog T unit)) := [assign_all (rotor_state q)].

(** ** Field loop: InitFieldLoopFunctor2D_MHD 744-937, InitFieldLoopFunctor3D_MHD 788-1015.
    The potential has one component in 2D (number 2 of [aVP] here). *)
Definition vp (c : cell) (v : Z) : prog T T := rd (at_cell aVP c v).
Definition loop_radius (c : cell) : T :=
  let '(i, j, k) := c in sqr (xpos i * xpos i + ypos j * ypos j)%A.
Definition loop_potential (q : field_loop T) (c : cell) : prog T unit :=
  let r := loop_radius c in
  let az := if (r <? fl_radius q)%A then (fl_amplitude q * (fl_radius q - r))%A else zero in
  assign aVP c (if b3 then [(IX, zero); (IY, zero); (IZ, az)] else [(IZ, az)]).
(** Discrete curl of the potential at the lower faces of a cell
    (MHDInitFunctors3D.h:960-967, 1203-1210; 2D: MHDInitFunctors2D.h:894-898). *)
Definition curl_assign (c : cell) : prog T unit :=
  if b3 then
    a2y <- vp (along_dir IY 1 c) IZ ;; a2 <- vp c IZ ;; a1z <- vp (along_dir IZ 1 c) IY ;; a1 <- vp c IY ;;
    a0z <- vp (along_dir IZ 1 c) IX ;; a0 <- vp c IX ;; a2x <- vp (along_dir IX 1 c) IZ ;;
    a1x <- vp (along_dir IX 1 c) IY ;; a0y <- vp (along_dir IY 1 c) IX ;;
    assign aU c
      [(IA, ((a2y - a2) / dy h - (a1z - a1) / dz h)%A);
       (IB, ((a0z - a0) / dz h - (a2x - a2) / dx h)%A);
       (IC, ((a1x - a1) / dx h - (a0y - a0) / dy h)%A)]
  else
    a2y <- vp (along_dir IY 1 c) IZ ;; a2 <- vp c IZ ;; a2x <- vp (along_dir IX 1 c) IZ ;;
    assign aU c [(IA, ((a2y - a2) / dy h)%A); (IB, (- (a2x - a2) / dx h)%A); (IC, zero)].
(** do_init_condition, 2D 829-903, 3D 879-972.  The 2D version takes the third
    velocity component vflow*nz/diag. *)
Definition loop_condition (q : field_loop T) (c : cell) : prog T unit :=
  when (inner c)
   (let d := if (loop_radius c <? fl_radius q)%A then fl_density q else one in
    let cost := (two / sqr (ofZ 5))%A in
    let sint := sqr (one - cost * cost)%A in
    let diag := sqr (one * ofZ (nx g * nx g + ny g * ny g + nz g * nz g))%A in
    assign aU c [(ID, d); (IU, (d * fl_vflow q * cost)%A); (IV, (d * fl_vflow q * sint)%A);
                 (IW, if b3 then (d * fl_vflow q)%A else (d * fl_vflow q * ofZ (nz g) / diag)%A)] ;;;
    curl_assign c).
(** do_init_energy, 2D 905-937, 3D 975-1015. *)
Definition loop_energy (c : cell) : prog T unit :=
  when (inner c)
   (if (zero <? cIso p)%A then wr (at_cell aU c IP) zero
    else
      a <- rdU c IA ;; a' <- rdU (along_dir IX 1 c) IA ;;
      b <- rdU c IB ;; b' <- rdU (along_dir IY 1 c) IB ;;
      u <- rdU c IU ;; v <- rdU c IV ;; d <- rdU c ID ;;
      if b3 then
        z <- rdU c IC ;; z' <- rdU (along_dir IZ 1 c) IC ;; w <- rdU c IW ;;
        wr (at_cell aU c IP)
           (one / (gamma0 h - one)
            + half * (lit 1 4 * ((a + a') * (a + a')) + lit 1 4 * ((b + b') * (b + b'))
                      + lit 1 4 * ((z + z') * (z + z')))
            + half * (u * u + v * v + w * w) / d)%A
      else
        wr (at_cell aU c IP)
           (one / (gamma0 h - one)
            + half * (lit 1 4 * ((a + a') * (a + a')) + lit 1 4 * ((b + b') * (b + b')))
            + half * (u * u + v * v) / d)%A).
Definition init_field_loop (q : field_loop T) : list (list (prog T unit)) :=
  [md_for (cellsD b3 g) (loop_potential q); md_for (cellsD b3 g) (loop_condition q);
   md_for (cellsD b3 g) loop_energy].

(** ** Linear wave: InitWaveFunctor3D_MHD 1049-1301.  The body of the 2D functor is
    empty (MHDInitFunctors2D.h:972-975). *)
Definition wave_tmpx (q : wave T) (x1 x2 x3 : T) : T :=
  (x1 * wv_cos2 q * wv_cos3 q + x2 * wv_cos2 q * wv_sin3 q + x3 * wv_sin2 q)%A.
Definition wave_tmpy (q : wave T) (x1 x2 : T) : T := (- x1 * wv_sin3 q + x2 * wv_cos3 q)%A.
Definition wave_Ay (q : wave T) (x1 x2 x3 : T) : T :=
  let t := wave_tmpx q x1 x2 x3 in
  (wv_bz0 q * t - (wv_dbz q / wv_k q) * fcos m (wv_k q * t))%A.
Definition wave_Az (q : wave T) (x1 x2 x3 : T) : T :=
  let t := wave_tmpx q x1 x2 x3 in
  (- wv_by0 q * t + (wv_dby q / wv_k q) * fcos m (wv_k q * t) + wv_bx0 q * wave_tmpy q x1 x2)%A.
(** compute_vector_potential, 1098-1183. *)
Definition wave_potential (q : wave T) (c : cell) : prog T unit :=
  let '(i, j, k) := c in
  let x := xpos i in let y := ypos j in let z := zpos k in
  let xm := (x - dx h / two)%A in let ym := (y - dy h / two)%A in let zm := (z - dz h / two)%A in
  assign aVP c
    [(IX, (- wave_Ay q x ym zm * wv_sin3 q - wave_Az q x ym zm * wv_sin2 q * wv_cos3 q)%A);
     (IY, (wave_Ay q xm y zm * wv_cos3 q - wave_Az q xm y zm * wv_sin2 q * wv_sin3 q)%A);
     (IZ, (wave_Az q xm ym z * wv_cos2 q)%A)].
(** compute_face_centered_B, 1185-1211: interior and one layer around it. *)
Definition wave_field (c : cell) : prog T unit :=
  when (guard b3 g (-1) (fun _ => 1) c) (curl_assign c).
(** do_init_condition, 1212-1301. *)
Definition wave_condition (q : wave T) (c : cell) : prog T unit :=
  let '(i, j, k) := c in
  when (inner c)
   (let X := (wv_cos2 q * (xpos i * wv_cos3 q + ypos j * wv_sin3 q) + zpos k * wv_sin2 q)%A in
    let sn := fsin m (wv_k q * X)%A in
    let amp n := (wv_amplitude q * sn * wv_rev q n)%A in
    let Mx := (wv_d0 q * wv_V0 q + amp 1)%A in
    let My := amp 2 in let Mz := amp 3 in
    assign aU c
      [(ID, (wv_d0 q + amp 0)%A);
       (IU, (Mx * wv_cos2 q * wv_cos3 q - My * wv_sin3 q - Mz * wv_sin2 q * wv_cos3 q)%A);
       (IV, (Mx * wv_cos2 q * wv_sin3 q + My * wv_cos3 q - Mz * wv_sin2 q * wv_sin3 q)%A);
       (IW, (Mx * wv_sin2 q + Mz * wv_cos2 q)%A);
       (IP, (wv_p0 q / (gamma0 h - one) + half * wv_d0 q * wv_V0 q * wv_V0 q
             + half * (wv_bx0 q * wv_bx0 q + wv_by0 q * wv_by0 q + wv_bz0 q * wv_bz0 q) + amp 4)%A)]).
Definition init_wave (q : wave T) : list (list (prog T unit)) :=
  if b3 then [md_for (cellsD b3 g) (wave_potential q); md_for (cellsD b3 g) wave_field;
              md_for (cellsD b3 g) (wave_condition q)]
  else [md_for (cellsD b3 g) (fun _ => skip)].

(** WaveParams constructor, src/shared/problems/WaveParams.h:36-148: eigenvectors of the
    four wave types and, for a box of sides Lx, Ly, Lz, the direction of propagation and
    the wave number.  [None]: the program exits. *)
Definition wave_rev (ty : Z) : option (list T * T) :=
  if ty =? 0 then Some ([lit 4472136 10000000; lit (-8944272) 10000000; lit 4216370 10000000;
    lit 1490712 10000000; lit 2012461 1000000; lit 8432740 10000000; lit 2981424 10000000], zero)
  else if ty =? 1 then Some ([zero; zero; lit (-3333333) 10000000; lit 9428090 10000000; zero;
    lit (-3333333) 10000000; lit 9428090 10000000], zero)
  else if ty =? 2 then Some ([lit 8944272 10000000; lit (-4472136) 10000000; lit (-8432740) 10000000;
    lit (-2981424) 10000000; lit 6708204 10000000; lit (-4216370) 10000000; lit (-1490712) 10000000], zero)
  else if ty =? 3 then Some ([one; one; zero; zero; half; zero; zero], one)
  else None.
Definition wave_params (amplitude : T) (ty : Z) (gam Lx Ly Lz : T) : option (wave T) :=
  match wave_rev ty with
  | None => None
  | Some (rev, v0) =>
    let ang3 := fatan m (Lx / Ly)%A in
    let s3 := fsin m ang3 in let c3 := fcos m ang3 in
    let ang2 := fatan m (half * (Lx * c3 + Ly * s3) / Lz)%A in
    let s2 := fsin m ang2 in let c2 := fcos m ang2 in
    let x1 := (Lx * c2 * c3)%A in
    let x2 := (Ly * c2 * s3)%A in
    let x3 := (Lz * s2)%A in
    let l1 := if negb (eqb ang3 zero) then minv x1 x2 else x1 in
    let l2 := if negb (eqb ang2 zero) then minv l1 x3 else l1 in
    Some (Wave amplitude v0 (fun n => nth (Z.to_nat n) rev zero) one (one / gam)%A s2 c2 s3 c3
      (amplitude * nth 5 rev zero)%A (amplitude * nth 6 rev zero)%A one (sqr two) half
      (two * fpi m / l2)%A)
  end.

(** ** Choice of the problem: SolverMHDMuscl::init, SolverMHDMuscl.h:640-711.  A name that
    is not recognised gives the Orszag-Tang vortex. *)
Inductive problem : Type :=
  | PBlast (q : blast T) | PImplode (q : implode T) | POrszagTang (kt : T)
  | PKelvinHelmholtz (rnd : cell -> Z -> T) (q : kh T) | PRotor (q : rotor T)
  | PFieldLoop (q : field_loop T) | PWave (q : wave T).
Definition init_problem (q : problem) : list (list (prog T unit)) :=
  match q with
  | PBlast q => init_blast q | PImplode q => init_implode q | POrszagTang kt => init_orszag_tang kt
  | PKelvinHelmholtz rnd q => init_kelvin_helmholtz rnd q | PRotor q => init_rotor q
  | PFieldLoop q => init_field_loop q | PWave q => init_wave q
  end.
End Init.
