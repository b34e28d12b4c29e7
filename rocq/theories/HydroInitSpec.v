(** Vocabulary for the statements about the hydrodynamics initial conditions. *)
From Coq Require Import ZArith List Bool Reals.
From Verif Require Import Arith Par GridModel BoundaryModel HydroState HydroKernels HydroSpec Physics
  MhdState MhdInit MhdInitSpec HydroInit.
Import ListNotations.
Local Open Scope R_scope.

(** The four-quadrant arctangent of C and the real functions. *)
Definition atan2 (y x : R) : R :=
  if Rlt_dec 0 x then atan (y / x)
  else if Rlt_dec x 0 then (if Rle_dec 0 y then atan (y / x) + PI else atan (y / x) - PI)
  else if Rlt_dec 0 y then PI / 2 else if Rlt_dec y 0 then - (PI / 2) else 0.
Definition RHLibm : hlibm R := HLibm RLibm ln Rpower atan2.

(** Position of the centre of cell (i,j,k) of this process. *)
Record point := Point { px : R; py : R; pz : R }.
Definition position (g : grid) (h : hparams R) (bx : box R) (i j k : Z) : point :=
  Point (centre (xmin bx) (dx h) (gw g) (i + nx g * mpi bx IX))
        (centre (ymin bx) (dy h) (gw g) (j + ny g * mpi bx IY))
        (centre (zmin bx) (dz h) (gw g) (k + nz g * mpi bx IZ)).
(** Cells of the arrays, ghost cells included (one layer in 2D). *)
Definition in_array (b3 : bool) (g : grid) (i j k : Z) : Prop :=
  (0 <= i < isize g /\ 0 <= j < jsize g /\ (if b3 then 0 <= k < ksize g else k = 0))%Z.
(** Conservative state and gravity field held at a cell. *)
Definition held (b3 : bool) (s : store R) (i j k : Z) : hs R :=
  HS (s (Loc aU i j k ID)) (s (Loc aU i j k IP)) (s (Loc aU i j k IU)) (s (Loc aU i j k IV))
     (if b3 then s (Loc aU i j k IW) else 0).
Definition held_gravity (b3 : bool) (s : store R) (i j k : Z) : R * R * R :=
  (s (Loc aG i j k IX), s (Loc aG i j k IY), if b3 then s (Loc aG i j k IZ) else 0).

Definition dist2 (b3 : bool) (P : point) (x0 y0 z0 : R) : R :=
  (px P - x0) * (px P - x0) + (py P - y0) * (py P - y0) + (if b3 then (pz P - z0) * (pz P - z0) else 0).
(** The parameters of the problem put state [a] where [A] holds and state [b] elsewhere. *)
Definition either (A : Prop) (a b q : hs R) : Prop := (A /\ q = a) \/ (~ A /\ q = b).

(** ** Implosion *)
Definition implode_outside (b3 : bool) (bx : box R) (q : implode R) (P : point) : Prop :=
  if (im_shape q =? 1)%Z then
    if b3 then / 2 < px P + py P + pz P < 5 / 2 else / 2 < px P + py P * py P < 3 / 2
  else (xmin bx + xmax bx) / 2 + ymin bx + (if b3 then zmin bx else 0) < px P + py P + (if b3 then pz P else 0).
Definition gas_of (b3 : bool) (r : ms R) : hs R := HS (mD r) (mP r) (mU r) (mV r) (if b3 then mW r else 0).

(** ** Kelvin-Helmholtz: a shear flow with a perturbation of the velocity.  Random
    perturbation: sharp layers in the normalised coordinate, every component of the
    velocity within half the amplitude of the flow. *)
Definition kh_random (b3 : bool) (bx : box R) (p : kh R) (P : point) (q : hs R) : Prop :=
  let s := if b3 then (pz P - zmin bx) / (zmax bx - zmin bx) else (py P - ymin bx) / (ymax bx - ymin bx) in
  let outside := s < / 4 \/ 3 / 4 < s in
  hP q = kh_pressure p /\
  ((outside /\ hD q = kh_d_out p /\ Rabs (hU q - kh_v_out p) <= Rabs (kh_amplitude p) / 2)
   \/ (~ outside /\ hD q = kh_d_in p /\ Rabs (hU q - kh_v_in p) <= Rabs (kh_amplitude p) / 2)) /\
  Rabs (hV q) <= Rabs (kh_amplitude p) / 2 /\
  (if b3 then Rabs (hW q) <= Rabs (kh_amplitude p) / 2 else hW q = 0).
(** Smooth layers between 1/4 and 3/4, sine wave across. *)
Definition kh_smooth (b3 : bool) (p : kh R) (P : point) : hs R :=
  let s := if b3 then pz P else py P in
  let f := / (1 + exp (2 * (s - / 4) / kh_delta p)) + / (1 + exp (2 * (3 / 4 - s) / kh_delta p)) in
  let mix a b := a + f * (b - a) in
  let wave x := sin (IZR (kh_mode p) * PI * x) in
  HS (mix (kh_d_in p) (kh_d_out p)) (kh_pressure p) (mix (kh_v_in p) (kh_v_out p))
     (if b3 then mix (kh_v_in p / 2) (kh_v_out p / 2) else kh_w0 p * wave (px P))
     (if b3 then kh_w0 p * wave (px P) * wave (py P) else 0).

(** ** Gresho vortex around the origin: azimuthal velocity and pressure at distance r *)
Definition gresho_speed (r : R) : R :=
  if Rlt_dec r (/ 5) then 5 * r else if Rlt_dec r (2 / 5) then 2 - 5 * r else 0.
Definition gresho_pressure (gam : R) (q : gresho R) (r : R) : R :=
  let p0 := gr_rho0 q / (gam * gr_Ma q * gr_Ma q) in
  if Rlt_dec r (/ 5) then p0 + 25 / 2 * r * r
  else if Rlt_dec r (2 / 5) then p0 + 25 / 2 * r * r + 4 * (1 - 5 * r - ln (/ 5) + ln r)
  else p0 - 2 + 4 * ln 2.
Definition radius (x y : R) : R := sqrt (x * x + y * y).
Definition gresho_gas (gam : R) (q : gresho R) (P : point) : hs R :=
  let r := radius (px P) (py P) in
  HS (gr_rho0 q) (gresho_pressure gam q r) (gr_u q - py P / r * gresho_speed r)
     (gr_v q + px P / r * gresho_speed r) (gr_w q).

(** ** Isentropic vortex *)
Definition vortex_T (gam : R) (q : vortex R) (x y : R) : R :=
  let r2 := (x - iv_x q) * (x - iv_x q) + (y - iv_y q) * (y - iv_y q) in
  iv_T q - (gam - 1) * (iv_beta q * iv_beta q) / (8 * gam * (PI * PI)) * exp (1 - r2).
(** Same entropy as the ambient gas. *)
Definition vortex_gas (gam : R) (q : vortex R) (x y : R) : hs R :=
  let r2 := (x - iv_x q) * (x - iv_x q) + (y - iv_y q) * (y - iv_y q) in
  let f := iv_beta q / (2 * PI) * exp ((1 - r2) / 2) in
  let t := vortex_T gam q x y / iv_T q in
  HS (iv_rho q * Rpower t (/ (gam - 1))) (iv_p q * Rpower t (gam / (gam - 1)))
     (iv_u q - (y - iv_y q) * f) (iv_v q + (x - iv_x q) * f) 0.

(** ** Rayleigh-Taylor: denser fluid above the middle, velocity perturbation along the
    last axis, pressure 1 + rho g.x *)
Definition rt_above (b3 : bool) (bx : box R) (P : point) : Prop :=
  if b3 then (zmin bx + zmax bx) / 2 < pz P else (ymin bx + ymax bx) / 2 < py P.
Definition rt_velocity (bx : box R) (q : rayleigh R) (P : point) : R :=
  rt_amplitude q * (1 + cos (2 * PI * px P / (xmax bx - xmin bx)))
                 * (1 + cos (2 * PI * py P / (ymax bx - ymin bx))) / 4.
Definition rt_gas (b3 : bool) (bx : box R) (q : rayleigh R) (P : point) (d : R) : hs R :=
  let w := rt_velocity bx q P in
  HS d (1 + d * (rt_gx q * px P + rt_gy q * py P + (if b3 then rt_gz q * pz P else 0)))
     0 (if b3 then 0 else w) (if b3 then w else 0).

(** ** Rising bubble *)
Definition bubble_gas (b3 : bool) (q : bubble R) (P : point) (d : R) : hs R :=
  HS d (1 + d * (rb_gx q * px P + rb_gy q * py P + (if b3 then rb_gz q * pz P else 0))) 0 0 0.
Definition bubble_inside (b3 : bool) (q : bubble R) (P : point) : Prop :=
  sqrt (dist2 b3 P (rb_x0 q) (rb_y0 q) (rb_z0 q)) < rb_R q.

(** ** Disk: position relative to the centre, cylindrical radius and softened radii *)
Definition dk_pos (b3 : bool) (q : disk R) (P : point) : point :=
  Point (px P - dk_xc q) (py P - dk_yc q) (if b3 then pz P - dk_zc q else 0).
Definition dk_r (D : point) : R := radius (px D) (py D).
Definition dk_soft (s : source R) (D : point) : R := sqrt (px D * px D + py D * py D + ps_eps s * ps_eps s).
Definition dk_sph (s : source R) (D : point) : R :=
  sqrt (px D * px D + py D * py D + ps_eps s * ps_eps s + pz D * pz D).
(** Sound speed: constant inside the inner radius, then decreasing as 1/sqrt r. *)
Definition dk_cs (q : disk R) (r : R) : R := dk_sound q / sqrt (Rmax r (dk_radius_inner q) / dk_radius q).
(** Square of the angular velocity: gravity minus pressure support. *)
Definition dk_omega2 (q : disk R) (s : source R) (D : point) : R :=
  let c := dk_cs q (dk_r D) / dk_soft s D in
  if Rlt_dec (dk_r D) (dk_radius_inner q)
  then ps_GM s / (dk_soft s D * dk_soft s D * dk_soft s D) - 5 / 2 * (c * c)
  else ps_GM s / (dk_soft s D * dk_soft s D * dk_sph s D) - 7 / 2 * (c * c).
(** Density of the disk, reduced by the contrast outside of it. *)
Definition dk_rho (q : disk R) (s : source R) (D : point) : R :=
  let c := dk_cs q (dk_r D) in
  let rho := dk_density q * Rpower (dk_soft s D / dk_radius q) (- (5 / 2))
             * exp (ps_GM s / (c * c) * (/ dk_sph s D - / dk_soft s D)) in
  let beyond := Rmax (dk_r D - dk_radius q) (Rabs (pz D) - dk_radius q / 2) in
  let rho' := if Rle_dec beyond 0 then rho
              else if Rle_dec beyond (dk_width q) then rho * Rpower (dk_contrast q) (- (beyond / dk_width q))
              else rho / dk_contrast q in
  Rmax rho' (/ 1000000).
Definition disk_gas (b3 : bool) (q : disk R) (s : source R) (P : point) : hs R :=
  let D := dk_pos b3 q P in
  let c := dk_cs q (dk_r D) in
  let v := sqrt (Rmax (dk_omega2 q s D) 0) * dk_soft s D in
  HS (dk_rho q s D) (c * c * dk_rho q s D) (- (py D / dk_r D * v)) (px D / dk_r D * v) 0.

(** ** The primitive state that the parameters of the problem prescribe at a point *)
Definition prescribed (b3 : bool) (h : hparams R) (bx : box R) (pr : hproblem R) (P : point) (q : hs R) : Prop :=
  match pr with
  | HImplode p => either (implode_outside b3 bx p P) (gas_of b3 (im_out p)) (gas_of b3 (im_in p)) q
  | HBlast p => either (dist2 b3 P (bl_x p) (bl_y p) (bl_z p) < bl_radius p * bl_radius p)
                  (HS (bl_rho_in p) (bl_p_in p) 0 0 0) (HS (bl_rho_out p) (bl_p_out p) 0 0 0) q
  | HKelvinHelmholtz _ p => if kh_rand p then kh_random b3 bx p P q else q = kh_smooth b3 p P
  | HGresho p => q = gresho_gas (gamma0 h) p P
  | HFourQuadrant n xt yt =>
      let '(q0, q1, q2, q3) := riemann_config n in
      (px P < xt /\ py P < yt /\ q = q2) \/ (px P < xt /\ yt <= py P /\ q = q1)
      \/ (xt <= px P /\ py P < yt /\ q = q3) \/ (xt <= px P /\ yt <= py P /\ q = q0)
  | HVortex p => q = vortex_gas (gamma0 h) p (px P) (py P)
  | HRayleigh p => either (rt_above b3 bx P) (rt_gas b3 bx p P (rt_d1 p)) (rt_gas b3 bx p P (rt_d0 p)) q
  | HBubble p => either (bubble_inside b3 p P) (bubble_gas b3 p P (rb_din p)) (bubble_gas b3 p P (rb_dout p)) q
  | HDisk p s => q = disk_gas b3 p s P
  end.
(** ... and the gravity field: uniform, or that of a softened point source. *)
Definition prescribed_gravity (b3 : bool) (pr : hproblem R) (P : point) (a : R * R * R) : Prop :=
  match pr with
  | HRayleigh p => a = (rt_gx p, rt_gy p, if b3 then rt_gz p else 0)
  | HBubble p => a = (rb_gx p, rb_gy p, if b3 then rb_gz p else 0)
  | HDisk _ s =>
      let z := if b3 then pz P else 0 in
      let d := sqrt ((px P - ps_x s) * (px P - ps_x s) + (py P - ps_y s) * (py P - ps_y s)
                     + (z - ps_z s) * (z - ps_z s) + ps_eps s * ps_eps s) in
      a = (ps_GM s * (ps_x s - px P) / (d * d * d), ps_GM s * (ps_y s - py P) / (d * d * d),
           if b3 then ps_GM s * (ps_z s - pz P) / (d * d * d) else 0)
  | _ => False
  end.

(** Problems the solver offers in 2D and 3D. *)
Definition offered (b3 : bool) (pr : hproblem R) : Prop :=
  match pr with HFourQuadrant _ _ _ | HVortex _ => b3 = false | _ => True end.
Definition at_rest (b3 : bool) (r : ms R) : Prop := mU r = 0 /\ mV r = 0 /\ (b3 = true -> mW r = 0).
(** Settings for which the prescribed state is reached. *)
Definition good_setting (b3 : bool) (h : hparams R) (bx : box R) (pr : hproblem R) (P : point) : Prop :=
  match pr with
  | HImplode p => forall r, r = im_in p \/ r = im_out p -> at_rest b3 r \/ mD r = 1
  | HBlast _ | HBubble _ | HFourQuadrant _ _ _ => True
  | HKelvinHelmholtz rnd p => (kh_rand p = true /\ forall c n, 0 <= rnd c n <= 1) \/ (kh_rand p = false /\ kh_sine_rob p = true)
  | HGresho p => b3 = false /\ gr_rho0 p <> 0 /\ gr_u p = 0 /\ gr_v p = 0 /\ gr_w p = 0
  | HVortex p => iv_p p = iv_rho p * iv_T p /\ 0 < iv_T p /\ 0 < vortex_T (gamma0 h) p (px P) (py P)
  | HRayleigh p => rt_amplitude p = 0
  | HDisk p s => 0 < dk_r (dk_pos b3 p P) /\ 0 <= dk_omega2 p s (dk_pos b3 p P)
  end.
(** No prescribed state is reached. *)
Definition misses (b3 : bool) (h : hparams R) (bx : box R) (pr : hproblem R) (P : point) (u : hs R) : Prop :=
  forall q, prescribed b3 h bx pr P q -> u <> conservative (gamma0 h) q.
