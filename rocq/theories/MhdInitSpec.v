(** Vocabulary for the statements about the MHD initial conditions. *)
From Coq Require Import ZArith List Bool Reals.
From Verif Require Import Arith Par GridModel BoundaryModel HydroState HydroKernels HydroSpec
  MhdState MhdPoint MhdInit.
Import ListNotations.

(** The real functions. *)
Definition RLibm : libm R := Libm sin cos exp atan PI.

(** Freshly allocated memory (Kokkos views are zero-initialised). *)
Definition fresh (s : store R) : Prop := forall l, s l = 0%R.

(** No reflecting wall. *)
Definition open_faces (g : grid) : Prop := forall f, bc g f <> BC_DIRICHLET.

(** Centre of cell (i,j,k) for a domain starting at the lower corner of the box. *)
Definition centre (lo h : R) (w i : Z) : R := (lo + (IZR (i - w) + / 2) * h)%R.

(** The magnetic loop around the origin lies inside the domain: the centres of the first
    interior and of the first cells beyond the interior are outside the loop. *)
Definition loop_contained (g : grid) (h : hparams R) (bx : box R) (radius : R) : Prop :=
  forall i j, (i = gw g \/ i = gw g + nx g \/ j = gw g \/ j = gw g + ny g)%Z ->
    (radius * radius <= Rsqr (centre (xmin bx) (dx h) (gw g) i) + Rsqr (centre (ymin bx) (dy h) (gw g) j))%R.
Definition one_process {T} (bx : box T) : Prop := forall d, mpi bx d = 0%Z.

(** Settings of each problem for which the field is expected to be divergence free. *)
Definition field_setting (b3 : bool) (g : grid) (p : mparams R) (bx : box R) (q : problem (T := R)) : Prop :=
  match q with
  | PImplode q => open_faces g /\ mA (im_out q) = mA (im_in q) /\ mB (im_out q) = mB (im_in q)
                  /\ (b3 = true -> mC (im_out q) = mC (im_in q))
  | PFieldLoop q => all_periodic g /\ one_process bx
                    /\ loop_contained g (mh p) bx (fl_radius q)
  | PWave q => b3 = true -> all_periodic g /\
     exists amplitude ty gam,
       let Lx := (IZR (nx g) * dx (mh p))%R in
       let Ly := (IZR (ny g) * dy (mh p))%R in
       let Lz := (IZR (nz g) * dz (mh p))%R in
       (0 < Lx)%R /\ (0 < Ly)%R /\ (0 < Lz)%R /\
       wave_params RLibm amplitude ty gam Lx Ly Lz = Some q
  | _ => open_faces g
  end.

(** ** Pressure *)
(** Primitive state that the solver derives from a conservative field: the conversion
    loops use the field on the two faces of the cell (MHDRunFunctors2D.h:117-149,
    MHDRunFunctors3D.h:128-155); in 2D they pass 0 for the upper Bz. *)
Definition derived2 (p : mparams R) (U : Z -> Z -> ms R) (i j : Z) : ms R :=
  constoprim_mhd p (U i j) (mA (U (i + 1)%Z j)) (mB (U i (j + 1)%Z)) 0%R.
Definition derived3 (p : mparams R) (U : Z -> Z -> Z -> ms R) (i j k : Z) : ms R :=
  constoprim_mhd p (U i j k) (mA (U (i + 1)%Z j k)) (mB (U i (j + 1)%Z k)) (mC (U i j (k + 1)%Z)).

(** Distance condition of the blast: is the cell centre inside the sphere (disc)? *)
Definition in_blast (b3 : bool) (g : grid) (h : hparams R) (bx : box R) (q : blast R) (i j k : Z) : Prop :=
  let X := (centre (xmin bx) (dx h) (gw g) i - bl_x q)%R in
  let Y := (centre (ymin bx) (dy h) (gw g) j - bl_y q)%R in
  let Z := (centre (zmin bx) (dz h) (gw g) k - bl_z q)%R in
  (X * X + Y * Y + (if b3 then Z * Z else 0) < bl_radius q * bl_radius q)%R.

(** Outer region of the implosion. *)
Definition in_outer (b3 : bool) (g : grid) (h : hparams R) (bx : box R) (q : implode R) (i j k : Z) : Prop :=
  let S := (centre (xmin bx) (dx h) (gw g) i + centre (ymin bx) (dy h) (gw g) j
            + (if b3 then centre (zmin bx) (dz h) (gw g) k else 0))%R in
  if (im_shape q =? 1)%Z then (/ 2 < S < 5 / 2)%R
  else ((xmin bx + xmax bx) / 2 + ymin bx + (if b3 then zmin bx else 0) < S)%R.

(** The pressure that the parameters of the problem prescribe at a cell. *)
Definition prescribed_pressure (b3 : bool) (g : grid) (p : mparams R) (bx : box R)
  (q : problem (T := R)) (i j k : Z) (P : R) : Prop :=
  match q with
  | PBlast q => (in_blast b3 g (mh p) bx q i j k /\ P = bl_p_in q)
                \/ (~ in_blast b3 g (mh p) bx q i j k /\ P = bl_p_out q)
  | PImplode q => (in_outer b3 g (mh p) bx q i j k /\ P = mP (im_out q))
                  \/ (~ in_outer b3 g (mh p) bx q i j k /\ P = mP (im_in q))
  | POrszagTang _ => P = (gamma0 (mh p) / (4 * PI))%R
  | PKelvinHelmholtz _ q => P = kh_pressure q
  | PRotor q => P = ro_p0 q
  | PFieldLoop _ => P = 1%R
  | PWave q => P = wv_p0 q
  end.
(** Settings for which the prescribed pressure is expected: the problem writes a state
    (Kelvin-Helmholtz has a perturbation), flow at rest for the implosion; the
    wave is a perturbation and prescribes no pressure pointwise. *)
Definition pressure_setting (b3 : bool) (g : grid) (p : mparams R) (bx : box R) (q : problem (T := R)) : Prop :=
  match q with
  | PKelvinHelmholtz _ q => kh_rand q = true \/ kh_sine_rob q = true \/ kh_sine q = true
  | PImplode q => forall r, r = im_in q \/ r = im_out q -> mU r = 0%R /\ mV r = 0%R /\ mW r = 0%R
  | PWave _ => False
  | _ => True
  end.
