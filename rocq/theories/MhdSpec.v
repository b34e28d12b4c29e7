(** Vocabulary for the statements about the MHD step. *)
From Coq Require Import ZArith List Bool Reals.
From Verif Require Import Arith Par GridModel BoundaryModel BoundarySpec HydroState HydroKernels HydroSpec
  MhdState MhdRiemann MhdPoint.
Import ListNotations.
Open Scope Z_scope.

(** Grids of the MHD solver (src/shared/HydroParams.cpp:56-71: 8 variables, ghost
    width 3). *)
Definition mhd_grid2 (g : grid) : Prop := gw g = 3 /\ nbvar g = 8 /\ 3 <= nx g /\ 3 <= ny g.
Definition mhd_grid3 (g : grid) : Prop := mhd_grid2 g /\ 3 <= nz g.

Section S.
Context {T : Type} {AT : Arith T}.
(** State vector of a cell (2D: k = 0). *)
Definition mst (s : store T) (a i j k : Z) : ms T :=
  MS (s (Loc a i j k ID)) (s (Loc a i j k IP)) (s (Loc a i j k IU)) (s (Loc a i j k IV))
     (s (Loc a i j k IW)) (s (Loc a i j k IA)) (s (Loc a i j k IB)) (s (Loc a i j k IC)).

(** State vector prescribed by the boundary conditions, ghost cells included. *)
Definition mfill2 (g : grid) (s : store T) (a i j : Z) : ms T :=
  let f := filled2d true g (fun i j v => s (Loc a i j 0 v)) i j in
  MS (f ID) (f IP) (f IU) (f IV) (f IW) (f IA) (f IB) (f IC).
Definition mfill3 (g : grid) (s : store T) (a i j k : Z) : ms T :=
  let f := filled3d true g (fun i j k v => s (Loc a i j k v)) i j k in
  MS (f ID) (f IP) (f IU) (f IV) (f IW) (f IA) (f IB) (f IC).

(** Settings with a defined meaning in the MHD solver. *)
Definition mslope_ok (p : mparams T) : Prop :=
  eqb (slope_type (mh p)) one = true \/ eqb (slope_type (mh p)) two = true.
Definition mriemann_ok (p : mparams T) : Prop :=
  In (riemann_type (mh p)) [RIEMANN_HLL; RIEMANN_LLF; RIEMANN_HLLD].

(** Implementation variants 0 (stored fluxes), 1 (atomic updates), 2 (low memory); the
    low-memory one is considered for settings with a defined meaning. *)
Definition variant_ok2 (p : mparams T) (impl : Z) : Prop :=
  impl = 0 \/ impl = 1 \/ (impl = 2 /\ mslope_ok p /\ mriemann_ok p).

(** Discrete divergence of the face-centred magnetic field: Bx is stored at the
    lower x face of a cell, By at the lower y face, Bz at the lower z face. *)
Definition div2 (h : hparams T) (u : Z -> Z -> ms T) (i j : Z) : T :=
  ((mA (u (i + 1)%Z j) - mA (u i j)) / dx h + (mB (u i (j + 1)%Z) - mB (u i j)) / dy h)%A.
Definition div3 (h : hparams T) (u : Z -> Z -> Z -> ms T) (i j k : Z) : T :=
  ((mA (u (i + 1)%Z j k) - mA (u i j k)) / dx h + (mB (u i (j + 1)%Z k) - mB (u i j k)) / dy h
   + (mC (u i j (k + 1)%Z) - mC (u i j k)) / dz h)%A.

(** Values of v for which variable v of a cell is advanced by fluxes: density, energy,
    the three momenta and, in 2D, Bz. *)
Definition cell_centred2 (v : Z) : Prop := 0 <= v <= 4 \/ v = 7.
Definition cell_centred3 (v : Z) : Prop := 0 <= v <= 4.
End S.
