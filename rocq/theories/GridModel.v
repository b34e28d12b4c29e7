(** Grid description and index arithmetic. *)
From Coq Require Import ZArith List Bool.
From Verif Require Import Par.
Open Scope Z_scope.

(** src/shared/enums.h:16-33: variable numbers.  IE is an alias of IP. *)
Definition ID := 0.  Definition IP := 1.  Definition IE := 1.
Definition IU := 2.  Definition IV := 3.  Definition IW := 4.
Definition IA := 5.  Definition IB := 6.  Definition IC := 7.

(** src/shared/enums.h:145-154: BoundaryConditionType. *)
Definition BC_UNDEFINED := 0.
Definition BC_DIRICHLET := 1.
Definition BC_NEUMANN := 2.
Definition BC_PERIODIC := 3.
Definition BC_COPY := 4.

(** src/shared/enums.h:122-133: FaceIdType. *)
Inductive face := FACE_XMIN | FACE_XMAX | FACE_YMIN | FACE_YMAX | FACE_ZMIN | FACE_ZMAX.

(** The integer part of [HydroParams] (src/shared/HydroParams.h).
    The boundary code of a face is any integer: HydroParams::setup casts the
    configured integer without a check (src/shared/HydroParams.cpp:145-156). *)
Record grid := Grid {
  nx : Z; ny : Z; nz : Z;     (* interior cells of this process *)
  gw : Z;                     (* ghostWidth *)
  nbvar : Z;
  bc : face -> Z              (* boundary_type_xmin, ... *)
}.

(** src/shared/HydroParams.cpp:424-435, HydroParams::init: imin = 0,
    imax = nx - 1 + 2*ghostWidth, isize = imax - imin + 1 (same in y, z). *)
Definition imin (g : grid) := 0.
Definition imax (g : grid) := nx g - 1 + 2 * gw g.
Definition jmin (g : grid) := 0.
Definition jmax (g : grid) := ny g - 1 + 2 * gw g.
Definition kmin (g : grid) := 0.
Definition kmax (g : grid) := nz g - 1 + 2 * gw g.
Definition isize (g : grid) := imax g - imin g + 1.
Definition jsize (g : grid) := jmax g - jmin g + 1.
Definition ksize (g : grid) := kmax g - kmin g + 1.

(** src/shared/kokkos_shared.h:14-18 and the KOKKOS_ENABLE_CUDA switch. *)
Inductive layout := LayoutLeft (* CUDA *) | LayoutRight (* OpenMP, Serial *).

(** src/shared/kokkos_shared.h:57-71.  [/] is C division; indices and sizes are
    non-negative, where it coincides with [Z.div].  Machine-integer overflow is
    not modelled here. *)
Definition index2coord2 (ly : layout) (index Nx Ny : Z) : Z * Z :=
  match ly with
  | LayoutLeft => let j := index / Nx in let i := index - j * Nx in (i, j)
  | LayoutRight => let i := index / Ny in let j := index - i * Ny in (i, j)
  end.

(** src/shared/kokkos_shared.h:73-85. *)
Definition coord2index2 (ly : layout) (i j Nx Ny : Z) : Z :=
  match ly with
  | LayoutLeft => i + Nx * j
  | LayoutRight => j + Ny * i
  end.

(** src/shared/kokkos_shared.h:89-106. *)
Definition index2coord3 (ly : layout) (index Nx Ny Nz : Z) : Z * Z * Z :=
  match ly with
  | LayoutLeft =>
      let NxNy := Nx * Ny in
      let k := index / NxNy in
      let j := (index - k * NxNy) / Nx in
      let i := index - j * Nx - k * NxNy in
      (i, j, k)
  | LayoutRight =>
      let NyNz := Ny * Nz in
      let i := index / NyNz in
      let j := (index - i * NyNz) / Nz in
      let k := index - j * Nz - i * NyNz in
      (i, j, k)
  end.

(** src/shared/kokkos_shared.h:108-120. *)
Definition coord2index3 (ly : layout) (i j k Nx Ny Nz : Z) : Z :=
  match ly with
  | LayoutLeft => i + Nx * j + Nx * Ny * k
  | LayoutRight => k + Nz * j + Nz * Ny * i
  end.
