(** C07: linear indices and coordinates are in bijection. *)
From Coq Require Import ZArith.
From Verif Require Import GridModel GridProofs.
Open Scope Z_scope.

Theorem C07_coord_index_roundtrip_2d : forall ly i j Nx Ny,
  0 <= i < Nx -> 0 <= j < Ny ->
  0 <= coord2index2 ly i j Nx Ny < Nx * Ny /\
  index2coord2 ly (coord2index2 ly i j Nx Ny) Nx Ny = (i, j).
Proof. exact coord_index2. Qed.
Print Assumptions C07_coord_index_roundtrip_2d.

Theorem C07_index_coord_roundtrip_2d : forall ly index Nx Ny,
  0 < Nx -> 0 < Ny -> 0 <= index < Nx * Ny ->
  exists i j, index2coord2 ly index Nx Ny = (i, j) /\ 0 <= i < Nx /\ 0 <= j < Ny /\
    coord2index2 ly i j Nx Ny = index.
Proof. exact index_coord2. Qed.
Print Assumptions C07_index_coord_roundtrip_2d.

Theorem C07_coord_index_roundtrip_3d : forall ly i j k Nx Ny Nz,
  0 <= i < Nx -> 0 <= j < Ny -> 0 <= k < Nz ->
  0 <= coord2index3 ly i j k Nx Ny Nz < Nx * Ny * Nz /\
  index2coord3 ly (coord2index3 ly i j k Nx Ny Nz) Nx Ny Nz = (i, j, k).
Proof. exact coord_index3. Qed.
Print Assumptions C07_coord_index_roundtrip_3d.

Theorem C07_index_coord_roundtrip_3d : forall ly index Nx Ny Nz,
  0 < Nx -> 0 < Ny -> 0 < Nz -> 0 <= index < Nx * Ny * Nz ->
  exists i j k, index2coord3 ly index Nx Ny Nz = (i, j, k) /\
    0 <= i < Nx /\ 0 <= j < Ny /\ 0 <= k < Nz /\
    coord2index3 ly i j k Nx Ny Nz = index.
Proof. exact index_coord3. Qed.
Print Assumptions C07_index_coord_roundtrip_3d.

(** The hypotheses are met, with different sizes per direction. *)
Example C07_nonvacuous :
  (0 <= 2 < 3 /\ 0 <= 4 < 5 /\ 0 <= 1 < 7) /\
  coord2index3 LayoutLeft 2 4 1 3 5 7 = 29 /\ index2coord3 LayoutLeft 29 3 5 7 = (2, 4, 1) /\
  coord2index3 LayoutRight 2 4 1 3 5 7 = 99 /\ index2coord3 LayoutRight 99 3 5 7 = (2, 4, 1).
Proof. repeat split; discriminate. Qed.
