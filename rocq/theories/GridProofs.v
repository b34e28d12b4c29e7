(** Linear indices and coordinates. *)
From Coq Require Import ZArith List Bool Lia.
From Verif Require Import Par ParProofs GridModel BoundaryProofs.
Open Scope Z_scope.

Lemma coord_index2 ly i j Nx Ny : 0 <= i < Nx -> 0 <= j < Ny ->
  0 <= coord2index2 ly i j Nx Ny < Nx * Ny /\
  index2coord2 ly (coord2index2 ly i j Nx Ny) Nx Ny = (i, j).
Proof.
  intros Hi Hj. destruct ly; cbn [coord2index2 index2coord2]; cbv zeta.
  - replace (i + Nx * j) with (j * Nx + i) by ring. split; [nia|].
    rewrite div_split by lia. f_equal. ring.
  - replace (j + Ny * i) with (i * Ny + j) by ring. split; [nia|].
    rewrite div_split by lia. f_equal. ring.
Qed.

Lemma index_coord2 ly index Nx Ny : 0 < Nx -> 0 < Ny -> 0 <= index < Nx * Ny ->
  exists i j, index2coord2 ly index Nx Ny = (i, j) /\ 0 <= i < Nx /\ 0 <= j < Ny /\
    coord2index2 ly i j Nx Ny = index.
Proof.
  intros Hx Hy Hi. destruct ly; cbn [coord2index2 index2coord2]; cbv zeta; eexists _, _; (split; [reflexivity|]).
  - pose proof (Z.div_mod index Nx). pose proof (Z.mod_pos_bound index Nx).
    assert (0 <= index / Nx < Ny) by (split; [apply Z.div_pos; lia|apply Z.div_lt_upper_bound; lia]).
    repeat split; lia.
  - pose proof (Z.div_mod index Ny). pose proof (Z.mod_pos_bound index Ny).
    assert (0 <= index / Ny < Nx) by (split; [apply Z.div_pos; lia|apply Z.div_lt_upper_bound; lia]).
    repeat split; lia.
Qed.

Lemma coord_index3 ly i j k Nx Ny Nz : 0 <= i < Nx -> 0 <= j < Ny -> 0 <= k < Nz ->
  0 <= coord2index3 ly i j k Nx Ny Nz < Nx * Ny * Nz /\
  index2coord3 ly (coord2index3 ly i j k Nx Ny Nz) Nx Ny Nz = (i, j, k).
Proof.
  intros Hi Hj Hk. destruct ly; cbn [coord2index3 index2coord3]; cbv zeta.
  - destruct (dec3 Nx Ny i j k Hi Hj) as (D1 & D2 & D3).
    replace (i + Nx * j + Nx * Ny * k) with (k * (Nx * Ny) + (j * Nx + i)) by ring.
    split; [assert (0 <= j * Nx + i < Nx * Ny) by nia; nia|].
    replace (k * Nx * Ny) with (k * (Nx * Ny)) in D2, D3 by ring.
    rewrite D1, D2, D3. reflexivity.
  - destruct (dec3 Nz Ny k j i Hk Hj) as (D1 & D2 & D3).
    replace (k + Nz * j + Nz * Ny * i) with (i * (Nz * Ny) + (j * Nz + k)) by ring.
    split; [assert (0 <= j * Nz + k < Nz * Ny) by nia; nia|].
    replace (Ny * Nz) with (Nz * Ny) by ring.
    replace (i * Nz * Ny) with (i * (Nz * Ny)) in D2, D3 by ring.
    rewrite D1, D2, D3. reflexivity.
Qed.

Lemma index_coord3 ly index Nx Ny Nz : 0 < Nx -> 0 < Ny -> 0 < Nz -> 0 <= index < Nx * Ny * Nz ->
  exists i j k, index2coord3 ly index Nx Ny Nz = (i, j, k) /\ 0 <= i < Nx /\ 0 <= j < Ny /\ 0 <= k < Nz /\
    coord2index3 ly i j k Nx Ny Nz = index.
Proof.
  intros Hx Hy Hz Hi. destruct ly; cbn [coord2index3 index2coord3]; cbv zeta.
  - destruct (dec3_ex Nx Ny index) as (i & j & k & E1 & E2 & E3 & D1 & D2 & D3 & D4); try lia.
    exists i, j, k. rewrite E1. replace (k * (Nx * Ny)) with (k * Nx * Ny) by ring. rewrite E2, E3.
    split; [reflexivity|]. repeat split; try lia; nia.
  - destruct (dec3_ex Nz Ny index) as (k & j & i & E1 & E2 & E3 & D1 & D2 & D3 & D4); try lia.
    exists i, j, k. replace (Ny * Nz) with (Nz * Ny) by ring.
    rewrite E1. replace (i * (Nz * Ny)) with (i * Nz * Ny) by ring. rewrite E2, E3.
    split; [reflexivity|]. repeat split; try lia; nia.
Qed.
