(** Vocabulary for the statements about result files. *)
From Coq Require Import ZArith List Bool String.
From Verif Require Import Arith Par GridModel MpiModel IoModel.
Import ListNotations.
Open Scope Z_scope.

(** Element (i,j,k,v) of the array stored in [m] (k is ignored in 2D). *)
Definition elem {T} (b3 : bool) (ly : layout) (g : grid) (m : buf T) (i j k v : Z) : T := m (voff b3 ly g i j k v).

(** Index ranges: the whole array, and its interior. *)
Definition in_array (b3 : bool) (g : grid) (i j k : Z) : Prop :=
  0 <= i < isize g /\ 0 <= j < jsize g /\ (if b3 then 0 <= k < ksize g else k = 0).
Definition interior (b3 : bool) (g : grid) (i j k : Z) : Prop :=
  gw g <= i < gw g + nx g /\ gw g <= j < gw g + ny g /\ (if b3 then gw g <= k < gw g + nz g else k = 0).

(** The grids of the solvers: number of variables 4 (2D hydro), 5 (3D hydro), 8 (MHD). *)
Definition io_grid (b3 mhd : bool) (g : grid) : Prop :=
  0 < nx g /\ 0 < ny g /\ (b3 = true -> 0 < nz g) /\ 0 <= gw g /\ nbvar g = (if mhd then 8 else if b3 then 5 else 4).

(** A file holds the field [G] on the box of size [NX] x [NY] ( x [NZ]): every
    variable has a dataset of these extents, stored x-fastest. *)
Definition file_holds {TT T} (b3 mhd : bool) (NX NY NZ : Z) (G : Z -> Z -> Z -> Z -> T) (f : h5file TT T) : Prop :=
  forall v, In v (fields b3 mhd) ->
    exists ds, find_set (h_sets f) (variables_names v) = Some ds /\
      ds_dims ds = (if b3 then [NZ; NY; NX] else [NY; NX]) /\
      forall i j k, 0 <= i < NX -> 0 <= j < NY -> (if b3 then 0 <= k < NZ else k = 0) ->
        ds_val ds (i + NX * (j + NY * k)) = G i j k v.

(** Position in the global grid of a cell of process [r]. *)
Definition global_index (tp : topo) (g : grid) (r : nat) (i j k : Z) : Z * Z * Z :=
  let '(cx, cy, cz) := coords tp r in
  (cx * nx g + (i - gw g), cy * ny g + (j - gw g), cz * nz g + (k - gw g)).

(** The decomposition of a 2D problem has one layer in z. *)
Definition io_topo (b3 : bool) (tp : topo) : Prop :=
  0 < mx tp /\ 0 < my tp /\ 0 < mz tp /\ (b3 = false -> mz tp = 1).

(** Refinement by two: the parent of a fine cell in an array with the same ghost
    width, and the fine field.  Cell averages are repeated; the magnetic field
    component normal to a face is repeated on the parent's face and averaged half
    way between two of them. *)
Definition parent (g : grid) (i : Z) : Z := gw g + (i - gw g) / 2.
Definition refined {T} {AT : Arith T} (b3 : bool) (g : grid) (F : Z -> Z -> Z -> Z -> T) (i j k v : Z) : T :=
  let '(pi, pj, pk) := (parent g i, parent g j, if b3 then parent g k else 0) in
  let half (x y : T) : T := div (add x y) two in
  if (v =? IA) && Z.odd (i - gw g) then half (F pi pj pk v) (F (pi + 1) pj pk v)
  else if (v =? IB) && Z.odd (j - gw g) then half (F pi pj pk v) (F pi (pj + 1) pk v)
  else if b3 && (v =? IC) && Z.odd (k - gw g) then half (F pi pj pk v) (F pi pj (pk + 1) v)
  else F pi pj pk v.

(** A grid twice as fine. *)
Definition twice (b3 : bool) (gc g : grid) : Prop :=
  nx g = 2 * nx gc /\ ny g = 2 * ny gc /\ (b3 = true -> nz g = 2 * nz gc) /\ gw g = gw gc /\ nbvar g = nbvar gc.
