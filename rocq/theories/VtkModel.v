(** VTK image files: src/utils/io/IO_VTK.cpp.  A file is a text header with numbers in it and
    the values; of the header we keep the numbers a reader uses (extents, names, offsets).
    The rendering of numbers as text, origin, spacing and byte order attributes and the file
    names are not modelled. *)
From Coq Require Import ZArith List Bool String.
From Verif Require Import Par GridModel MpiModel IoModel.
Import ListNotations.
Open Scope Z_scope.

(** C++ int arithmetic: [None] is a signed overflow (undefined behaviour). *)
Definition int_max : Z := 2147483647.
Definition imul (a b : option Z) : option Z :=
  match a, b with
  | Some x, Some y => if (- int_max - 1 <=? x * y) && (x * y <=? int_max) then Some (x * y) else None
  | _, _ => None
  end.

Section Vtk.
Context {T : Type}.
Variable b3 : bool.
Variable g : grid.
(** Uhost(i, j, k, iVar), resp. Uhost(i, j, iVar). *)
Variable U : Z -> Z -> Z -> Z -> T.

(** The ASCII loop over one variable: 2D IO_VTK.cpp:133-147 (in parallel 530-545), 3D 330-346
    (721-736).  The values in the order written. *)
Definition ascii_values (iVar : Z) : list T :=
  if b3 then
    flat_map (fun index =>
      let ijsize := isize g * jsize g in
      let k := index / ijsize in
      let j := (index - k * ijsize) / isize g in
      let i := index - j * isize g - k * ijsize in
      if (kmin g + gw g <=? k) && (k <=? kmax g - gw g) && (jmin g + gw g <=? j) && (j <=? jmax g - gw g)
         && (imin g + gw g <=? i) && (i <=? imax g - gw g)
      then [U i j k iVar] else []) (zrange 0 (isize g * jsize g * ksize g))
  else
    flat_map (fun index =>
      let j := index / isize g in
      let i := index - j * isize g in
      if (jmin g + gw g <=? j) && (j <=? jmax g - gw g) && (imin g + gw g <=? i) && (i <=? imax g - gw g)
      then [U i j 0 iVar] else []) (zrange 0 (isize g * jsize g)).

(** The binary loops over one variable: 2D 194-199 (589-594), 3D 394-400 (783-795). *)
Definition binary_values (iVar : Z) : list T :=
  let row j k := map (fun i => U i j k iVar) (zrange (imin g + gw g) (imax g - gw g + 1)) in
  let plane k := flat_map (fun j => row j k) (zrange (jmin g + gw g) (jmax g - gw g + 1)) in
  if b3 then flat_map plane (zrange (kmin g + gw g) (kmax g - gw g + 1)) else plane 0.

(** The DataArray elements of an ASCII file (126-149, 318-348): names and values. *)
Definition ascii_arrays : list (string * list T) :=
  map (fun iVar => (variables_names iVar, ascii_values iVar)) (zrange 0 (nbvar g)).

(** Binary files.  [real_size] is sizeof(real_t); a value of type real_t and an uint64_t are
    written as the bytes [enc x], [enc64 n] of their representation in memory. *)
Variable byte : Type.
Variable real_size : Z.
Variable enc : T -> list byte.
Variable enc64 : Z -> list byte.

(** [iVar * nx * ny * sizeof(real_t) + iVar * sizeof(uint64_t)] (177, 376-377): products of
    ints up to the first sizeof, of size_t from there on. *)
Definition offset_of (iVar : Z) : option Z :=
  let p := imul (imul (Some iVar) (Some (nx g))) (Some (ny g)) in
  let q := if b3 then imul p (Some (nz g)) else p in
  match q with Some n => Some (n * real_size + iVar * 8) | None => None end.
(** [nx * ny * sizeof(real_t)] (190, 390). *)
Definition nbOfWords : option Z :=
  let p := imul (Some (nx g)) (Some (ny g)) in
  let q := if b3 then imul p (Some (nz g)) else p in
  match q with Some n => Some (n * real_size) | None => None end.

(** Names and offsets announced (160-178, 360-379). *)
Definition binary_header : list (string * option Z) := map (fun iVar => (variables_names iVar, offset_of iVar)) (zrange 0 (nbvar g)).
(** The bytes after the underscore (188-200, 388-402), up to the closing tag. *)
Definition appended_data : option (list byte) :=
  match nbOfWords with
  | None => None
  | Some n => Some (flat_map (fun iVar => enc64 n ++ flat_map enc (binary_values iVar)) (zrange 0 (nbvar g)))
  end.
End Vtk.

(** Extents (x, y, z), each a pair. *)
Definition extent3 := ((Z * Z) * (Z * Z) * (Z * Z))%type.

(** Extents in a serial file (107-112, 299-304). *)
Definition vti_extent (b3 : bool) (g : grid) : extent3 := ((0, nx g), (0, ny g), (0, if b3 then nz g else 0)).
(** WholeExtent and Piece Extent in the file of process [r] (425-428 with 501-507, 613-620 with
    691-697). *)
Definition vti_extent_mpi (b3 : bool) (g : grid) (tp : topo) (r : nat) : extent3 :=
  let '(cx, cy, cz) := coords tp r in
  ((cx * nx g, cx * nx g + nx g), (cy * ny g, cy * ny g + ny g),
   if b3 then (cz * nz g, cz * nz g + nz g) else (0, 0)).
(** write_pvti_header (860-1005): WholeExtent (919-925) and the pieces (944-1000). *)
Definition pvti_whole (b3 : bool) (g : grid) (tp : topo) : extent3 :=
  let nz := if b3 then nz g else 0 in let mz := if b3 then mz tp else 0 in
  ((0, mx tp * nx g), (0, my tp * ny g), (0, mz * nz)).
Definition pvti_piece (b3 : bool) (g : grid) (tp : topo) (r : nat) : extent3 :=
  let '(cx, cy, cz) := coords tp r in
  let side c n := if c =? 0 then (0, n) else (c * n, c * n + n) in
  (side cx (nx g), side cy (ny g), if b3 then side cz (nz g) else (0, 1)).
