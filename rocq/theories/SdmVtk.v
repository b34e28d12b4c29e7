(** Result files of the spectral difference solver: VTK unstructured grids,
    src/utils/io/IO_VTK_SDM.h, IO_VTK_SDM_shared.cpp and IO_ReadWrite_SDM.h.

    A file is a text header and the contents of the arrays; of the header we keep the numbers
    and names a reader uses.  Not modelled: the rendering of numbers as text, the rounding of the
    node positions to float, dates, byte order attributes, directories, machine integers
    (the products of sizes are not bounded here).  Kokkos::deep_copy: the host array is the
    device array. *)
From Coq Require Import ZArith List Bool String.
From Verif Require Import Arith Par GridModel HydroState HydroKernels CellKernels MhdState MhdInit MoodKernels IoModel SdmGeom SdmKernels.
Import ListNotations.
Open Scope Z_scope.

Section SdmVtk.
Context {T : Type} {A : Arith T}.
Variable b3 : bool.
Variable P : points T.
Variable g : grid.
Variable h : hparams T.
Variable bx : MhdInit.box T.
Variable s : store T.
Notation N := (npts P).
(** nz, N and N + 1 along z; in 2D the loops over k and idz do not exist. *)
Definition alongz (n : Z) : Z := if b3 then n else 1.

(** The nested loops: the last coordinate outside, the first inside. *)
Definition loop3 (a b c : Z) : list (Z * Z * Z) :=
  flat_map (fun k => flat_map (fun j => map (fun i => (i, j, k)) (zrange 0 a)) (zrange 0 b)) (zrange 0 c).
Definition vcells : list (Z * Z * Z) := loop3 (nx g) (ny g) (alongz (nz g)).
Definition vsub (n : Z) : list (Z * Z * Z) := loop3 n n (alongz n).

(** write_nodes_location (38-143, 154-290), and the same loops in write_appended_binary_data
    (829-898, 1081-1181). *)
Definition node1 (o d : T) (id : Z) : T :=
  if id =? 0 then o else if id =? N then (o + d)%A else (o + lit 1 2 * (solp P (id - 1) + solp P id) * d)%A.
Definition vnode (c q : Z * Z * Z) : T * T * T :=
  let '(i, j, k) := c in let '(idx, idy, idz) := q in
  (node1 (xmin bx + ofZ (i + nx g * mpi bx IX)%Z * dx h)%A (dx h) idx,
   node1 (ymin bx + ofZ (j + ny g * mpi bx IY)%Z * dy h)%A (dy h) idy,
   if b3 then node1 (zmin bx + ofZ (k + nz g * mpi bx IZ)%Z * dz h)%A (dz h) idz else zero).
Definition vnodes : list (T * T * T) := flat_map (fun c => map (vnode c) (vsub (N + 1))) vcells.

(** write_cells_connectivity (300-440 and 450-593): corners, offsets and types of the sub-cells;
    the same loops in 903-991 and 1186-1275. *)
Definition nbNodesPerCell : Z := if b3 then (N + 1) * (N + 1) * (N + 1) else (N + 1) * (N + 1).
Definition nbSubCells : Z := if b3 then N * N * N else N * N.
Definition vcorners (c q : Z * Z * Z) : list Z :=
  let '(i, j, k) := c in let '(idx, idy, idz) := q in
  let N1 := N + 1 in let N2 := (N + 1) * (N + 1) in
  if b3 then
    let offset := (i + nx g * j + nx g * ny g * k) * nbNodesPerCell in
    [offset + idx + N1 * idy + N2 * idz; offset + idx + 1 + N1 * idy + N2 * idz;
     offset + idx + 1 + N1 * (idy + 1) + N2 * idz; offset + idx + N1 * (idy + 1) + N2 * idz;
     offset + idx + N1 * idy + N2 * (idz + 1); offset + idx + 1 + N1 * idy + N2 * (idz + 1);
     offset + idx + 1 + N1 * (idy + 1) + N2 * (idz + 1); offset + idx + N1 * (idy + 1) + N2 * (idz + 1)]
  else
    let offset := (i + nx g * j) * nbNodesPerCell in
    [offset + idx + (N + 1) * idy; offset + idx + 1 + (N + 1) * idy;
     offset + idx + 1 + (N + 1) * (idy + 1); offset + idx + (N + 1) * (idy + 1)].
Definition vconnectivity : list Z := flat_map (fun c => flat_map (vcorners c) (vsub N)) vcells.
Definition nbCells : Z := if b3 then nx g * ny g * nz g * nbSubCells else nx g * ny g * N * N.
Definition perCell : Z := if b3 then 8 else 4.
Definition voffsets : list Z := map (fun i => perCell * i) (zrange 1 (nbCells + 1)).
Definition vtypes : list Z := map (fun _ => if b3 then 12 else 9) (zrange 0 nbCells).

(** write_cells_data (598-677, 683-770), one variable; 999-1033, 1283-1328. *)
Definition vdata (iVar : Z) : list T :=
  flat_map (fun c => map (fun q => let '(i, j, k) := c in
                              s (sloc b3 P aU (gw g + i, gw g + j, if b3 then gw g + k else 0) q iVar)) (vsub N)) vcells.

(** variables_names.size(): SolverHydroSDM.h:445-453. *)
Definition nbNames : Z := if b3 then 5 else 4.
(** The content of a file: NumberOfPoints and NumberOfCells of the piece (1428-1434, 1551-1557)
    and the arrays, in this order. *)
Record vtu := Vtu { vt_npoints : Z; vt_ncells : Z; vt_nodes : list (T * T * T); vt_connectivity : list Z; vt_offsets : list Z;
                    vt_types : list Z; vt_vars : list (string * list T) }.
Definition nbNodes : Z := if b3 then nx g * ny g * nz g * (N + 1) * (N + 1) * (N + 1) else nx g * ny g * (N + 1) * (N + 1).
Definition save_sdm : vtu :=
  Vtu nbNodes nbCells vnodes vconnectivity voffsets vtypes (map (fun v => (variables_names v, vdata v)) (zrange 0 nbNames)).

(** ** Binary files.  [encf], [enc64], [enc8], [encr]: the bytes of a float, of an uint64_t, of
    an unsigned char and of a real_t; [real_size] is sizeof(real_t). *)
Variable byte : Type.
Variable real_size : Z.
Variable encf encr : T -> list byte.
Variable enc64 enc8 : Z -> list byte.
(** The increments of offsetBytes (140, 288; 341, 492; 391, 555; 420, 581; 642, 729): the
    announced offset of an array is the sum of the increments before it. *)
Definition increments : list Z :=
  [8 + 4 * nbNodes * 3; 8 + 8 * nbCells * perCell; 8 + 8 * nbCells; 8 + 1 * nbCells]
  ++ map (fun _ => 8 + real_size * nbCells) (zrange 0 nbNames).
Fixpoint running (o : Z) (l : list Z) : list Z := match l with [] => [] | x :: l => o :: running (o + x) l end.
Definition announced : list Z := running 0 increments.
(** write_appended_binary_data: each array preceded by its size in bytes; [size] bytes of the
    vector are written. *)
Definition block (size : Z) (content : list byte) : list byte := enc64 size ++ firstn (Z.to_nat size) content.
Definition contents : list (Z * list byte) :=
  [(4 * nbNodes * 3, flat_map (fun p => let '(x, y, z) := p in encf x ++ encf y ++ encf z) vnodes);
   (8 * nbCells * perCell, flat_map enc64 vconnectivity);
   (8 * nbCells, flat_map enc64 voffsets);
   (1 * nbCells, flat_map enc8 vtypes)]
  ++ map (fun v => (real_size * nbCells, flat_map encr (vdata v))) (zrange 0 nbNames).
Definition appended : list byte := flat_map (fun x => block (fst x) (snd x)) contents.
End SdmVtk.
Arguments vtu : clear implicits.

(** ** File names (1388-1417, 1511-1540; write_pvtu_header: IO_VTK_SDM_shared.cpp:204-219), without the
    directory.  [d7], [d5]: a number with at least seven, five digits. *)
Section Names.
Variable d7 d5 : Z -> string.
Variable prefix : string.
Definition vtu_serial (debug : string) (step : Z) : string :=
  (if String.eqb debug "" then prefix ++ "_" ++ d7 step ++ ".vtu" else prefix ++ "_" ++ debug ++ "_" ++ d7 step ++ ".vtu")%string.
(** With MPI the name is computed again, without the debug name. *)
Definition vtu_mpi (debug : string) (step rank : Z) : string := (prefix ++ "_time" ++ d7 step ++ "_mpi" ++ d5 rank ++ ".vtu")%string.
Definition pvtu_name (debug : string) (step : Z) : string :=
  (if String.eqb debug "" then prefix ++ "_time" ++ d7 step ++ ".pvtu" else prefix ++ "_" ++ debug ++ "_time" ++ d7 step ++ ".pvtu")%string.
Definition pvtu_pieces (nProcs step : Z) : list string :=
  map (fun i => (prefix ++ "_time" ++ d7 step ++ "_mpi" ++ d5 i ++ ".vtu")%string) (zrange 0 nProcs).
End Names.
