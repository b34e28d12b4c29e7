(** netCDF result files: src/utils/io/IO_PNETCDF.h (Save_PNETCDF) and the calls of
    IO_ReadWrite::save_data_impl (src/utils/io/IO_ReadWrite.cpp:112-119, 160-167).

    Not modelled: the creation mode, the creation date and the text attributes,
    timings and file names.  The library's collective hyperslab write is that of
    IoModel: the selected points in row-major order, the assignments of the
    processes in any order.  A failing call only prints a message (IO_PNETCDF.h:24-28). *)
From Coq Require Import ZArith List Bool String.
From Verif Require Import Arith Par GridModel MpiModel IoModel.
Import ListNotations.
Open Scope Z_scope.

Section Nc.
Context {TT T : Type}.
Variable b3 mhd : bool.
Variable ly : layout.
Variable g : grid.
Variable tp : topo.

(** iStop, jStop, kStop (IO_PNETCDF.h:514-521), which are also the counts
    (453-502): the last process in a direction adds the ghost cells.  In 2D kStop
    is not used (coords[IZ] is then not initialised). *)
Definition nc_stops (r : nat) : Z * Z * Z :=
  let '(cx, cy, cz) := coords tp r in
  (if cx =? mx tp - 1 then nx g + 2 * gw g else nx g,
   if cy =? my tp - 1 then ny g + 2 * gw g else ny g,
   if cz =? mz tp - 1 then nz g + 2 * gw g else nz g).

(** The loops of copy_buffer (69-102 in 2D, 104-135 in 3D): the cells in the
    order in which they are appended to the buffer. *)
Definition nc_loop (stops : Z * Z * Z) : list (Z * Z * Z) :=
  let '(iStop, jStop, kStop) := stops in
  match ly with
  | LayoutRight =>
      flat_map (fun k => flat_map (fun j => map (fun i => (i, j, k)) (zrange 0 iStop)) (zrange 0 jStop)) (zrange 0 (if b3 then kStop else 1))
  | LayoutLeft =>
      flat_map (fun i => flat_map (fun j => map (fun k => (i, j, k)) (zrange 0 (if b3 then kStop else 1))) (zrange 0 jStop)) (zrange 0 iStop)
  end.
(** copy_buffer: [m] is the host array, [data0] what the buffer held before. *)
Definition nc_buffer (m data0 : buf T) (r : nat) (v : Z) : buf T :=
  fst (fold_left (fun (d : buf T * Z) c => let '(i, j, k) := c in (bupd (fst d) (snd d) (m (voff b3 ly g i j k v)), snd d + 1))
        (nc_loop (nc_stops r)) (data0, 0)).

(** Dimensions of the file (299-328) and the part of process [r] (453-502). *)
Definition nc_memory (r : nat) : space :=
  let '(iStop, jStop, kStop) := nc_stops r in
  Space (dims_of b3 kStop jStop iStop) (dims_of b3 (0, 1, 1, kStop) (0, 1, 1, jStop) (0, 1, 1, iStop)).
Definition nc_space (r : nat) : space :=
  let '(cx, cy, cz) := coords tp r in
  let '(iStop, jStop, kStop) := nc_stops r in
  Space (dims_of b3 (mz tp * nz g + 2 * gw g) (my tp * ny g + 2 * gw g) (mx tp * nx g + 2 * gw g))
        (dims_of b3 (cz * nz g, 1, 1, kStop) (cy * ny g, 1, 1, jStop) (cx * nx g, 1, 1, iStop)).

(** The variables defined (347-399): name and identifier; the identifiers index
    [varIds], an array of [nv] integers (212). *)
Definition nc_names (v : Z) : string :=
  if v =? ID then "rho" else if v =? IP then "E" else if v =? IU then "rho_vx" else if v =? IV then "rho_vy"
  else if v =? IW then "rho_vz" else if v =? IA then "Bx" else if v =? IB then "By" else if v =? IC then "Bz" else "".
Definition nc_fields : list Z :=
  if b3 then [ID; IP; IU; IV; IW] ++ (if mhd then [IA; IB; IC] else [])
  else [ID; IP; IU; IV] ++ (if mhd then [IW; IA; IB; IC] else []).

(** Outcome of Save_PNETCDF::save (165-633) for [nv] variables ([nbvar] of the
    constructor): undefined behaviour when an identifier is stored outside of
    [varIds] or read without having been defined, a file otherwise. *)
Inductive nc_outcome := NcUndefined | NcFile (sets : list (string * dataset T)) (step : Z) (time : TT).
Definition nc_defined (nv : Z) : bool :=
  forallb (fun v => v <? nv) nc_fields && forallb (fun v => existsb (Z.eqb v) nc_fields) (zrange 0 nv).
Definition save_nc (nv : Z) (fill : T) (m : nat -> buf T) (junk : nat -> Z -> buf T) (iStep : Z) (totalTime : TT) (o : nc_outcome) : Prop :=
  if nc_defined nv then
    exists sets, o = NcFile sets iStep totalTime /\ map fst sets = map nc_names nc_fields /\
      forall n v nd, nth_error nc_fields n = Some v -> nth_error sets n = Some nd ->
        collective (H5Dcreate fill (nc_space 0))
          (map (fun r => write_list (H5Dcreate fill (nc_space r)) (nc_memory r) (nc_space r) (nc_buffer (m r) (junk r v) r v)) (List.seq 0 (nprocs tp)))
          (snd nd)
  else o = NcUndefined.
(** IO_ReadWrite::save_data_impl passes HYDRO_2D_NBVAR in 2D and in 3D
    (IO_ReadWrite.cpp:115-117, 163-165; HYDRO_2D_NBVAR = 4). *)
Definition save_data_nc := save_nc 4.
End Nc.
Arguments nc_outcome : clear implicits.
