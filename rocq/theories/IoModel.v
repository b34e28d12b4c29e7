(** Result files: src/utils/io/IO_HDF5.h (Save_HDF5, Save_HDF5_mpi, Load_HDF5,
    Load_HDF5_mpi) and the subset of the HDF5 library they use.

    [real_t] is double (USE_DOUBLE), so that the conversions to and from the file
    type are the identity.  Compression and chunking do not change the contents
    of a dataset and are not modelled, nor are the XDMF wrapper, file names and
    timings.  The attributes nx, ny, nz, "ghost zone included" and the creation
    date are never read back and are not modelled.  Offsets are computed in C++
    int; overflow for arrays with more than 2^31 entries is not modelled here. *)
From Coq Require Import ZArith List Bool String Permutation.
From Verif Require Import Arith Par GridModel MpiModel.
Import ListNotations.
Open Scope Z_scope.

(** Contents of a block of memory or of a dataset, by position. *)
Definition buf (T : Type) := Z -> T.

Section Memory.
Context {T : Type}.
Definition bupd (m : buf T) (a : Z) (x : T) : buf T := fun b => if b =? a then x else m b.
(** A sequence of assignments, first to last. *)
Definition assign (m : buf T) (l : list (Z * T)) : buf T := fold_left (fun m p => bupd m (fst p) (snd p)) l m.
End Memory.

(** Position of element (i,j,k,v) in a Kokkos view of extents (isize, jsize,
    ksize, nbvar), resp. (isize, jsize, nbvar) in 2D (src/shared/kokkos_shared.h:
    DataArray2d = View<real_t***>, DataArray3d = View<real_t****>), without
    padding. *)
Definition voff (b3 : bool) (ly : layout) (g : grid) (i j k v : Z) : Z :=
  match ly with
  | LayoutLeft => if b3 then i + isize g * (j + jsize g * (k + ksize g * v)) else i + isize g * (j + jsize g * v)
  | LayoutRight => if b3 then ((i * jsize g + j) * ksize g + k) * nbvar g + v else (i * jsize g + j) * nbvar g + v
  end.

(** [for k, for j, for i] (no loop over k in 2D). *)
Definition host_cells (b3 : bool) (g : grid) : list (Z * Z * Z) :=
  flat_map (fun k => flat_map (fun j => map (fun i => (i, j, k)) (zrange 0 (isize g))) (zrange 0 (jsize g)))
           (zrange 0 (if b3 then ksize g else 1)).

(** Size of one variable in the array. *)
Definition vsize (b3 : bool) (g : grid) : Z := isize g * jsize g * (if b3 then ksize g else 1).

(** ** The HDF5 library: dataspaces, hyperslabs, datasets *)

(** H5Sselect_hyperslab: per dimension (start, stride, count, block). *)
Definition slab := list (Z * Z * Z * Z).
Definition slab_range (d : Z * Z * Z * Z) : list Z :=
  let '(start, stride, count, block) := d in
  flat_map (fun c => map (fun b => start + c * stride + b) (zrange 0 block)) (zrange 0 count).
(** The selected points in the order of the library: last dimension fastest. *)
Fixpoint points (s : slab) : list (list Z) :=
  match s with
  | [] => [[]]
  | d :: r => flat_map (fun x => map (cons x) (points r)) (slab_range d)
  end.

(** Row-major (C order) position of a point. *)
Fixpoint product (dims : list Z) : Z := match dims with [] => 1 | n :: r => n * product r end.
Fixpoint offset (dims p : list Z) : Z :=
  match dims, p with n :: ns, x :: xs => x * product ns + offset ns xs | _, _ => 0 end.

(** H5Screate_simple followed by a selection; the initial selection is everything. *)
Record space := Space { sp_dims : list Z; sp_sel : slab }.
Definition whole (dims : list Z) : space := Space dims (map (fun n => (0, 1, n, 1)) dims).

(** A selection must lie within the extents of its space. *)
Fixpoint fits (dims : list Z) (s : slab) : bool :=
  match dims, s with
  | [], [] => true
  | n :: ns, (start, stride, count, block) :: r =>
      (0 <=? start) && (1 <=? stride) && (1 <=? count) && (1 <=? block) && (start + (count - 1) * stride + block <=? n) && fits ns r
  | _, _ => false
  end.

Section Hdf5.
Context {T : Type}.

Record dataset := DS { ds_dims : list Z; ds_val : buf T }.

(** Transfers pair the selected points of memory and file in order; both
    selections must have the same number of points.  The file space must have
    the extents of the dataset; what the library does otherwise is not
    specified here (the transfer is refused), and no positive theorem uses it. *)
Definition pairs (ds : dataset) (memory file : space) : option (list (Z * Z)) :=
  if fits (sp_dims memory) (sp_sel memory) && fits (sp_dims file) (sp_sel file)
     && (if list_eq_dec Z.eq_dec (sp_dims file) (ds_dims ds) then true else false)
     && (List.length (points (sp_sel memory)) =? List.length (points (sp_sel file)))%nat
  then Some (combine (map (offset (sp_dims memory)) (points (sp_sel memory)))
                     (map (offset (sp_dims file)) (points (sp_sel file))))
  else None.

(** H5Dcreate2: a new dataset holds the fill value. *)
Definition H5Dcreate (fill : T) (file : space) : dataset := DS (sp_dims file) (fun _ => fill).
(** The assignments made by H5Dwrite; a refused transfer writes nothing, and the
    callers ignore the status. *)
Definition write_list (ds : dataset) (memory file : space) (data : buf T) : list (Z * T) :=
  match pairs ds memory file with Some l => map (fun p => (snd p, data (fst p))) l | None => [] end.
Definition H5Dwrite (ds : dataset) (memory file : space) (data : buf T) : dataset :=
  DS (ds_dims ds) (assign (ds_val ds) (write_list ds memory file data)).
(** H5Dread; after a refused transfer the callers print a message and go on with
    the buffer as it was (HDF5_CHECK, IO_HDF5.h:13-21). *)
Definition H5Dread (ds : dataset) (memory file : space) (data : buf T) : buf T :=
  match pairs ds memory file with
  | Some l => assign data (map (fun p => (fst p, ds_val ds (snd p))) l)
  | None => data
  end.
End Hdf5.
Arguments dataset : clear implicits.

(** A file: named datasets in the root group and the two attributes read back. *)
Record h5file (TT T : Type) := H5 { h_sets : list (string * dataset T); h_step : Z; h_time : TT }.
Arguments H5 {TT T}. Arguments h_sets {TT T}. Arguments h_step {TT T}. Arguments h_time {TT T}.

(** H5Dopen2. *)
Fixpoint find_set {T} (l : list (string * dataset T)) (name : string) : option (dataset T) :=
  match l with
  | [] => None
  | (n, d) :: r => if String.eqb n name then Some d else find_set r name
  end.

(** m_variables_names (src/shared/SolverBase.cpp:48-55). *)
Definition variables_names (v : Z) : string :=
  if v =? ID then "rho" else if v =? IP then "energy" else if v =? IU then "rho_vx" else if v =? IV then "rho_vy"
  else if v =? IW then "rho_vz" else if v =? IA then "bx" else if v =? IB then "by" else if v =? IC then "bz" else "".

(** The fields written (IO_HDF5.h:394-426) and read (2057-2085), in order. *)
Definition fields (b3 mhd : bool) : list Z :=
  [ID; IE; IU; IV] ++ (if b3 && negb mhd then [IW] else []) ++ (if mhd then [IW; IA; IB; IC] else []).

(** Settings: output.ghostIncluded, output.allghostIncluded,
    output.reassembleInFile, run.restart_upscale. *)
Record ioconf := IoConf { ghostIncluded : bool; allghostIncluded : bool; reassembleInFile : bool; halfResolution : bool }.

(** Extents in the order of the library: z, y, x in 3D, y, x in 2D. *)
Definition dims_of {A} (b3 : bool) (z y x : A) : list A := if b3 then [z; y; x] else [y; x].

Section Io.
Context {TT T : Type} {AT : Arith T}.
Variable b3 mhd : bool.
Variable c : ioconf.
Variable ly : layout.
Variable g : grid.

(** ** Writing *)

(** Save_HDF5::copy_buffer (IO_HDF5.h:105-164) and Save_HDF5_mpi::copy_buffer
    (565-625): the contents of [data] handed to H5Dwrite.  [data0] is what the
    buffer held before. *)
Definition copy_out (m data0 : buf T) (nvar : Z) : buf T :=
  match ly with
  | LayoutRight =>
      assign data0 (map (fun q => let '(i, j, k) := q in
        (i + isize g * j + isize g * jsize g * k, m (voff b3 ly g i j k nvar))) (host_cells b3 g))
  | LayoutLeft => fun n => m (vsize b3 g * nvar + n)
  end.

(** The successive contents of the buffer, field by field. *)
Fixpoint buffers (m data : buf T) (vs : list Z) : list (Z * buf T) :=
  match vs with [] => [] | v :: r => (v, copy_out m data v) :: buffers m (copy_out m data v) r end.

(** Memory dataspace of Save_HDF5::save (IO_HDF5.h:262-342): (start 0, count
    n + 2 ghostWidth) or (start ghostWidth, count n). *)
Definition save_memory : space :=
  Space (dims_of b3 (ksize g) (jsize g) (isize g))
        (if ghostIncluded c
         then dims_of b3 (0, 1, nz g + 2 * gw g, 1) (0, 1, ny g + 2 * gw g, 1) (0, 1, nx g + 2 * gw g, 1)
         else dims_of b3 (gw g, 1, nz g, 1) (gw g, 1, ny g, 1) (gw g, 1, nx g, 1)).
Definition save_file : space :=
  whole (if ghostIncluded c
         then dims_of b3 (nz g + 2 * gw g) (ny g + 2 * gw g) (nx g + 2 * gw g)
         else dims_of b3 (nz g) (ny g) (nx g)).

(** Save_HDF5::save (IO_HDF5.h:210-507) with write_field (168-197).  [m] is the
    host copy of the device array, [iStep] and [totalTime] the attributes. *)
Definition save (fill : T) (m junk : buf T) (iStep : Z) (totalTime : TT) : h5file TT T :=
  H5 (map (fun vd => (variables_names (fst vd), H5Dwrite (H5Dcreate fill save_file) save_memory save_file (snd vd)))
          (buffers m junk (fields b3 mhd)))
     iStep totalTime.

(** ** Reading *)

(** Interpolation of Load_HDF5::copy_buffer (1606-1652 in 2D, 1690-1773 in 3D).
    C++ int division; in the code the plain value is stored first and, for the
    magnetic field, stored again; only the final value is modelled. *)
Definition upscaled (data : buf T) (i j k v : Z) : T :=
  let iL := Z.quot (nx g) 2 + 2 * gw g in
  let jL := Z.quot (ny g) 2 + 2 * gw g in
  let iLow := Z.quot (i + gw g) 2 in
  let jLow := Z.quot (j + gw g) 2 in
  let kLow := if b3 then Z.quot (k + gw g) 2 else 0 in
  let at_ (a b c : Z) := data (a + iL * b + iL * jL * c) in
  if v =? IA then
    if i + gw g - 2 * iLow =? 0 then at_ iLow jLow kLow
    else div (add (at_ iLow jLow kLow) (at_ (iLow + 1) jLow kLow)) two
  else if v =? IB then
    if j + gw g - 2 * jLow =? 0 then at_ iLow jLow kLow
    else div (add (at_ iLow jLow kLow) (at_ iLow (jLow + 1) kLow)) two
  else if b3 && (v =? IC) then
    if k + gw g - 2 * kLow =? 0 then at_ iLow jLow kLow
    else div (add (at_ iLow jLow kLow) (at_ iLow jLow (kLow + 1))) two
  else at_ iLow jLow kLow.

(** Load_HDF5::copy_buffer (1594-1672, 1678-1799): from the buffer to the host
    array [m]. *)
Definition copy_in (data m : buf T) (nvar : Z) : buf T :=
  if halfResolution c then
    assign m (map (fun q => let '(i, j, k) := q in (voff b3 ly g i j k nvar, upscaled data i j k nvar)) (host_cells b3 g))
  else match ly with
  | LayoutRight =>
      assign m (map (fun q => let '(i, j, k) := q in
        (voff b3 ly g i j k nvar, data (i + isize g * j + isize g * jsize g * k))) (host_cells b3 g))
  | LayoutLeft => assign m (map (fun n => (vsize b3 g * nvar + n, data n)) (zrange 0 (vsize b3 g)))
  end.

(** Sizes to read (1900-1925). *)
Definition read_size (n : Z) : Z := if halfResolution c then Z.quot n 2 else n.

(** Dataspaces of Load_HDF5::load (1945-2035). *)
Definition load_memory : space :=
  let '(zr, yr, xr) := (read_size (nz g), read_size (ny g), read_size (nx g)) in
  Space (dims_of b3 (zr + 2 * gw g) (yr + 2 * gw g) (xr + 2 * gw g))
        (if ghostIncluded c
         then dims_of b3 (0, 1, zr + 2 * gw g, 1) (0, 1, yr + 2 * gw g, 1) (0, 1, xr + 2 * gw g, 1)
         else dims_of b3 (gw g, 1, zr, 1) (gw g, 1, yr, 1) (gw g, 1, xr, 1)).
Definition load_file : space :=
  let '(zr, yr, xr) := (read_size (nz g), read_size (ny g), read_size (nx g)) in
  whole (if ghostIncluded c then dims_of b3 (zr + 2 * gw g) (yr + 2 * gw g) (xr + 2 * gw g) else dims_of b3 zr yr xr).

(** Load_HDF5::read_field (1820-1860): [data] is the shared buffer, [m] the host array. *)
Definition read_field (f : h5file TT T) (memory file : space) (dm : buf T * buf T) (v : Z) : buf T * buf T :=
  let data := match find_set (h_sets f) (variables_names v) with
              | Some ds => H5Dread ds memory file (fst dm)
              | None => fst dm
              end in
  (data, copy_in data (snd dm) v).

(** Load_HDF5::load (1872-2140): the host array afterwards, then copied to the
    device, and the two attributes. *)
Definition load (f : h5file TT T) (junk m : buf T) : buf T * Z * TT :=
  (snd (fold_left (read_field f load_memory load_file) (fields b3 mhd) (junk, m)), h_step f, h_time f).

(** ** Parallel files *)
Variable tp : topo.

Definition withGhosts : bool := ghostIncluded c || allghostIncluded c.

(** Memory dataspace of Save_HDF5_mpi::save (IO_HDF5.h:804-1028): one block. *)
Definition save_memory_mpi : space :=
  Space (dims_of b3 (ksize g) (jsize g) (isize g))
        (if withGhosts
         then dims_of b3 (0, 1, 1, nz g + 2 * gw g) (0, 1, 1, ny g + 2 * gw g) (0, 1, 1, nx g + 2 * gw g)
         else dims_of b3 (gw g, 1, 1, nz g) (gw g, 1, 1, ny g) (gw g, 1, 1, nx g)).

(** Position and extents in the file of the piece of process [r], for local
    sizes [zr], [yr], [xr] (save: 1030-1165, load: 2518-2640). *)
Definition piece_file (zr yr xr : Z) (r : nat) : space :=
  let '(cx, cy, cz) := coords tp r in
  let w := 2 * gw g in
  if allghostIncluded c then
    Space (dims_of b3 (mz tp * (zr + w)) (my tp * (yr + w)) (mx tp * (xr + w)))
          (dims_of b3 (cz * (zr + w), 1, 1, zr + w) (cy * (yr + w), 1, 1, yr + w) (cx * (xr + w), 1, 1, xr + w))
  else if ghostIncluded c then
    Space (dims_of b3 (zr * mz tp + w) (yr * my tp + w) (xr * mx tp + w))
          (dims_of b3 (cz * zr, 1, 1, zr + w) (cy * yr, 1, 1, yr + w) (cx * xr, 1, 1, xr + w))
  else
    Space (dims_of b3 (zr * mz tp) (yr * my tp) (xr * mx tp))
          (dims_of b3 (cz * zr, 1, 1, zr) (cy * yr, 1, 1, yr) (cx * xr, 1, 1, xr)).

(** reassembleInFile = false: the pieces are stacked along the slowest dimension
    (804-872, 1038-1064). *)
Definition stacked_file (r : nat) : space :=
  let w := if withGhosts then 2 * gw g else 0 in
  let n := Z.of_nat r in
  if b3 then Space [(nz g + w) * (mx tp * my tp * mz tp); ny g + w; nx g + w]
                   [(n * (nz g + w), 1, 1, nz g + w); (0, 1, 1, ny g + w); (0, 1, 1, nx g + w)]
  else Space [(ny g + w) * (mx tp * my tp); nx g + w]
             [(n * (ny g + w), 1, 1, ny g + w); (0, 1, 1, nx g + w)].

Definition save_file_mpi (r : nat) : space :=
  if reassembleInFile c then piece_file (nz g) (ny g) (nx g) r else stacked_file r.

(** A collective H5Dwrite: the assignments of all processes reach the file in
    some order. *)
Definition collective (ds : dataset T) (lists : list (list (Z * T))) (ds' : dataset T) : Prop :=
  exists l, Permutation l (List.concat lists) /\ ds' = DS (ds_dims ds) (assign (ds_val ds) l).

(** Save_HDF5_mpi::save (640-1510); [m r] is the host array of process [r]. *)
Definition save_mpi (fill : T) (m junk : nat -> buf T) (iStep : Z) (totalTime : TT) (f : h5file TT T) : Prop :=
  h_step f = iStep /\ h_time f = totalTime /\
  map fst (h_sets f) = map variables_names (fields b3 mhd) /\
  forall n v nd, nth_error (fields b3 mhd) n = Some v -> nth_error (h_sets f) n = Some nd ->
    collective (H5Dcreate fill (save_file_mpi 0))
      (map (fun r => match nth_error (buffers (m r) (junk r) (fields b3 mhd)) n with
                     | Some vd => write_list (H5Dcreate fill (save_file_mpi r)) save_memory_mpi (save_file_mpi r) (snd vd)
                     | None => [] end) (List.seq 0 (nprocs tp)))
      (snd nd).

(** Load_HDF5_mpi::load (2254-2795); the reader does not look at
    reassembleInFile. *)
Definition load_memory_mpi : space :=
  let '(zr, yr, xr) := (read_size (nz g), read_size (ny g), read_size (nx g)) in
  let w := 2 * gw g in
  Space (dims_of b3 (zr + w) (yr + w) (xr + w))
        (if withGhosts
         then dims_of b3 (0, 1, 1, zr + w) (0, 1, 1, yr + w) (0, 1, 1, xr + w)
         else dims_of b3 (gw g, 1, 1, zr) (gw g, 1, 1, yr) (gw g, 1, 1, xr)).
Definition load_file_mpi (r : nat) : space :=
  piece_file (read_size (nz g)) (read_size (ny g)) (read_size (nx g)) r.
Definition load_mpi (f : h5file TT T) (r : nat) (junk m : buf T) : buf T * Z * TT :=
  (snd (fold_left (read_field f load_memory_mpi (load_file_mpi r)) (fields b3 mhd) (junk, m)), h_step f, h_time f).
End Io.
