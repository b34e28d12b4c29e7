(** The MPI build: process grid, exchange of ghost cells, global time step and
    the time loop of the hydrodynamics solver, as SPMD programs. *)
From Coq Require Import ZArith List Bool.
From Verif Require Import Arith Par GridModel BoundaryModel HydroState RiemannModel HydroPoint HydroKernels ReduceModel
  LoopModel SpmdModel.
Import ListNotations.
Open Scope Z_scope.

(** ** Process grid *)

(** Numbers of processes per direction, read by HydroParams::setup_mpi
    (src/shared/HydroParams.cpp:233-236).  A 2D run creates a communicator with
    two dimensions (252-257); its numbering is that of three dimensions with
    mz = 1, which is how 2D runs are represented here. *)
Record topo := Topo { mx : Z; my : Z; mz : Z }.
Definition nprocs (tp : topo) : nat := Z.to_nat (mx tp * my tp * mz tp).

(** MPI_Cart_coords: processes of a cartesian communicator are numbered in
    row-major order (MPI standard 7.5).  Called in the constructors of
    MpiCommCart (src/utils/mpiUtils/MpiCommCart.cpp:17-66).  [reorder] may
    permute the ranks of MPI_COMM_WORLD, which are not used afterwards. *)
Definition coords (tp : topo) (r : nat) : Z * Z * Z :=
  let z := Z.of_nat r in (z / (my tp * mz tp), (z / mz tp) mod my tp, z mod mz tp).

(** MPI_Cart_rank on a communicator that is periodic in all directions:
    coordinates out of range are shifted back. *)
Definition cart_rank (tp : topo) (c : Z * Z * Z) : nat :=
  let '(x, y, z) := c in
  Z.to_nat (((x mod mx tp) * my tp + y mod my tp) * mz tp + z mod mz tp).

(** MpiCommCart::getNeighborRank (src/utils/mpiUtils/MpiCommCart.h:118-187). *)
Definition neighbor (tp : topo) (f : face) (r : nat) : nat :=
  let '(x, y, z) := coords tp r in
  cart_rank tp (match f with
                | FACE_XMIN => (x - 1, y, z) | FACE_XMAX => (x + 1, y, z)
                | FACE_YMIN => (x, y - 1, z) | FACE_YMAX => (x, y + 1, z)
                | FACE_ZMIN => (x, y, z - 1) | FACE_ZMAX => (x, y, z + 1)
                end).

(** params.neighborsBC, src/shared/HydroParams.cpp:280-353: BC_COPY except on
    the outside of the process grid, where it is the configured boundary type.
    [g] is the grid of one process. *)
Definition neighborsBC (tp : topo) (g : grid) (r : nat) (f : face) : Z :=
  let '(x, y, z) := coords tp r in
  match f with
  | FACE_XMIN => if x =? 0 then bc g f else BC_COPY
  | FACE_XMAX => if x =? mx tp - 1 then bc g f else BC_COPY
  | FACE_YMIN => if y =? 0 then bc g f else BC_COPY
  | FACE_YMAX => if y =? my tp - 1 then bc g f else BC_COPY
  | FACE_ZMIN => if z =? 0 then bc g f else BC_COPY
  | FACE_ZMAX => if z =? mz tp - 1 then bc g f else BC_COPY
  end.

(** ** Border buffers *)

(** borderBufSend_* and borderBufRecv_* (src/shared/SolverBase.cpp:71-98). *)
Definition bufS (f : face) : Z :=
  match f with FACE_XMIN => 20 | FACE_XMAX => 21 | FACE_YMIN => 22 | FACE_YMAX => 23 | FACE_ZMIN => 24 | FACE_ZMAX => 25 end.
Definition bufR (f : face) : Z :=
  match f with FACE_XMIN => 30 | FACE_XMAX => 31 | FACE_YMIN => 32 | FACE_YMAX => 33 | FACE_ZMIN => 34 | FACE_ZMAX => 35 end.

Inductive direction := XDIR | YDIR | ZDIR.
Definition dir_of (f : face) : direction :=
  match f with FACE_XMIN | FACE_XMAX => XDIR | FACE_YMIN | FACE_YMAX => YDIR | FACE_ZMIN | FACE_ZMAX => ZDIR end.

Section Mpi.
Context {T : Type} {A : Arith T}.
Variable tp : topo.
Variable g : grid.      (* the grid of one process: nx, ny, nz are local sizes *)
Variable ly : layout.

(** Copy of all variables of one cell between two arrays. *)
Definition copy_cell (dst src : Z) (cd cs : Z * Z * Z) : prog T unit :=
  let '(i, j, k) := cd in let '(i0, j0, k0) := cs in
  for_each (zrange 0 (nbvar g)) (fun v =>
    bind (rd (Loc src i0 j0 k0 v)) (fun x => wr (Loc dst i j k v) x)).

(** Offset of the cells sent / received across a face:
    src/shared/mpiBorderUtils.h:219-223, 276-282 and 76-80, 117-123. *)
Definition offset_send (f : face) : Z :=
  match f with
  | FACE_XMAX => isize g - 2 * gw g | FACE_YMAX => jsize g - 2 * gw g | FACE_ZMAX => ksize g - 2 * gw g
  | _ => gw g
  end.
Definition offset_recv (f : face) : Z :=
  match f with
  | FACE_XMAX => isize g - gw g | FACE_YMAX => jsize g - gw g | FACE_ZMAX => ksize g - gw g
  | _ => 0
  end.
Definition moved (d : direction) (o : Z) (c : Z * Z * Z) : Z * Z * Z :=
  let '(i, j, k) := c in
  match d with XDIR => (o + i, j, k) | YDIR => (i, o + j, k) | ZDIR => (i, j, o + k) end.

(** CopyDataArray_To_BorderBuf::operator(), src/shared/mpiBorderUtils.h:207-256
    (2D) and 258-330 (3D), applied by SolverBase::copy_boundaries
    (src/shared/SolverBase.cpp:698-768) with these iteration counts. *)
Definition to_buf2 (a : Z) (f : face) : list (prog T unit) :=
  match dir_of f with
  | XDIR => parallel_for (gw g * jsize g) (fun index =>
      let '(i, j) := index2coord2 ly index (gw g) (jsize g) in
      copy_cell (bufS f) a (i, j, 0) (moved XDIR (offset_send f) (i, j, 0)))
  | YDIR => parallel_for (isize g * gw g) (fun index =>
      let '(i, j) := index2coord2 ly index (isize g) (gw g) in
      copy_cell (bufS f) a (i, j, 0) (moved YDIR (offset_send f) (i, j, 0)))
  | ZDIR => []
  end.
Definition to_buf3 (a : Z) (f : face) : list (prog T unit) :=
  match dir_of f with
  | XDIR => parallel_for (gw g * jsize g * ksize g) (fun index =>
      let '(i, j, k) := index2coord3 ly index (gw g) (jsize g) (ksize g) in
      copy_cell (bufS f) a (i, j, k) (moved XDIR (offset_send f) (i, j, k)))
  | YDIR => parallel_for (isize g * gw g * ksize g) (fun index =>
      let '(i, j, k) := index2coord3 ly index (isize g) (gw g) (ksize g) in
      copy_cell (bufS f) a (i, j, k) (moved YDIR (offset_send f) (i, j, k)))
  | ZDIR => parallel_for (isize g * jsize g * gw g) (fun index =>
      let '(i, j, k) := index2coord3 ly index (isize g) (jsize g) (gw g) in
      copy_cell (bufS f) a (i, j, k) (moved ZDIR (offset_send f) (i, j, k)))
  end.

(** CopyBorderBuf_To_DataArray::operator(), src/shared/mpiBorderUtils.h:63-102
    (2D) and 104-158 (3D), applied by SolverBase::copy_boundaries_back
    (src/shared/SolverBase.cpp:930-1030). *)
Definition from_buf2 (a : Z) (f : face) : list (prog T unit) :=
  match dir_of f with
  | XDIR => parallel_for (gw g * jsize g) (fun index =>
      let '(i, j) := index2coord2 ly index (gw g) (jsize g) in
      copy_cell a (bufR f) (moved XDIR (offset_recv f) (i, j, 0)) (i, j, 0))
  | YDIR => parallel_for (isize g * gw g) (fun index =>
      let '(i, j) := index2coord2 ly index (isize g) (gw g) in
      copy_cell a (bufR f) (moved YDIR (offset_recv f) (i, j, 0)) (i, j, 0))
  | ZDIR => []
  end.
Definition from_buf3 (a : Z) (f : face) : list (prog T unit) :=
  match dir_of f with
  | XDIR => parallel_for (gw g * jsize g * ksize g) (fun index =>
      let '(i, j, k) := index2coord3 ly index (gw g) (jsize g) (ksize g) in
      copy_cell a (bufR f) (moved XDIR (offset_recv f) (i, j, k)) (i, j, k))
  | YDIR => parallel_for (isize g * gw g * ksize g) (fun index =>
      let '(i, j, k) := index2coord3 ly index (isize g) (gw g) (ksize g) in
      copy_cell a (bufR f) (moved YDIR (offset_recv f) (i, j, k)) (i, j, k))
  | ZDIR => parallel_for (isize g * jsize g * gw g) (fun index =>
      let '(i, j, k) := index2coord3 ly index (isize g) (jsize g) (gw g) in
      copy_cell a (bufR f) (moved ZDIR (offset_recv f) (i, j, k)) (i, j, k))
  end.

(** The test on neighborsBC in make_boundaries_mpi (src/shared/SolverBase.cpp:
    560-576 and the other directions): copy back what was received, or fill the
    ghost cells from the inside. *)
Definition fill_face2 (mhd : bool) (a : Z) (r : nat) (f : face) : list (prog T unit) :=
  let b := neighborsBC tp g r f in
  if (b =? BC_COPY) || (b =? BC_PERIODIC) then from_buf2 a f else make_boundary2d mhd g a f.
Definition fill_face3 (mhd : bool) (a : Z) (r : nat) (f : face) : list (prog T unit) :=
  let b := neighborsBC tp g r f in
  if (b =? BC_COPY) || (b =? BC_PERIODIC) then from_buf3 a f else make_boundary3d mhd g a f.

(** ** Memory and messages *)

(** Memory of a process: arrays, and the members m_t, m_dt, m_iteration of the
    solver with the local variable dt_local of compute_dt. *)
Record pstate := PS { p_mem : store T; p_t : T; p_dt : T; p_dtl : T; p_it : Z }.
(** A message: the contents of a border buffer, a number, or nothing.  Send and
    receive buffers of opposite faces have the same extents and memory layout,
    so that copying the memory block copies entry by entry. *)
Inductive msg := MBuf (b : Z -> Z -> Z -> Z -> T) | MNum (x : T) | MUnit.

Definition in_buf (d3 : bool) (f : face) (l : loc) : bool :=
  let '(ei, ej, ek) :=
    match dir_of f with
    | XDIR => (gw g, jsize g, ksize g) | YDIR => (isize g, gw g, ksize g) | ZDIR => (isize g, jsize g, gw g)
    end in
  let ek := if d3 then ek else 1 in
  (la l =? bufR f) && (0 <=? li l) && (li l <? ei) && (0 <=? lj l) && (lj l <? ej)
  && (0 <=? lk l) && (lk l <? ek) && (0 <=? lv l) && (lv l <? nbvar g).

Definition with_mem (s : pstate) (m : store T) : pstate := PS m (p_t s) (p_dt s) (p_dtl s) (p_it s).
(** Kernels launched by a process (then fence). *)
Definition launch (kers : nat -> pstate -> list (list (prog T unit))) : op pstate msg :=
  Local (fun r s s' => exists m, run_kernels (kers r s) (p_mem s) m /\ s' = with_mem s m).
(** params.communicator->sendrecv(borderBufSend_<fs>, neighborsRank[fs],
    borderBufRecv_<fr>, neighborsRank[fr]) *)
Definition exchange (d3 : bool) (fs fr : face) (tag : Z) : op pstate msg :=
  Sendrecv (neighbor tp fs) (neighbor tp fr) tag
    (fun _ s => MBuf (fun i j k v => p_mem s (Loc (bufS fs) i j k v)))
    (fun _ m s => match m with
       | MBuf b => with_mem s (fun l => if in_buf d3 fr l then b (li l) (lj l) (lk l) (lv l) else p_mem s l)
       | _ => s
       end).
(** params.communicator->synchronize() (MPI_Barrier). *)
Definition barrier : op pstate msg :=
  Collective (fun _ _ => MUnit) (fun _ x => x = MUnit) (fun _ _ s => s).

(** SolverBase::make_boundaries_mpi, src/shared/SolverBase.cpp:543-605 (2D) and
    610-693 (3D), with copy_boundaries and transfert_boundaries_2d/3d (773-925).
    [cur] selects the array from the state of the process (m_iteration). *)
Definition exchange_dir (d3 mhd : bool) (cur : pstate -> Z) (fmin fmax : face) (tag : Z) : list (op pstate msg) :=
  let to_buf := if d3 then to_buf3 else to_buf2 in
  let fill := if d3 then fill_face3 else fill_face2 in
  [ launch (fun _ s => [to_buf (cur s) fmin; to_buf (cur s) fmax]);
    exchange d3 fmin fmax tag;
    exchange d3 fmax fmin tag;
    launch (fun r s => [fill mhd (cur s) r fmin; fill mhd (cur s) r fmax]);
    barrier ].
Definition make_boundaries_mpi2d (mhd : bool) (cur : pstate -> Z) : list (op pstate msg) :=
  exchange_dir false mhd cur FACE_XMIN FACE_XMAX 111 ++ exchange_dir false mhd cur FACE_YMIN FACE_YMAX 211.
Definition make_boundaries_mpi3d (mhd : bool) (cur : pstate -> Z) : list (op pstate msg) :=
  exchange_dir true mhd cur FACE_XMIN FACE_XMAX 111 ++ exchange_dir true mhd cur FACE_YMIN FACE_YMAX 211
  ++ exchange_dir true mhd cur FACE_ZMIN FACE_ZMAX 311.

(** ** Time step and time loop *)

(** MPI_Allreduce with MPI_MIN on one number: the contributions are combined
    pairwise in an order chosen by the implementation. *)
Definition min_of (a b : T) : T := if ltb b a then b else a.
Inductive combined : list T -> T -> Prop :=
| comb_one x : combined [x] x
| comb_two l1 l2 a b : combined l1 a -> combined l2 b -> combined (l1 ++ l2) (min_of a b).
Definition numbers_of (ms : list msg) : list T :=
  flat_map (fun m => match m with MNum x => [x] | _ => [] end) ms.
Definition allreduce_min (set : T -> pstate -> pstate) (get : pstate -> T) : op pstate msg :=
  Collective (fun _ s => MNum (get s))
    (fun ms x => exists l y, Permutation.Permutation l (numbers_of ms) /\ (combined l y \/ l = [] /\ y = zero) /\ x = MNum y)
    (fun _ m s => match m with MNum y => set y s | _ => s end).

Variable lowest : T.
Variable p : hparams T.
Variable ge : bool.
Variable impl : Z.
Variable c : lconf T.

Definition cur_array (s : pstate) : Z := current (p_it s).

(** SolverBase::compute_dt, src/shared/SolverBase.cpp:149-179 (double
    precision: data_type is the type of dt_local). *)
Definition compute_dt_mpi (d3 : bool) : list (op pstate msg) :=
  [ Local (fun _ s s' => exists d,
      (if d3 then compute_dt_local3 p g lowest ge (p_mem s) (cur_array s) d
       else compute_dt_local2 p g lowest ge (p_mem s) (cur_array s) d) /\
      s' = PS (p_mem s) (p_t s) (p_dt s) d (p_it s));
    barrier;
    allreduce_min (fun y s => PS (p_mem s) (p_t s) y (p_dtl s) (p_it s)) p_dtl;
    Local (fun _ s s' => s' = PS (p_mem s) (p_t s) (clip_dt c (p_t s) (p_dt s)) (p_dtl s) (p_it s)) ].

(** One iteration, SolverBase::next_iteration (src/shared/SolverBase.cpp:206-220)
    and SolverHydroMuscl::next_iteration_impl (SolverHydroMuscl.h:695-739)
    without the output; godunov_unsplit_impl (SolverHydroMuscl.cpp:250-330,
    333-430) after the ghost cells have been filled. *)
Definition next_iteration_mpi (d3 : bool) : list (op pstate msg) :=
  compute_dt_mpi d3 ++
  (if d3 then make_boundaries_mpi3d false cur_array else make_boundaries_mpi2d false cur_array) ++
  [ Local (fun _ s s' => exists junk m,
      let a := current (p_it s) in let b := other (p_it s) in
      (if d3 then run_kernels (deep_copy g (cells3 g) b a :: scheme3 p g (p_dt s) ge junk impl a b) (p_mem s) m
       else run_kernels (deep_copy g (cells2 g) b a :: scheme2 p g (p_dt s) ge junk impl a b) (p_mem s) m) /\
      s' = PS m (add (p_t s) (p_dt s)) (p_dt s) (p_dtl s) (p_it s + 1)) ].
(** SolverBase::finished, src/shared/SolverBase.cpp:196-201, evaluated by every
    process on its own m_t and m_iteration; the loop of main.cpp:154-159 is
    represented by its iterations. *)
Definition finished_mpi (s : pstate) : bool :=
  leb (sub (l_tEnd c) (lit 1 100000000000000)) (p_t s) || (l_nStepmax c <=? p_it s).
Definition iterations_mpi (d3 : bool) (n : nat) : list (op pstate msg) :=
  concat (repeat (next_iteration_mpi d3) n).
End Mpi.
Arguments pstate T : clear implicits.
Arguments msg T : clear implicits.
