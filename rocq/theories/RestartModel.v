(** Restarting a run from a result file: SolverHydroMuscl constructor
    (src/muscl/SolverHydroMuscl.h:177-322), init_restart (572-640) and
    IO_ReadWrite::load_data (src/utils/io/IO_ReadWrite.cpp:199-288), for a serial
    program built with HDF5, hdf5_enabled set and a restart_filename ending in .h5;
    the files of SolverMHDMuscl ([mhd]) are written the same way
    (src/muscl/SolverMHDMuscl.h:894-907); its restart is in RestartMhd.v. *)
From Coq Require Import ZArith List Bool.
From Verif Require Import Arith Par GridModel BoundaryModel HydroKernels IoModel LoopModel.
Import ListNotations.
Open Scope Z_scope.

Section Restart.
Context {TT T : Type} {AT : Arith TT} {A : Arith T}.
Variables b3 mhd : bool.
Variable g : grid.
Variable io : ioconf.

(** save_solution_impl (SolverHydroMuscl.h:807-820) gives the current array to
    Save_HDF5::save: the view is contiguous memory [b] in which element (i,j,k,v)
    sits at [voff].  The file written for a snapshot. *)
Definition snapshot_file (ly : layout) (sn : snap TT T) (f : h5file TT T) : Prop :=
  exists fill b junk,
    (forall i j k v, 0 <= i < isize g -> 0 <= j < jsize g -> (if b3 then 0 <= k < ksize g else k = 0) -> 0 <= v < nbvar g ->
       b (voff b3 ly g i j k v) = sn_mem sn (Loc (sn_array sn) i j k v)) /\
    f = save b3 mhd io ly g fill b junk (sn_num sn) (sn_time sn).

(** The new solver object.  Kokkos initialises its views to zero, gravity
    included; with restart_enabled, init calls init_restart only
    (SolverHydroMuscl.cpp:106-118, 185-197), which reads U, m_times_saved and m_t
    (and zeroes m_t when run.restart_reset_totaltime is set, [reset]); the
    constructor then fills the ghost cells of U, copies U to U2 and computes a
    first time step (314-322), which the loop recomputes before using it.
    m_iteration is 0.  [junk] is the scratch buffer of the reader. *)
Inductive restarted (ly : layout) (reset : bool) (f : h5file TT T) : sim TT T -> Prop :=
| Restarted junk m1 m2 dt r :
    r = load b3 false io ly g f junk (fun _ => zero) ->
    (forall i j k v, 0 <= i < isize g -> 0 <= j < jsize g -> (if b3 then 0 <= k < ksize g else k = 0) -> 0 <= v < nbvar g ->
       m1 (Loc aU i j k v) = fst (fst r) (voff b3 ly g i j k v)) ->
    (forall l, la l <> aU -> m1 l = zero) ->
    run_kernels (if b3 then make_boundaries_serial3d false g aU else make_boundaries_serial2d false g aU) m1 m2 ->
    restarted ly reset f
      (Sim (if reset then zero else snd r) dt 0 (snd (fst r))
           (fun l => if la l =? aU2 then m2 (Loc aU (li l) (lj l) (lk l) (lv l)) else m2 l) []).
End Restart.
