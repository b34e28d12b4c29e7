(** Restarting an MHD run from a result file: SolverMHDMuscl constructor
    (src/muscl/SolverMHDMuscl.h:211-412), init (646-660), init_restart (613-643) and
    IO_ReadWrite::load_data, for a serial program built with HDF5 (see RestartModel.v). *)
From Coq Require Import ZArith List Bool.
From Verif Require Import Arith Par GridModel BoundaryModel HydroKernels MhdState MhdPoint MhdKernels2 MhdKernels3 IoModel LoopModel.
Import ListNotations.
Open Scope Z_scope.

Section Restart.
Context {TT T : Type} {AT : Arith TT} {A : Arith T}.
Variable b3 : bool.
Variable p : mparams T.
Variable g : grid.
Variable io : ioconf.

(** The new solver object.  Kokkos initialises its views to zero; with
    restart_enabled, init calls init_restart only, which reads U, m_times_saved and
    m_t (and zeroes m_t when run.restart_reset_totaltime is set, [reset]); the
    constructor then fills the ghost cells of U, copies U to U2, computes the
    primitive variables and a first time step, which the loop recomputes before
    using it.  m_iteration is 0.  [junk] is the scratch buffer of the reader. *)
Inductive restarted_mhd (ly : layout) (reset : bool) (f : h5file TT T) : sim TT T -> Prop :=
| RestartedMhd junk m1 m2 m3 dt r :
    r = load b3 true io ly g f junk (fun _ => zero) ->
    (forall i j k v, 0 <= i < isize g -> 0 <= j < jsize g -> (if b3 then 0 <= k < ksize g else k = 0) -> 0 <= v < nbvar g ->
       m1 (Loc aU i j k v) = fst (fst r) (voff b3 ly g i j k v)) ->
    (forall l, la l <> aU -> m1 l = zero) ->
    run_kernels (if b3 then make_boundaries_serial3d true g aU else make_boundaries_serial2d true g aU) m1 m2 ->
    run_kernels [if b3 then mconvert3 p g aU else mconvert2 p g aU]
      (fun l => if la l =? aU2 then m2 (Loc aU (li l) (lj l) (lk l) (lv l)) else m2 l) m3 ->
    restarted_mhd ly reset f (Sim (if reset then zero else snd r) dt 0 (snd (fst r)) m3 []).
End Restart.
