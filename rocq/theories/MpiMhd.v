(** The time loop of the MHD solver in a program built with MPI: every process runs
    this program on its own block (see MpiModel.v for the process states, the ghost
    cell exchange and the collective operations). *)
From Coq Require Import ZArith List Bool.
From Verif Require Import Arith Par GridModel BoundaryModel HydroState HydroKernels LoopModel SpmdModel MpiModel
  MhdState MhdRiemann MhdPoint MhdKernels2 MhdKernels3 MhdLoop2 MhdLoop3.
Import ListNotations.
Open Scope Z_scope.

Section Mpi.
Context {T : Type} {A : Arith T}.
Variable tp : topo.
Variable g : grid.
Variable ly : layout.
Variable lowest : T.
Variable p : mparams T.
Variable impl : Z.
Variable c : lconf T.

(** SolverBase::compute_dt, src/shared/SolverBase.cpp:149-179, with
    SolverMHDMuscl::compute_dt_local (SolverMHDMuscl.h:722-741), which reads the
    primitive variables.  Double precision, as in [compute_dt_mpi]. *)
Definition mcompute_dt_mpi (d3 : bool) : list (op (pstate T) (msg T)) :=
  [ Local (fun _ s s' => exists d,
      (if d3 then mcompute_dt_local3 p g lowest (p_mem s) d else mcompute_dt_local2 p g lowest (p_mem s) d) /\
      s' = PS (p_mem s) (p_t s) (p_dt s) d (p_it s));
    barrier;
    allreduce_min (fun y s => PS (p_mem s) (p_t s) y (p_dtl s) (p_it s)) p_dtl;
    Local (fun _ s s' => s' = PS (p_mem s) (p_t s) (clip_dt c (p_t s) (p_dt s)) (p_dtl s) (p_it s)) ].

(** One iteration, SolverBase::next_iteration (src/shared/SolverBase.cpp:206-220) and
    SolverMHDMuscl::next_iteration_impl (SolverMHDMuscl.h:745-784) without the output:
    godunov_unsplit_impl (SolverMHDMuscl.cpp:369-464 in 2D, 467-572 in 3D) fills the
    ghost cells with make_boundaries (21-64, which calls make_boundaries_mpi), copies
    data_in to data_out, computes the primitive variables, then the time step, and
    goes on with the scheme. *)
Definition mnext_iteration_mpi (d3 : bool) : list (op (pstate T) (msg T)) :=
  (if d3 then make_boundaries_mpi3d tp g ly true cur_array else make_boundaries_mpi2d tp g ly true cur_array) ++
  [ launch (fun _ s => let a := current (p_it s) in let b := other (p_it s) in
      if d3 then [deep_copy g (cells3 g) b a; mconvert3 p g a] else [deep_copy g (cells2 g) b a; mconvert2 p g a]) ] ++
  mcompute_dt_mpi d3 ++
  [ Local (fun _ s s' => exists junk m,
      let a := current (p_it s) in let b := other (p_it s) in
      run_kernels (if d3 then tl (mscheme3 p g (p_dt s) junk impl a b) else tl (mscheme2 p g (p_dt s) junk impl a b)) (p_mem s) m /\
      s' = PS m (add (p_t s) (p_dt s)) (p_dt s) (p_dtl s) (p_it s + 1)) ].
(** The loop of main.cpp:154-159 is represented by its iterations. *)
Definition miterations_mpi (d3 : bool) (n : nat) : list (op (pstate T) (msg T)) :=
  concat (repeat (mnext_iteration_mpi d3) n).
End Mpi.
