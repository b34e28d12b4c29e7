(** Time step and loop body of the 2D MHD solver. *)
From Coq Require Import ZArith List Bool.
From Verif Require Import Arith Par GridModel BoundaryModel HydroState HydroKernels ReduceModel
  MhdState MhdRiemann MhdPoint MhdKernels2.
Import ListNotations.
Open Scope Z_scope.

Section L.
Context {T : Type} {AT : Arith T}.
Variable p : mparams T.
Variable g : grid.
(** Kokkos::reduction_identity<real_t>::max(). *)
Variable lowest : T.

(** ComputeDtFunctor2D_MHD::operator(), MHDRunFunctors2D.h:38-76, with
    find_speed_info<TWO_D>, mhd_utils.h:319-365. *)
Definition mdt_body2 (s : store T) (c : Z * Z * Z) (acc : T) : T :=
  let '(i, j, _) := c in
  if interior2 g i j then
    let q := MS (s (Loc aQ i j 0 ID)) (s (Loc aQ i j 0 IP)) (s (Loc aQ i j 0 IU)) (s (Loc aQ i j 0 IV))
                (s (Loc aQ i j 0 IW)) (s (Loc aQ i j 0 IA)) (s (Loc aQ i j 0 IB)) (s (Loc aQ i j 0 IC)) in
    maxv acc (find_speed_info_dir p CX q / dx (mh p) + find_speed_info_dir p CY q / dy (mh p))%A
  else acc.
(** SolverMHDMuscl<2>::compute_dt_local, SolverMHDMuscl.h:722-741: reads Q. *)
Definition mcompute_dt_local2 (s : store T) (dt : T) : Prop :=
  exists invDt, reduces lowest (mdt_body2 s) maxv (cells2 g) invDt /\ dt = div (cfl (mh p)) invDt.

(** The loops before compute_dt in godunov_unsplit_impl (SolverMHDMuscl.cpp:379-396). *)
Definition mprefix2 (aIn aOut : Z) : list (list (prog T unit)) :=
  make_boundaries_serial2d true g aIn ++ [deep_copy g (cells2 g) aOut aIn; mconvert2 p g aIn].

(** The parameters of LoopModel.v.  In the code compute_dt is called in the middle of
    godunov_unsplit_impl; every iteration of the code is an iteration of LoopModel.v with
    these relations (the converse may fail: the interleaving of the first loops may be
    chosen differently for the time step and for the step). *)
Definition mhd_dt2 (a : Z) (m : store T) (d : T) : Prop :=
  exists b m1, HydroKernels.aU <= a <= aU2 /\ a + b = 1 /\ run_kernels (mprefix2 a b) m m1 /\ mcompute_dt_local2 m1 d.
Definition mhd_step2 (impl a b : Z) (dt : T) (m m' : store T) : Prop :=
  exists junk, run_kernels (mgodunov2 p g dt junk impl a b) m m'.

(** One call of godunov_unsplit_impl as written, [clip] being what SolverBase::compute_dt
    does to the local time step. *)
Definition mgodunov_as_written2 (impl a b : Z) (clip : T -> T) (m m' : store T) (dt : T) : Prop :=
  exists m1 d junk, run_kernels (mprefix2 a b) m m1 /\ mcompute_dt_local2 m1 d /\ dt = clip d /\
    run_kernels (tl (mscheme2 p g dt junk impl a b)) m1 m'.
End L.
