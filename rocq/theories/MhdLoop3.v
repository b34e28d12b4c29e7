(** Time step and loop body of the 3D MHD solver. *)
From Coq Require Import ZArith List Bool.
From Verif Require Import Arith Par GridModel BoundaryModel HydroState HydroKernels ReduceModel
  MhdState MhdRiemann MhdPoint MhdPoint3 MhdKernels2 MhdKernels3.
Import ListNotations.
Open Scope Z_scope.

Section L.
Context {T : Type} {AT : Arith T}.
Variable p : mparams T.
Variable g : grid.
(** Kokkos::reduction_identity<real_t>::max(). *)
Variable lowest : T.

(** ComputeDtFunctor3D_MHD::operator(), MHDRunFunctors3D.h:37-78, with
    find_speed_info<THREE_D>, mhd_utils.h:319-365. *)
Definition mdt_body3 (s : store T) (c : cell) (acc : T) : T :=
  if rng3 g (gw g) (gw g) c then
    let q := MS (s (at3 aQ c ID)) (s (at3 aQ c IP)) (s (at3 aQ c IU)) (s (at3 aQ c IV))
                (s (at3 aQ c IW)) (s (at3 aQ c IA)) (s (at3 aQ c IB)) (s (at3 aQ c IC)) in
    maxv acc (find_speed_info_dir p CX q / dx (mh p) + find_speed_info_dir p CY q / dy (mh p)
              + find_speed_info_dir p CZ q / dz (mh p))%A
  else acc.
(** SolverMHDMuscl<3>::compute_dt_local, SolverMHDMuscl.h:722-741: reads Q. *)
Definition mcompute_dt_local3 (s : store T) (dt : T) : Prop :=
  exists invDt, reduces lowest (mdt_body3 s) maxv (cells3 g) invDt /\ dt = div (cfl (mh p)) invDt.

(** The loops before compute_dt in godunov_unsplit_impl (SolverMHDMuscl.cpp:467-484). *)
Definition mprefix3 (aIn aOut : Z) : list (list (prog T unit)) :=
  make_boundaries_serial3d true g aIn ++ [deep_copy g (cells3 g) aOut aIn; mconvert3 p g aIn].

(** The parameters of LoopModel.v, as in MhdLoop2.v. *)
Definition mhd_dt3 (a : Z) (m : store T) (d : T) : Prop :=
  exists b m1, HydroKernels.aU <= a <= aU2 /\ a + b = 1 /\ run_kernels (mprefix3 a b) m m1 /\ mcompute_dt_local3 m1 d.
Definition mhd_step3 (impl a b : Z) (dt : T) (m m' : store T) : Prop :=
  exists junk, run_kernels (mgodunov3 p g dt junk impl a b) m m'.

(** One call of godunov_unsplit_impl as written, [clip] being what SolverBase::compute_dt
    does to the local time step. *)
Definition mgodunov_as_written3 (impl a b : Z) (clip : T -> T) (m m' : store T) (dt : T) : Prop :=
  exists m1 d junk, run_kernels (mprefix3 a b) m m1 /\ mcompute_dt_local3 m1 d /\ dt = clip d /\
    run_kernels (tl (mscheme3 p g dt junk impl a b)) m1 m'.
End L.
