(** Hydrodynamics state vectors and run parameters. *)
From Coq Require Import ZArith.
From Verif Require Import Arith.
Open Scope Z_scope.

(** [HydroState2d]/[HydroState3d] (src/shared/HydroState.h:9-17): entries
    ID (density), IP (pressure, or total energy), IU, IV, IW (velocities, or
    momenta).  The two C++ types are merged into one record; in the 2D code the
    entry IW does not exist, so the 2D model functions neither read it nor
    give it any meaning (they put [zero] in it). *)
Record hs (T : Type) := HS { hD : T; hP : T; hU : T; hV : T; hW : T }.
Arguments HS {T} _ _ _ _ _.
Arguments hD {T} _.
Arguments hP {T} _.
Arguments hU {T} _.
Arguments hV {T} _.
Arguments hW {T} _.

(** The part of [HydroParams] (src/shared/HydroParams.h:60-190) the MUSCL
    hydrodynamics solver uses: [settings.gamma0 ... slope_type], mesh spacings,
    CFL number and the Riemann solver selector. *)
Record hparams (T : Type) := HParams {
  gamma0 : T; gamma6 : T; smallr : T; smallc : T; smallp : T; smallpp : T;
  slope_type : T; cfl : T; dx : T; dy : T; dz : T; riemann_type : Z }.
Arguments gamma0 {T} _.
Arguments gamma6 {T} _.
Arguments smallr {T} _.
Arguments smallc {T} _.
Arguments smallp {T} _.
Arguments smallpp {T} _.
Arguments slope_type {T} _.
Arguments cfl {T} _.
Arguments dx {T} _.
Arguments dy {T} _.
Arguments dz {T} _.
Arguments riemann_type {T} _.

(** [RiemannSolverType] (src/shared/enums.h:136-143). *)
Definition RIEMANN_APPROX := 0.
Definition RIEMANN_LLF := 1.
Definition RIEMANN_HLL := 2.
Definition RIEMANN_HLLC := 3.
Definition RIEMANN_HLLD := 4.
