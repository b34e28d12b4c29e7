(** Vocabulary for the statements about the 3D MHD step. *)
From Coq Require Import ZArith List Bool Reals.
From Verif Require Import Arith HydroState MhdState MhdRiemann MhdPoint MhdSpec.
Open Scope Z_scope.

(** Implementation variants 0 (stored fluxes), 1 (atomic updates) and 2 (low memory); the
    low-memory one is considered for slope types with a defined meaning. *)
Definition variant_ok3 {T} {AT : Arith T} (p : mparams T) (impl : Z) : Prop :=
  impl = 0 \/ impl = 1 \/ (impl = 2 /\ mslope_ok p).
(** No rotating frame: HydroSettings sets Omega0 to 0 (src/shared/HydroParams.h:59) and no
    code of the repository assigns it, so every configuration meets this. *)
Definition no_rotation {T} {AT : Arith T} (p : mparams T) : Prop := ltb zero (Omega0 p) = false.
