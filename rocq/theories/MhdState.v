(** MHD state vectors and run parameters. *)
From Coq Require Import ZArith.
From Verif Require Import Arith HydroState.
Open Scope Z_scope.

(** [MHDState] (src/shared/HydroState.h:19-21): eight entries in the order of
    [VarIndex] (src/shared/enums.h:85-97): density ID, pressure (or total
    energy) IP, velocities (or momenta) IU, IV, IW, magnetic field IA, IB, IC
    (the names IBX, IBY, IBZ are synonyms of IA, IB, IC). *)
Record ms (T : Type) := MS { mD : T; mP : T; mU : T; mV : T; mW : T; mA : T; mB : T; mC : T }.
Arguments MS {T} _ _ _ _ _ _ _ _.
Arguments mD {T} _.  Arguments mP {T} _.  Arguments mU {T} _.  Arguments mV {T} _.
Arguments mW {T} _.  Arguments mA {T} _.  Arguments mB {T} _.  Arguments mC {T} _.

(** The part of [HydroParams] the MHD solver uses: the settings shared with the
    hydrodynamics solver, the isothermal sound speed [cIso], the rotation rate
    [Omega0] (src/shared/HydroParams.h:60-110) and [xmin]. *)
Record mparams (T : Type) := MParams { mh : hparams T; cIso : T; Omega0 : T; xmin0 : T }.
Arguments MParams {T} _ _ _ _.
Arguments mh {T} _.  Arguments cIso {T} _.  Arguments Omega0 {T} _.  Arguments xmin0 {T} _.

Section Ops.
Context {T : Type} {AT : Arith T}.

Definition ms_map (f : T -> T) (x : ms T) : ms T :=
  MS (f (mD x)) (f (mP x)) (f (mU x)) (f (mV x)) (f (mW x)) (f (mA x)) (f (mB x)) (f (mC x)).
Definition ms_map2 (f : T -> T -> T) (x y : ms T) : ms T :=
  MS (f (mD x) (mD y)) (f (mP x) (mP y)) (f (mU x) (mU y)) (f (mV x) (mV y)) (f (mW x) (mW y))
     (f (mA x) (mA y)) (f (mB x) (mB y)) (f (mC x) (mC y)).
Definition ms_zero : ms T := MS zero zero zero zero zero zero zero zero.

(** Entry number v. *)
Definition mget (x : ms T) (v : Z) : T :=
  if v =? 0 then mD x else if v =? 1 then mP x else if v =? 2 then mU x else if v =? 3 then mV x
  else if v =? 4 then mW x else if v =? 5 then mA x else if v =? 6 then mB x else mC x.

(** [my_swap(q[IU], q[IV]); my_swap(q[IA], q[IB])], and with IW, IC. *)
Definition mswapY (q : ms T) : ms T := MS (mD q) (mP q) (mV q) (mU q) (mW q) (mB q) (mA q) (mC q).
Definition mswapZ (q : ms T) : ms T := MS (mD q) (mP q) (mW q) (mV q) (mU q) (mC q) (mB q) (mA q).

Definition with_A (q : ms T) (x : T) : ms T := MS (mD q) (mP q) (mU q) (mV q) (mW q) x (mB q) (mC q).
Definition with_B (q : ms T) (x : T) : ms T := MS (mD q) (mP q) (mU q) (mV q) (mW q) (mA q) x (mC q).
Definition with_C (q : ms T) (x : T) : ms T := MS (mD q) (mP q) (mU q) (mV q) (mW q) (mA q) (mB q) x.
Definition with_P (q : ms T) (x : T) : ms T := MS (mD q) x (mU q) (mV q) (mW q) (mA q) (mB q) (mC q).
Definition with_D (q : ms T) (x : T) : ms T := MS x (mP q) (mU q) (mV q) (mW q) (mA q) (mB q) (mC q).
End Ops.
