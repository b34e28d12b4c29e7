(** Small specification of ideal magnetohydrodynamics, written without reference
    to the code.  A primitive state is (density, gas pressure, velocity, magnetic
    field); a conservative state is (density, total energy, momentum, magnetic
    field).  Both use the record [ms]. *)
From Coq Require Import Reals.
From Verif Require Import HydroState MhdState.
Open Scope R_scope.

Definition speed2 (q : ms R) : R := mU q * mU q + mV q * mV q + mW q * mW q.
Definition field2 (q : ms R) : R := mA q * mA q + mB q * mB q + mC q * mC q.
Definition vdotB (q : ms R) : R := mU q * mA q + mV q * mB q + mW q * mC q.

Definition mhd_energy (gam : R) (q : ms R) : R :=
  mP q / (gam - 1) + mD q * speed2 q / 2 + field2 q / 2.
Definition mhd_conservative (gam : R) (q : ms R) : ms R :=
  MS (mD q) (mhd_energy gam q) (mD q * mU q) (mD q * mV q) (mD q * mW q) (mA q) (mB q) (mC q).

(** Flux along the first axis. *)
Definition mhd_flux (gam : R) (q : ms R) : ms R :=
  let ptot := mP q + field2 q / 2 in
  MS (mD q * mU q)
     ((mhd_energy gam q + ptot) * mU q - mA q * vdotB q)
     (mD q * mU q * mU q + ptot - mA q * mA q)
     (mD q * mU q * mV q - mA q * mB q)
     (mD q * mU q * mW q - mA q * mC q)
     0 (mU q * mB q - mA q * mV q) (mU q * mC q - mA q * mW q).

(** Gas pressure as the solver defines it: in isothermal runs (sound speed
    [c] > 0) it is density * c^2. *)
Definition gas_state (c : R) (q : ms R) : ms R :=
  if Rlt_dec 0 c then with_P q (mD q * c * c) else q.

(** Fast magnetosonic speed for the field component [x] normal to the wave:
    cf^2 is the larger root of X^2 - (cs^2 + B^2/rho) X + cs^2 x^2/rho. *)
Definition fast_speed (gam : R) (q : ms R) (x : R) : R :=
  let cs2 := gam * mP q / mD q in
  let ca2 := field2 q / mD q in
  R_sqrt.sqrt ((cs2 + ca2 + R_sqrt.sqrt ((cs2 + ca2) * (cs2 + ca2) - 4 * cs2 * (x * x / mD q))) / 2).

(** Electric field component along the third axis, -(v x B). *)
Definition minus_vxB (q : ms R) : R := mU q * mB q - mV q * mA q.

Definition mhd_params_ok (p : mparams R) : Prop :=
  1 < gamma0 (mh p) /\ 0 < smallr (mh p) /\ 0 < smallp (mh p) /\ 0 < smallc (mh p).
(** States on which no floor is active. *)
Definition mhd_admissible (p : mparams R) (q : ms R) : Prop :=
  smallr (mh p) <= mD q /\ mD q * smallp (mh p) <= mP q.
