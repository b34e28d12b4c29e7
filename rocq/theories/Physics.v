(** Small specification of the compressible Euler equations and of limited
    reconstruction, written without reference to the code. *)
From Coq Require Import Reals.
From Verif Require Import HydroState.
Open Scope R_scope.

(** A primitive state is (density, pressure, velocity); a conservative state is
    (density, total energy, momentum).  Both use the record [hs]. *)

(** Total energy of an ideal gas with ratio of specific heats [gam]. *)
Definition total_energy (gam : R) (q : hs R) : R :=
  hP q / (gam - 1) + hD q * (hU q * hU q + hV q * hV q + hW q * hW q) / 2.

(** Conservative state of a primitive state. *)
Definition conservative (gam : R) (q : hs R) : hs R :=
  HS (hD q) (total_energy gam q) (hD q * hU q) (hD q * hV q) (hD q * hW q).

(** Flux along the first axis: mass, energy, momentum. *)
Definition euler_flux (gam : R) (q : hs R) : hs R :=
  HS (hD q * hU q) (hU q * (total_energy gam q + hP q))
     (hD q * hU q * hU q + hP q) (hD q * hU q * hV q) (hD q * hU q * hW q).

Definition sound_speed (gam : R) (q : hs R) : R := R_sqrt.sqrt (gam * hP q / hD q).

(** Reflection of a state in a wall normal to the first axis, and of a flux. *)
Definition mirror (q : hs R) : hs R := HS (hD q) (hP q) (- hU q) (hV q) (hW q).
Definition mirror_flux (f : hs R) : hs R := HS (- hD f) (- hP f) (hU f) (- hV f) (- hW f).

(** Planar states (2D runs). *)
Definition planar (q : hs R) : Prop := hW q = 0.

(** States on which no floor is active. *)
Definition admissible (p : hparams R) (q : hs R) : Prop :=
  smallr p <= hD q /\ hD q * smallp p <= hP q.
(** Sensible physical parameters. *)
Definition params_ok (p : hparams R) : Prop :=
  1 < gamma0 p /\ 0 < smallr p /\ 0 < smallp p /\ 0 < smallc p.

(** A slope [s] of a cell with value [q] and neighbours [qm], [qp] is limited
    (with steepness [t]): it vanishes at extrema, never points against the
    data, and is no steeper than [t] times either one-sided difference nor
    than the central difference. *)
Definition limited (t q qp qm s : R) : Prop :=
  ((q - qm) * (qp - q) <= 0 -> s = 0) /\
  0 <= s * (q - qm) /\ 0 <= s * (qp - q) /\
  Rabs s <= t * Rabs (q - qm) /\ Rabs s <= t * Rabs (qp - q) /\
  Rabs s <= Rabs ((qp - qm) / 2).

(** Values on the two faces lie between the cell and the neighbour. *)
Definition faces_between (q qp qm s : R) : Prop :=
  Rmin q qp <= q + s / 2 <= Rmax q qp /\ Rmin qm q <= q - s / 2 <= Rmax qm q.

(** Inverse crossing time of a cell by the fastest signals of a primitive
    state, and the sum of the signal speeds. *)
Definition signal_rate2 (p : hparams R) (q : hs R) : R :=
  (sound_speed (gamma0 p) q + Rabs (hU q)) / dx p + (sound_speed (gamma0 p) q + Rabs (hV q)) / dy p.
Definition signal_rate3 (p : hparams R) (q : hs R) : R :=
  (sound_speed (gamma0 p) q + Rabs (hU q)) / dx p + (sound_speed (gamma0 p) q + Rabs (hV q)) / dy p
  + (sound_speed (gamma0 p) q + Rabs (hW q)) / dz p.
Definition signal_sum2 (p : hparams R) (q : hs R) : R :=
  (sound_speed (gamma0 p) q + Rabs (hU q)) + (sound_speed (gamma0 p) q + Rabs (hV q)).
Definition signal_sum3 (p : hparams R) (q : hs R) : R :=
  (sound_speed (gamma0 p) q + Rabs (hU q)) + (sound_speed (gamma0 p) q + Rabs (hV q))
  + (sound_speed (gamma0 p) q + Rabs (hW q)).

(** Kinetic energy from density and momentum. *)
Definition kinetic2 (d mx my : R) : R := (mx * mx + my * my) / (2 * d).
Definition kinetic3 (d mx my mz : R) : R := (mx * mx + my * my + mz * mz) / (2 * d).
