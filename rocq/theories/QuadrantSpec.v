(** Elementary waves of the Euler equations for a gas with ratio of specific heats 7/5, up to
    the accuracy (four digits) of tabulated data. *)
From Coq Require Import Reals.
From Verif Require Import Arith HydroState Physics HydroInit.
Local Open Scope R_scope.

Definition near (tol a b : R) : Prop := Rabs (a - b) <= tol.
Definition digits : R := / 1000.
Definition gamma_air : R := 7 / 5.
Definition csound (q : hs R) : R := sound_speed gamma_air q.
(** A contact discontinuity or shear layer between left and right. *)
Definition contact (l r : hs R) : Prop := near digits (hU l) (hU r) /\ near digits (hP l) (hP r).
(** A shock: the gas is compressed; momentum balance and Hugoniot relation. *)
Definition shock (l r : hs R) : Prop :=
  near digits (hV l) (hV r) /\ hU r < hU l /\
  near (2 * digits) ((hU l - hU r) * (hU l - hU r)) ((hP l - hP r) * (/ hD r - / hD l)) /\
  near (5 * digits * (hP r * ((gamma_air + 1) * hD l - (gamma_air - 1) * hD r)))
    (hP l * ((gamma_air + 1) * hD r - (gamma_air - 1) * hD l)) (hP r * ((gamma_air + 1) * hD l - (gamma_air - 1) * hD r)).
(** A rarefaction: the gas expands by 2/(gamma-1) times the change of the sound speed;
    the entropy p/rho^(7/5) is the same (fifth powers). *)
Definition rarefaction (l r : hs R) : Prop :=
  near digits (hV l) (hV r) /\
  near digits (hU r - hU l) (2 / (gamma_air - 1) * Rabs (csound r - csound l)) /\
  near (5 * digits * (hP r ^ 5 * hD l ^ 7)) (hP l ^ 5 * hD r ^ 7) (hP r ^ 5 * hD l ^ 7).
Definition single_wave (l r : hs R) : Prop := contact l r \/ shock l r \/ rarefaction l r.
(** Turned by a quarter: the velocity along y is the normal one. *)
Definition turned (q : hs R) : hs R := HS (hD q) (hP q) (hV q) (hU q) (hW q).
(** One wave between neighbours: 1 | 0 and 2 | 3 along x, 2 | 1 and 3 | 0 along y. *)
Definition four_waves (c : hs R * hs R * hs R * hs R) : Prop :=
  let '(q0, q1, q2, q3) := c in
  single_wave q1 q0 /\ single_wave q2 q3 /\ single_wave (turned q2) (turned q1) /\ single_wave (turned q3) (turned q0).
