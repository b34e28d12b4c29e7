(** Approximate Riemann fans, written without reference to the code.  A fan is a constant state
    followed by waves, each with its speed and the state and flux on its right. *)
From Coq Require Import Reals List.
From Verif Require Import HydroState MhdState MhdPhysics.
Import ListNotations.
Open Scope R_scope.

Record region := Region { rU : ms R; rF : ms R }.
(** Jump condition (conservation across a wave of speed s) for the eight variables. *)
Definition jump (s : R) (l r : region) : Prop :=
  mD (rF r) - mD (rF l) = s * (mD (rU r) - mD (rU l)) /\ mP (rF r) - mP (rF l) = s * (mP (rU r) - mP (rU l)) /\
  mU (rF r) - mU (rF l) = s * (mU (rU r) - mU (rU l)) /\ mV (rF r) - mV (rF l) = s * (mV (rU r) - mV (rU l)) /\
  mW (rF r) - mW (rF l) = s * (mW (rU r) - mW (rU l)) /\ mA (rF r) - mA (rF l) = s * (mA (rU r) - mA (rU l)) /\
  mB (rF r) - mB (rF l) = s * (mB (rU r) - mB (rU l)) /\ mC (rF r) - mC (rF l) = s * (mC (rU r) - mC (rU l)).
Fixpoint fan_ok (l : region) (ws : list (R * region)) : Prop :=
  match ws with [] => True | (s, r) :: ws => jump s l r /\ fan_ok r ws end.
Fixpoint last_region (l : region) (ws : list (R * region)) : region :=
  match ws with [] => l | (_, r) :: ws => last_region r ws end.
(** Flux at the interface x = 0: that of the region left of the first wave moving to the right. *)
Fixpoint fan_flux (l : region) (ws : list (R * region)) : ms R :=
  match ws with [] => rF l | (s, r) :: ws => if Rlt_dec 0 s then rF l else fan_flux r ws end.
(** Region of a gas state. *)
Definition gas_region (gam : R) (q : ms R) : region := Region (mhd_conservative gam q) (mhd_flux gam q).

(** Outer speeds and contact speed of the two states of an interface. *)
Section Speeds.
Variables (gam : R) (ql qr : ms R).
Definition fastest_speed : R := Rmax (fast_speed gam ql (mA ql)) (fast_speed gam qr (mA qr)).
Definition left_speed : R := Rmin (mU ql) (mU qr) - fastest_speed.
Definition right_speed : R := Rmax (mU ql) (mU qr) + fastest_speed.
Definition total_pressure (q : ms R) : R := mP q + field2 q / 2.
Definition contact_speed_mhd : R :=
  let ml := mD ql * (mU ql - left_speed) in let mr := mD qr * (right_speed - mU qr) in
  (mr * mU qr + ml * mU ql + (total_pressure ql - total_pressure qr)) / (mr + ml).
(** [N] = density times squared distance (in velocity) between outer wave and flow; the transverse state
    behind the outer wave s is regular if N is not the squared normal field and the test of the code
    (|(N - a^2)/a^2 - 1| <= 1e-8, a <> 0) does not apply. *)
Definition regular_side (s : R) (q : ms R) : Prop :=
  let a2 := mA q * mA q in let N := mD q * (s - mU q) * (s - contact_speed_mhd) in
  N <> a2 /\ (0 < a2 -> 1 / 100000000 < Rabs ((N - a2) / a2 - 1)).
Definition regular_fan : Prop := regular_side left_speed ql /\ regular_side right_speed qr.
End Speeds.

(** The rotational (Alfven) waves lie inside the outer waves. *)
Definition alfven_inside (gam : R) (ql qr : ms R) : Prop :=
  mA ql * mA ql < mD ql * (mU ql - left_speed gam ql qr) * (contact_speed_mhd gam ql qr - left_speed gam ql qr) /\
  mA qr * mA qr < mD qr * (right_speed gam ql qr - mU qr) * (right_speed gam ql qr - contact_speed_mhd gam ql qr).
(** Speeds of the five waves of the HLLD fan: outer wave, rotational wave, contact, rotational wave, outer wave. *)
Definition five_speeds (gam : R) (ql qr : ms R) : list R :=
  let sl := left_speed gam ql qr in let sr := right_speed gam ql qr in let us := contact_speed_mhd gam ql qr in
  let dl := mD ql * (mU ql - sl) / (us - sl) in let dr := mD qr * (sr - mU qr) / (sr - us) in
  [sl; us - Rabs (mA ql) / R_sqrt.sqrt dl; us; us + Rabs (mA qr) / R_sqrt.sqrt dr; sr].
(** Largest signal speed of the two states (Lax-Friedrichs). *)
Definition signal_speed (gam : R) (q : ms R) : R := Rabs (mU q) + fast_speed gam q (mA q).
Definition largest_signal (gam : R) (ql qr : ms R) : R := Rmax (signal_speed gam ql) (signal_speed gam qr).
(** A jump-condition fan joining two gas states, with given wave speeds, whose flux at the interface is [f]. *)
Definition fan_between (gam : R) (ql qr : ms R) (speeds : list R) (f : ms R) : Prop :=
  exists ws, map fst ws = speeds /\ fan_ok (gas_region gam ql) ws /\
    last_region (gas_region gam ql) ws = gas_region gam qr /\ f = fan_flux (gas_region gam ql) ws.
(** MHD flux of the conserved state [U] with total pressure [pt]. *)
Definition flux_with_pressure (pt : R) (U : ms R) : ms R :=
  let u := mU U / mD U in let v := mV U / mD U in let w := mW U / mD U in
  MS (mD U * u) ((mP U + pt) * u - mA U * (u * mA U + v * mB U + w * mC U))
     (mD U * u * u - mA U * mA U + pt) (mD U * u * v - mA U * mB U) (mD U * u * w - mA U * mC U)
     0 (mB U * u - mA U * v) (mC U * u - mA U * w).
(** Regions whose flux is that of an MHD state of positive density with some total pressure. *)
Definition mhd_like (r : region) : Prop := 0 < mD (rU r) /\ exists pt, rF r = flux_with_pressure pt (rU r).
Definition mhd_fan_between (gam : R) (ql qr : ms R) (speeds : list R) (f : ms R) : Prop :=
  exists ws, map fst ws = speeds /\ Forall (fun w => mhd_like (snd w)) ws /\ fan_ok (gas_region gam ql) ws /\
    last_region (gas_region gam ql) ws = gas_region gam qr /\ f = fan_flux (gas_region gam ql) ws.

(** States an MHD solver works with at an interface: both get the mean normal field, and the isothermal
    pressure if a sound speed is prescribed. *)
Definition mean_field (ql qr : ms R) : R := (mA ql + mA qr) / 2.
Definition interface_state (c : R) (ql qr q : ms R) : ms R := with_A (gas_state c q) (mean_field ql qr).

(** Mirror image in the plane of the interface: the normal velocity and (the field being an axial vector, up to
    the global sign of the field) the normal field change sign. *)
Definition mhd_mirror (q : ms R) : ms R := MS (mD q) (mP q) (- mU q) (mV q) (mW q) (- mA q) (mB q) (mC q).
Definition mhd_mirror_flux (f : ms R) : ms R :=
  MS (- mD f) (- mP f) (mU f) (- mV f) (- mW f) (mA f) (- mB f) (- mC f).
