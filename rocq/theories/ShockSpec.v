(** Two-shock Riemann problem: specification of the Newton Riemann solver.
    States are primitive (density, pressure, velocity). *)
From Coq Require Import Reals.
From Verif Require Import Arith HydroState Physics.
Local Open Scope R_scope.

(** Conservation across a discontinuity of speed [s] between [a] and [b]. *)
Definition jump (gam s : R) (a b : hs R) : Prop :=
  let ua := conservative gam a in let ub := conservative gam b in
  let fa := euler_flux gam a in let fb := euler_flux gam b in
  s * (hD ub - hD ua) = hD fb - hD fa /\ s * (hP ub - hP ua) = hP fb - hP fa /\
  s * (hU ub - hU ua) = hU fb - hU fa /\ s * (hV ub - hV ua) = hV fb - hV fa /\ s * (hW ub - hW ua) = hW fb - hW fa.
(** [b] is behind a discontinuity that the gas [a] crosses, running to the left ([sg] = 1) or to
    the right ([sg] = -1) relative to it. *)
Definition behind (gam sg : R) (a b : hs R) (s : R) : Prop :=
  jump gam s a b /\ 0 < hD b /\ 0 < sg * (hU a - s).
(** Density, pressure and velocity of [q] are those given. *)
Definition core (q : hs R) (d u pr : R) : Prop := hD q = d /\ hU q = u /\ hP q = pr.
Definition mixed (f a b : R) : R := f * a + (1 - f) * b.
(** The state [q] found at rest in the fan on the side of [o]: [b] behind the wave, [us] the
    velocity of the contact, floors [rmin] and [cmin] for the density and the sound speed. *)
Definition found_at_rest (gam rmin cmin sg : R) (o b : hs R) (s us : R) (q : hs R) : Prop :=
  let db := Rmax (hD b) rmin in
  let co := Rmax cmin (sound_speed gam o) in
  let cb := Rmax cmin (sqrt (gam * hP b / db)) in
  let head := sg * hU o - co in
  let tail := sg * us - cb in
  hV q = hV o /\ hW q = hW o /\
  (** compression: a shock of speed [s] *)
  (hP o <= hP b -> (sg * s < 0 -> core q db us (hP b)) /\ (0 < sg * s -> core q (hD o) (hU o) (hP o)) /\
     (s = 0 -> core q (mixed (/ 2) db (hD o)) (mixed (/ 2) us (hU o)) (mixed (/ 2) (hP b) (hP o)))) /\
  (** expansion: a fan between the speeds [head] and [tail] *)
  (hP b < hP o ->
     (tail < 0 -> core q db us (hP b)) /\ (0 <= tail -> 0 < head -> core q (hD o) (hU o) (hP o)) /\
     (head <= 0 -> 0 <= tail -> exists f, 0 <= f <= 1 /\
        core q (mixed f db (hD o)) (mixed f us (hU o)) (mixed f (hP b) (hP o)) /\
        (cmin + Rabs (head + tail) <= tail - head -> f * (tail - head) = - head))).
(** The interface flux [f] is that of a fan of two shocks running into [ql] and [qr], with a
    common pressure behind that is not above the one of the exact two-shock solution, a contact
    that moves with the mean of the velocities behind, and the state found at rest. *)
Definition two_shock_flux (gam rmin cmin : R) (ql qr f : hs R) : Prop :=
  exists bl sl br sr q,
    behind gam 1 ql bl sl /\ behind gam (-1) qr br sr /\ hP bl = hP br /\ 0 <= hP bl /\
    (hU br <= hU bl \/ hP bl = 0) /\
    (forall bl' sl' br' sr', behind gam 1 ql bl' sl' -> behind gam (-1) qr br' sr' -> hP bl' = hP br' -> 0 <= hP bl' ->
       hU bl' = hU br' -> hP bl <= hP bl') /\
    (let us := (hU bl + hU br) / 2 in
     (0 <= us -> found_at_rest gam rmin cmin 1 ql bl sl us q) /\
     (us < 0 -> found_at_rest gam rmin cmin (-1) qr br sr us q)) /\
    f = euler_flux gam q.
