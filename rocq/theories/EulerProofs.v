(** The characteristic transforms of EulerEquations.h diagonalise the flux Jacobian. *)
From Coq Require Import ZArith List Bool Reals Lra Lia.
From Coquelicot Require Import Coquelicot.
From Verif Require Import Arith GridModel HydroState HydroKernels HydroConserve MoodKernels MoodProofs EulerModel EulerSpec.
Import ListNotations.
Open Scope R_scope.

Lemma charac_round b3 g dir (d q : hs R) c : In dir (dirs b3) -> hD q <> 0 -> c <> 0 -> g <> 1 ->
  (b3 = false -> hW d = 0) ->
  charac_to_cons b3 g dir (cons_to_charac b3 g dir d q c) q c = d.
Proof.
  intros Hd Hq Hc Hg Hw. assert (Hg1 : g - 1 <> 0) by lra. apply dirs_cases in Hd.
  unfold charac_to_cons, cons_to_charac. destruct d as [d0 d1 d2 d3 d4], q as [q0 q1 q2 q3 q4]. cbn [hD hP hU hV hW] in *.
  destruct Hd as [->|[->|[-> ->]]]; try destruct b3; unfold IX, IY, IZ; cbn [Z.eqb Pos.eqb hD hP hU hV hW];
  cbn [add sub mul div opp one two half zero RArith]; try rewrite (Hw eq_refl); f_equal; field; auto.
Qed.
Lemma charac_round' b3 g dir (w q : hs R) c : In dir (dirs b3) -> hD q <> 0 -> c <> 0 -> g <> 1 ->
  (b3 = false -> hW w = 0) ->
  cons_to_charac b3 g dir (charac_to_cons b3 g dir w q c) q c = w.
Proof.
  intros Hd Hq Hc Hg Hw. assert (Hg1 : g - 1 <> 0) by lra. apply dirs_cases in Hd.
  unfold charac_to_cons, cons_to_charac. destruct w as [d0 d1 d2 d3 d4], q as [q0 q1 q2 q3 q4]. cbn [hD hP hU hV hW] in *.
  destruct Hd as [->|[->|[-> ->]]]; try destruct b3; unfold IX, IY, IZ; cbn [Z.eqb Pos.eqb hD hP hU hV hW];
  cbn [add sub mul div opp one two half zero RArith]; try rewrite (Hw eq_refl); f_equal; field; auto.
Qed.

(** The derivative of the flux along [d]. *)
Lemma jacobian b3 g dir (d q : hs R) c v : In dir (dirs b3) -> hD q <> 0 -> c <> 0 -> g <> 1 ->
  c * c = g * cons_pressure g q / hD q ->
  (b3 = false -> hW q = 0 /\ hW d = 0) -> (0 <= v < 5)%Z ->
  is_derive (fun t => comp (cons_flux g dir (shift_state q d t)) v) 0
    (comp (charac_to_cons b3 g dir (wave_speeds (normal_momentum dir q / hD q) c (cons_to_charac b3 g dir d q c)) q c) v).
Proof.
  intros Hd Hq Hc Hg Hcc Hw Hv. assert (Hg1 : g - 1 <> 0) by lra. apply dirs_cases in Hd.
  assert (E : hP q = (hU q * hU q + hV q * hV q + hW q * hW q) / (2 * hD q) + c * c * hD q / (g * (g - 1)) \/ g = 0).
  { destruct (Req_dec g 0) as [->|Hg0]; [right; auto|left]. unfold cons_pressure in Hcc. rewrite Hcc. field. auto. }
  destruct E as [E| ->].
  2:{ exfalso. apply Hc. assert (c * c = 0) by (rewrite Hcc; field; auto). nra. }
  destruct (Req_dec g 0) as [->|Hg0]; [exfalso; apply Hc; assert (c * c = 0) by (rewrite Hcc; field; auto); nra|].
  clear Hcc. unfold cons_flux, cons_pressure, normal_momentum, shift_state, wave_speeds, charac_to_cons, cons_to_charac.
  destruct d as [d0 d1 d2 d3 d4], q as [q0 q1 q2 q3 q4]. cbn [hD hP hU hV hW] in *.
  apply v5 in Hv.
  destruct Hd as [->|[->|[-> ->]]]; try destruct b3; try (destruct (Hw eq_refl) as [-> ->]);
  unfold IX, IY, IZ; cbn [Z.eqb Pos.eqb hD hP hU hV hW];
  cbn [add sub mul div opp one two half zero RArith];
  destruct Hv as [->|[->|[->|[->| ->]]]]; unfold comp, ID, IP, IU, IV, IW; cbn [Z.eqb Pos.eqb hD hP hU hV hW];
  (auto_derive; [repeat split; rewrite ?Rmult_0_l, ?Rplus_0_r; auto; try (apply Rmult_integral_contrapositive; split; lra)|]);
  try subst q1; try rewrite E; field; repeat split; auto; lra.
Qed.
