(** Selection of the Riemann solver by name. *)
From Coq Require Import ZArith String Reals Lra Psatz List.
From Verif Require Import Arith HydroState RiemannModel HydroPoint HydroSpec Physics PointProofs RiemannProofs HllcProofs ApproxProofs.
Import ListNotations.
Open Scope string_scope.

(** src/shared/HydroParams.cpp:174-201, the value of the key [hydro/riemann];
    any other name falls back to [approx]. *)
Definition riemann_of_name (name : string) : Z :=
  if String.eqb name "approx" then RIEMANN_APPROX
  else if String.eqb name "llf" then RIEMANN_LLF
  else if String.eqb name "hll" then RIEMANN_HLL
  else if String.eqb name "hllc" then RIEMANN_HLLC
  else if String.eqb name "hlld" then RIEMANN_HLLD
  else RIEMANN_APPROX.

Open Scope R_scope.
Lemma cfast_max p q : params_ok p -> admissible p q -> cfast p q = Rmax (sound_speed (gamma0 p) q) (smallc p).
Proof.
  intros Hp A. destruct (adm_pos p Hp q A). destruct Hp as (G & _ & _ & S). unfold cfast, sound_speed.
  assert (0 < gamma0 p * hP q / hD q) by (apply Rdiv_lt_0_compat; nra).
  set (x := gamma0 p * hP q / hD q) in *.
  assert (X : R_sqrt.sqrt (smallc p * smallc p) = smallc p) by (apply sqrt_square; lra).
  unfold Rmax at 1. destruct Rle_dec.
  - rewrite X. symmetry. apply Rmax_right. rewrite <- X. apply sqrt_le_1_alt. auto.
  - symmetry. apply Rmax_left. rewrite <- X. apply sqrt_le_1_alt. lra.
Qed.

Lemma consistent2 p q junk : params_ok p -> riemann_ok2 p -> admissible p q -> planar q ->
  riemann_hydro2 p q q junk = euler_flux (gamma0 p) q.
Proof.
  intros Hp Hr A P. unfold riemann_ok2 in Hr. unfold riemann_hydro2. assert (D : dim_ok false q) by (right; auto).
  destruct Hr as [E|[E|[E|[E|[]]]]]; rewrite <- E; cbn;
   [apply approx_consistent|apply hll_consistent|apply hllc_consistent|apply llf_consistent]; auto.
Qed.
Lemma consistent3 p q junk : params_ok p -> riemann_ok3 p -> admissible p q ->
  riemann_hydro3 p q q junk = euler_flux (gamma0 p) q.
Proof.
  intros Hp Hr A. unfold riemann_ok3 in Hr. unfold riemann_hydro3. assert (D : dim_ok true q) by (left; auto).
  destruct Hr as [E|[E|[E|[]]]]; rewrite <- E; cbn;
   [apply approx_consistent|apply hllc_consistent|apply llf_consistent]; auto.
Qed.
Lemma mirror2 p ql qr junk : params_ok p -> In (riemann_type p) [RIEMANN_HLL; RIEMANN_HLLC; RIEMANN_LLF] ->
  admissible p ql -> admissible p qr -> planar ql -> planar qr ->
  riemann_hydro2 p (mirror qr) (mirror ql) junk = mirror_flux (riemann_hydro2 p ql qr junk).
Proof.
  intros Hp Hr A1 A2 P1 P2. unfold riemann_hydro2. assert (D1 : dim_ok false ql) by (right; auto).
  assert (D2 : dim_ok false qr) by (right; auto).
  destruct Hr as [E|[E|[E|[]]]]; rewrite <- E; cbn [Z.eqb];
   [apply hll_mirror|apply hllc_mirror|apply llf_mirror]; auto.
Qed.
Lemma mirror3 p ql qr junk : params_ok p -> In (riemann_type p) [RIEMANN_HLLC; RIEMANN_LLF] ->
  admissible p ql -> admissible p qr ->
  riemann_hydro3 p (mirror qr) (mirror ql) junk = mirror_flux (riemann_hydro3 p ql qr junk).
Proof.
  intros Hp Hr A1 A2. unfold riemann_hydro3. assert (D1 : dim_ok true ql) by (left; auto).
  assert (D2 : dim_ok true qr) by (left; auto).
  destruct Hr as [E|[E|[]]]; rewrite <- E; cbn [Z.eqb];
   [apply hllc_mirror|apply llf_mirror]; auto.
Qed.
Lemma mirror_inv q : mirror (mirror q) = q.
Proof. destruct q. unfold mirror. cbn. f_equal. ring. Qed.
Lemma self_mirror f : f = mirror_flux f -> hD f = 0 /\ hP f = 0 /\ hV f = 0 /\ hW f = 0.
Proof.
  intros H. unfold mirror_flux in H. repeat split.
  - apply (f_equal hD) in H. cbn in H. lra.
  - apply (f_equal hP) in H. cbn in H. lra.
  - apply (f_equal hV) in H. cbn in H. lra.
  - apply (f_equal hW) in H. cbn in H. lra.
Qed.
