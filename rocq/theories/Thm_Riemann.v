(** Theorems about the hydrodynamics Riemann solvers (C32-C35).  The
    specification is Physics.v: [euler_flux], [mirror], [mirror_flux],
    [admissible] (no floor active), [planar] (2D data). *)
From Coq Require Import ZArith Reals Lra Psatz List String.
From Verif Require Import Arith HydroState RiemannModel HydroPoint HydroSpec Physics PointProofs
  RiemannProofs HllcProofs ApproxProofs RiemannSelect RiemannMirror.
Import ListNotations.
Open Scope R_scope.

(** C32: equal states give the physical flux, for every supported solver. *)
Theorem C32_consistent_2d : forall (p : hparams R) q junk, params_ok p -> riemann_ok2 p -> admissible p q -> planar q ->
  riemann_hydro2 p q q junk = euler_flux (gamma0 p) q.
Proof. exact consistent2. Qed.
Theorem C32_consistent_3d : forall (p : hparams R) q junk, params_ok p -> riemann_ok3 p -> admissible p q ->
  riemann_hydro3 p q q junk = euler_flux (gamma0 p) q.
Proof. exact consistent3. Qed.
Print Assumptions C32_consistent_2d.
Print Assumptions C32_consistent_3d.

Definition gas (r : Z) : hparams R := HParams R 1.4 1 1 (1/10) 1 1 1 1 1 1 1 r.
Example C32_hypotheses_hold : params_ok (gas RIEMANN_HLLC) /\ riemann_ok2 (gas RIEMANN_HLLC) /\ riemann_ok3 (gas RIEMANN_HLLC)
  /\ admissible (gas RIEMANN_HLLC) (HS 1 2 3 4 0) /\ planar (HS 1 2 3 4 0).
Proof.
  unfold params_ok, riemann_ok2, riemann_ok3, admissible, planar, gas. cbn. repeat split; try lra; auto 10.
Qed.

(** C33: mirror symmetry, for arbitrary states (density and pressure floors
    included). *)
Theorem C33_mirror_2d : forall (p : hparams R) ql qr junk, params_ok p ->
  In (riemann_type p) [RIEMANN_HLL; RIEMANN_HLLC; RIEMANN_LLF] ->
  riemann_hydro2 p (mirror qr) (mirror ql) junk = mirror_flux (riemann_hydro2 p ql qr junk).
Proof. exact mirror2_all. Qed.
Theorem C33_mirror_3d : forall (p : hparams R) ql qr junk, params_ok p ->
  In (riemann_type p) [RIEMANN_HLLC; RIEMANN_LLF] ->
  riemann_hydro3 p (mirror qr) (mirror ql) junk = mirror_flux (riemann_hydro3 p ql qr junk).
Proof. exact mirror3_all. Qed.
(** For the Newton solver: whenever the contact speed it computes is not
    exactly zero.  Missing: contact speed exactly zero with an unconverged
    Newton iteration, where the code samples the left fan in both
    orientations. *)
Theorem C33_mirror_approx_2d_partial : forall (p : hparams R) ql qr junk, params_ok p -> riemann_type p = RIEMANN_APPROX ->
  admissible p ql -> admissible p qr -> planar ql -> planar qr -> contact_speed p ql qr <> 0 ->
  riemann_hydro2 p (mirror qr) (mirror ql) junk = mirror_flux (riemann_hydro2 p ql qr junk).
Proof.
  intros p ql qr junk Hp Hr A1 A2 P1 P2 H. unfold riemann_hydro2. rewrite Hr. apply approx_mirror; auto; right; auto.
Qed.
Theorem C33_mirror_approx_3d_partial : forall (p : hparams R) ql qr junk, params_ok p -> riemann_type p = RIEMANN_APPROX ->
  admissible p ql -> admissible p qr -> contact_speed p ql qr <> 0 ->
  riemann_hydro3 p (mirror qr) (mirror ql) junk = mirror_flux (riemann_hydro3 p ql qr junk).
Proof.
  intros p ql qr junk Hp Hr A1 A2 H. unfold riemann_hydro3. rewrite Hr. apply approx_mirror; auto; left; auto.
Qed.
Print Assumptions C33_mirror_2d.
Print Assumptions C33_mirror_3d.
Print Assumptions C33_mirror_approx_2d_partial.
Print Assumptions C33_mirror_approx_3d_partial.
(** The case excluded above is not the typical one: equal pressures moving
    at a common nonzero speed satisfy the hypothesis. *)
Example C33_approx_hypothesis_holds : contact_speed (gas RIEMANN_APPROX) (HS 1 2 3 4 0) (HS 2 2 3 4 0) <> 0.
Proof.
  unfold contact_speed. cbn [hD hU hP]. rewrite pstar_equal; try lra.
  - unfold approx_ustar. ar. replace (2 - 2) with 0 by ring. unfold Rdiv. rewrite !Rmult_0_l. lra.
  - unfold params_ok, gas. cbn. lra.
Qed.

(** C34: supersonic flow is upwinded.  [fastest] bounds both sound speeds. *)
Definition fastest (p : hparams R) (ql qr : hs R) : R :=
  Rmax (smallc p) (Rmax (sound_speed (gamma0 p) ql) (sound_speed (gamma0 p) qr)).

Lemma fastest_cmx p ql qr : params_ok p -> admissible p ql -> admissible p qr -> cmx p ql qr = fastest p ql qr.
Proof.
  intros Hp A1 A2. unfold cmx, fastest. rewrite !cfast_max by auto.
  unfold Rmax. repeat destruct Rle_dec; lra.
Qed.

Theorem C34_upwind_2d : forall (p : hparams R) ql qr junk, params_ok p ->
  In (riemann_type p) [RIEMANN_HLL; RIEMANN_HLLC] ->
  admissible p ql -> admissible p qr -> planar ql -> planar qr ->
  (fastest p ql qr <= Rmin (hU ql) (hU qr) -> riemann_hydro2 p ql qr junk = euler_flux (gamma0 p) ql) /\
  (Rmax (hU ql) (hU qr) <= - fastest p ql qr -> riemann_hydro2 p ql qr junk = euler_flux (gamma0 p) qr).
Proof.
  intros p ql qr junk Hp Hr A1 A2 P1 P2. assert (D1 : dim_ok false ql) by (right; auto). assert (D2 : dim_ok false qr) by (right; auto).
  pose proof (fastest_cmx p ql qr Hp A1 A2) as F.
  assert (G : Rmax (csound p ql) (csound p qr) <= fastest p ql qr) by apply Rmax_r.
  unfold riemann_hydro2. destruct Hr as [E|[E|[]]]; rewrite <- E; cbn [Z.eqb]; split; intros H.
  - apply hll_upwind_left; auto. lra.
  - apply hll_upwind_right; auto. lra.
  - apply hllc_upwind_left; auto. lra.
  - apply hllc_upwind_right; auto. lra.
Qed.
Theorem C34_upwind_3d : forall (p : hparams R) ql qr junk, params_ok p -> riemann_type p = RIEMANN_HLLC ->
  admissible p ql -> admissible p qr ->
  (fastest p ql qr <= Rmin (hU ql) (hU qr) -> riemann_hydro3 p ql qr junk = euler_flux (gamma0 p) ql) /\
  (Rmax (hU ql) (hU qr) <= - fastest p ql qr -> riemann_hydro3 p ql qr junk = euler_flux (gamma0 p) qr).
Proof.
  intros p ql qr junk Hp Hr A1 A2. assert (D1 : dim_ok true ql) by (left; auto). assert (D2 : dim_ok true qr) by (left; auto).
  pose proof (fastest_cmx p ql qr Hp A1 A2) as F.
  unfold riemann_hydro3. rewrite Hr. cbn [Z.eqb]; split; intros H.
  - apply hllc_upwind_left; auto. lra.
  - apply hllc_upwind_right; auto. lra.
Qed.
(** Contacts (equal pressure and normal velocity, any densities and transverse
    velocities), at rest or moving, are resolved exactly by HLLC and by the
    Newton solver. *)
Theorem C34_contact_2d : forall (p : hparams R) ql qr junk, params_ok p ->
  In (riemann_type p) [RIEMANN_APPROX; RIEMANN_HLLC] ->
  admissible p ql -> admissible p qr -> planar ql -> planar qr -> hU ql = hU qr -> hP ql = hP qr ->
  riemann_hydro2 p ql qr junk = euler_flux (gamma0 p) (if Rlt_dec 0 (hU ql) then ql else qr).
Proof.
  intros p ql qr junk Hp Hr A1 A2 P1 P2 EU EP. assert (D1 : dim_ok false ql) by (right; auto). assert (D2 : dim_ok false qr) by (right; auto).
  unfold riemann_hydro2. destruct Hr as [E|[E|[]]]; rewrite <- E; cbn [Z.eqb].
  - apply approx_contact; auto.
  - apply hllc_contact; auto.
Qed.
Theorem C34_contact_3d : forall (p : hparams R) ql qr junk, params_ok p ->
  In (riemann_type p) [RIEMANN_APPROX; RIEMANN_HLLC] ->
  admissible p ql -> admissible p qr -> hU ql = hU qr -> hP ql = hP qr ->
  riemann_hydro3 p ql qr junk = euler_flux (gamma0 p) (if Rlt_dec 0 (hU ql) then ql else qr).
Proof.
  intros p ql qr junk Hp Hr A1 A2 EU EP. assert (D1 : dim_ok true ql) by (left; auto). assert (D2 : dim_ok true qr) by (left; auto).
  unfold riemann_hydro3. destruct Hr as [E|[E|[]]]; rewrite <- E; cbn [Z.eqb].
  - apply approx_contact; auto.
  - apply hllc_contact; auto.
Qed.
(** Transverse momentum is the mass flux times the velocity of one side, for
    HLLC the side the mass comes from. *)
Theorem C34_transverse_3d : forall (p : hparams R) ql qr junk, params_ok p ->
  admissible p ql -> admissible p qr ->
  let f := riemann_hydro3 p ql qr junk in
  (riemann_type p = RIEMANN_HLLC -> let q := if Rlt_dec 0 (hD f) then ql else qr in
    hV f = hD f * hV q /\ hW f = hD f * hW q) /\
  (riemann_type p = RIEMANN_APPROX -> exists q, (q = ql \/ q = qr) /\ hV f = hD f * hV q /\ hW f = hD f * hW q).
Proof.
  intros p ql qr junk Hp A1 A2. assert (D1 : dim_ok true ql) by (left; auto). assert (D2 : dim_ok true qr) by (left; auto).
  cbv zeta. unfold riemann_hydro3. split; intros E; rewrite E; cbn [Z.eqb].
  - apply hllc_tangential; auto.
  - apply approx_tangential; auto.
Qed.
Print Assumptions C34_upwind_2d.
Print Assumptions C34_upwind_3d.
Print Assumptions C34_contact_2d.
Print Assumptions C34_contact_3d.
Print Assumptions C34_transverse_3d.
Example C34_hypotheses_hold :
  admissible (gas RIEMANN_HLLC) (HS 1 1 9 4 0) /\ admissible (gas RIEMANN_HLLC) (HS 2 2 8 1 0) /\
  fastest (gas RIEMANN_HLLC) (HS 1 1 9 4 0) (HS 2 2 8 1 0) <= Rmin 9 8.
Proof.
  unfold admissible, fastest, gas, sound_speed. cbn. repeat split; try lra.
  assert (R_sqrt.sqrt (1.4 * 1 / 1) <= 8).
  { rewrite <- (sqrt_square 8) by lra. apply sqrt_le_1_alt. lra. }
  assert (R_sqrt.sqrt (1.4 * 2 / 2) <= 8).
  { rewrite <- (sqrt_square 8) by lra. apply sqrt_le_1_alt. lra. }
  unfold Rmax, Rmin. repeat destruct Rle_dec; lra.
Qed.

(** C35: which solver names give a flux that does not depend on uninitialised
    memory.  [junk] is the content of the flux variable before the call. *)
Definition defined2 (p : hparams R) := forall ql qr junk junk', riemann_hydro2 p ql qr junk = riemann_hydro2 p ql qr junk'.
Definition defined3 (p : hparams R) := forall ql qr junk junk', riemann_hydro3 p ql qr junk = riemann_hydro3 p ql qr junk'.

Lemma junk_differ : HS 0 0 0 0 0 <> HS 1 0 0 0 0. Proof. intros E. injection E. lra. Qed.

Theorem C35_names_2d : forall (p : hparams R) name, riemann_type p = riemann_of_name name ->
  (defined2 p <-> name <> "hlld"%string).
Proof.
  intros p name E. unfold defined2, riemann_hydro2. rewrite E. unfold riemann_of_name.
  destruct (String.eqb_spec name "approx"); [subst; cbn; split; [discriminate|reflexivity]|].
  destruct (String.eqb_spec name "llf"); [subst; cbn; split; [discriminate|reflexivity]|].
  destruct (String.eqb_spec name "hll"); [subst; cbn; split; [discriminate|reflexivity]|].
  destruct (String.eqb_spec name "hllc"); [subst; cbn; split; [discriminate|reflexivity]|].
  destruct (String.eqb_spec name "hlld"); cbn.
  - split; [|congruence]. intros H. exfalso. apply junk_differ. apply H; exact (HS 0 0 0 0 0).
  - split; auto.
Qed.
Theorem C35_names_3d : forall (p : hparams R) name, riemann_type p = riemann_of_name name ->
  (defined3 p <-> name <> "hlld"%string /\ name <> "hll"%string).
Proof.
  intros p name E. unfold defined3, riemann_hydro3. rewrite E. unfold riemann_of_name.
  destruct (String.eqb_spec name "approx"); [subst; cbn; split; [split; discriminate|reflexivity]|].
  destruct (String.eqb_spec name "llf"); [subst; cbn; split; [split; discriminate|reflexivity]|].
  destruct (String.eqb_spec name "hll"); cbn.
  { split; [|intros [_ ?]; congruence]. intros H. exfalso. apply junk_differ. apply H; exact (HS 0 0 0 0 0). }
  destruct (String.eqb_spec name "hllc"); [subst; cbn; split; [split; discriminate|reflexivity]|].
  destruct (String.eqb_spec name "hlld"); cbn.
  - split; [|intros [? _]; congruence]. intros H. exfalso. apply junk_differ. apply H; exact (HS 0 0 0 0 0).
  - split; auto.
Qed.
Print Assumptions C35_names_2d.
Print Assumptions C35_names_3d.
Example C35_hypothesis_holds : riemann_type (gas RIEMANN_HLL) = riemann_of_name "hll".
Proof. reflexivity. Qed.
