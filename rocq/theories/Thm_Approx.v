(** C79: the Newton Riemann solver is a two-shock solver.  Specification: ShockSpec.v ([jump],
    [behind], [found_at_rest], [two_shock_flux]).  Also the remaining case of C33. *)
From Coq Require Import ZArith Reals Lra Psatz.
From Verif Require Import Arith HydroState RiemannModel HydroPoint Physics PointProofs RiemannProofs ApproxProofs ShockSpec ApproxFan.
Local Open Scope R_scope.

Definition usual_gamma6 (p : hparams R) : Prop := gamma6 p = (gamma0 p + 1) / (2 * gamma0 p).

Lemma adm_positive p q : params_ok p -> admissible p q -> 0 < hD q /\ 0 < hP q.
Proof. intros (G & R0 & P0 & C0) [A B]. split; [lra|]. assert (0 < hD q * smallp p) by (apply Rmult_lt_0_compat; lra). lra. Qed.

Lemma ustar_mean p ql qr ps :
  approx_ustar p (hD ql) (hU ql) (hP ql) (hD qr) (hU qr) (hP qr) ps = (hU (back p 1 ql ps) + hU (back p (-1) qr ps)) / 2.
Proof. unfold approx_ustar, back. ar. cbn [hU]. unfold Rdiv. ring. Qed.

Local Opaque approx_pstar approx_sample approx_w sqrt.
Lemma approx_shape p d3 ql qr : params_ok p -> admissible p ql -> admissible p qr -> dim_ok d3 ql -> dim_ok d3 qr ->
  forall ps, ps = approx_pstar p (hD ql) (hU ql) (hP ql) (hD qr) (hU qr) (hP qr) ->
  forall us, us = (hU (back p 1 ql ps) + hU (back p (-1) qr ps)) / 2 ->
  exists gD gU gP,
   (us < 0 -> approx_sample p (-1) (hD qr) (hU qr) (hP qr) (approx_w p (hD qr) (hP qr) ps) ps us = (gD, gU, gP) /\
              riemann_approx p d3 ql qr = euler_flux (gamma0 p) (HS gD gP gU (hV qr) (hW qr))) /\
   (0 <= us -> approx_sample p 1 (hD ql) (hU ql) (hP ql) (approx_w p (hD ql) (hP ql) ps) ps us = (gD, gU, gP) /\
              riemann_approx p d3 ql qr = euler_flux (gamma0 p) (HS gD gP gU (hV ql) (hW ql))).
Proof.
  intros Hp A1 A2 D1 D2 ps Eps us Eus. rewrite <- ustar_mean in Eus.
  unfold riemann_approx. ar.
  rewrite (floor_d p ql A1), (floor_p p ql A1), (floor_d p qr A2), (floor_p p qr A2), <- Eps, <- Eus.
  destruct (Rlt_dec us 0) as [X|X].
  - destruct (Rlt_dec 0 (-1)) as [Y|_]; [exfalso; lra|].
    destruct (approx_sample p (-1) _ _ _ _ ps us) as [[gD gU] gP]. exists gD, gU, gP. split; [intros _|intros; exfalso; lra].
    split; [reflexivity|].
    assert (WO : (if d3 then hW qr else 0) = hW qr) by (destruct d3; [reflexivity|]; destruct D2 as [Z|Z]; [discriminate|symmetry; exact Z]).
    rewrite WO. apply cmpflx_euler; [exact Hp|]. destruct D2 as [Z|Z]; [left; exact Z|right; exact Z].
  - destruct (Rlt_dec 0 1) as [_|Y]; [|exfalso; lra].
    destruct (approx_sample p 1 _ _ _ _ ps us) as [[gD gU] gP]. exists gD, gU, gP. split; [intros; exfalso; lra|intros _].
    split; [reflexivity|].
    assert (WO : (if d3 then hW ql else 0) = hW ql) by (destruct d3; [reflexivity|]; destruct D1 as [Z|Z]; [discriminate|symmetry; exact Z]).
    rewrite WO. apply cmpflx_euler; [exact Hp|]. destruct D1 as [Z|Z]; [left; exact Z|right; exact Z].
Qed.

Lemma two_shocks p d3 ql qr : params_ok p -> usual_gamma6 p -> admissible p ql -> admissible p qr ->
  dim_ok d3 ql -> dim_ok d3 qr -> two_shock_flux (gamma0 p) (smallr p) (smallc p) ql qr (riemann_approx p d3 ql qr).
Proof.
  intros Hp G6 A1 A2 D1 D2. destruct (adm_positive p ql Hp A1) as [Dl Pl]. destruct (adm_positive p qr Hp A2) as [Dr Pr].
  assert (B := pstar_below p Hp G6 (hD ql) (hU ql) (hP ql) (hD qr) (hU qr) (hP qr) Dl Pl Dr Pr).
  remember (approx_pstar p (hD ql) (hU ql) (hP ql) (hD qr) (hU qr) (hP qr)) as ps eqn:Eps.
  destruct B as [Ps0 Bg].
  assert (one2 : 1 * 1 = 1) by ring. assert (mone2 : (-1) * (-1) = 1) by ring.
  assert (UL : hU (back p 1 ql ps) = hU ql - phi p (hD ql) (hP ql) ps) by (unfold back, phi; cbn [hU]; ring).
  assert (UR : hU (back p (-1) qr ps) = hU qr + phi p (hD qr) (hP qr) ps) by (unfold back, phi; cbn [hU]; ring).
  remember ((hU (back p 1 ql ps) + hU (back p (-1) qr ps)) / 2) as us eqn:Eus.
  destruct (approx_shape p d3 ql qr Hp A1 A2 D1 D2 ps Eps us Eus) as (gD & gU & gP & SN & SP).
  exists (back p 1 ql ps), (front p 1 ql ps), (back p (-1) qr ps), (front p (-1) qr ps),
    (if Rlt_dec us 0 then HS gD gP gU (hV qr) (hW qr) else HS gD gP gU (hV ql) (hW ql)).
  split; [apply back_behind; assumption|]. split; [apply back_behind; assumption|]. split; [reflexivity|]. split; [exact Ps0|].
  split; [|split; [|split]].
  - change (hP (back p 1 ql ps)) with ps. rewrite UL, UR. unfold gap in Bg. destruct Bg as [Bg|Bg]; [left; lra|right; exact Bg].
  - intros bl' sl' br' sr' Bl Br EP P0 EU. change (hP (back p 1 ql ps)) with ps.
    assert (VL := behind_velocity p Hp G6 1 ql bl' sl' one2 Dl Pl P0 Bl).
    assert (VR := behind_velocity p Hp G6 (-1) qr br' sr' mone2 Dr Pr ltac:(lra) Br).
    destruct (Rle_dec ps (hP bl')) as [X|X]; [exact X|exfalso].
    assert (L := phi_increasing p Hp G6 (hD ql) (hP ql) (hP bl') ps Dl Pl P0 ltac:(lra)).
    assert (R := phi_increasing p Hp G6 (hD qr) (hP qr) (hP br') ps Dr Pr ltac:(lra) ltac:(lra)).
    rewrite EP in VL, L. unfold gap in Bg. destruct Bg as [Bg|Bg]; lra.
  - rewrite <- Eus. cbv zeta. split; intros Hs.
    + destruct (Rlt_dec us 0) as [X|_]; [exfalso; lra|]. destruct (SP Hs) as [ES _]. apply (sample_found p Hp 1 ql ps us); assumption.
    + destruct (Rlt_dec us 0) as [_|X]; [|exfalso; lra]. destruct (SN Hs) as [ES _]. apply (sample_found p Hp (-1) qr ps us); assumption.
  - destruct (Rlt_dec us 0) as [X|X]; [destruct (SN X) as [_ E]; exact E|]. destruct (SP ltac:(lra)) as [_ E]. exact E.
Qed.

Theorem C79_two_shocks_2d : forall p ql qr junk, params_ok p -> usual_gamma6 p -> riemann_type p = RIEMANN_APPROX ->
  admissible p ql -> admissible p qr -> planar ql -> planar qr ->
  two_shock_flux (gamma0 p) (smallr p) (smallc p) ql qr (riemann_hydro2 p ql qr junk).
Proof. intros p ql qr junk Hp G6 Hr A1 A2 P1 P2. unfold riemann_hydro2. rewrite Hr. apply two_shocks; auto; right; assumption. Qed.
Theorem C79_two_shocks_3d : forall p ql qr junk, params_ok p -> usual_gamma6 p -> riemann_type p = RIEMANN_APPROX ->
  admissible p ql -> admissible p qr ->
  two_shock_flux (gamma0 p) (smallr p) (smallc p) ql qr (riemann_hydro3 p ql qr junk).
Proof. intros p ql qr junk Hp G6 Hr A1 A2. unfold riemann_hydro3. rewrite Hr. apply two_shocks; auto; left; reflexivity. Qed.
Print Assumptions C79_two_shocks_2d.
Print Assumptions C79_two_shocks_3d.

(** Two streams that collide at speed 1: the exact solution the statement compares with exists. *)
Definition tgas : hparams R := HParams R 3 (2/3) (1/100) (1/100) (1/100) (1/100) 1 1 1 1 1 RIEMANN_APPROX.
Example C79_hypotheses_hold :
  params_ok tgas /\ usual_gamma6 tgas /\ riemann_type tgas = RIEMANN_APPROX /\
  admissible tgas (HS 1 1 1 5 0) /\ admissible tgas (HS 1 1 (-1) 2 0) /\
  behind 3 1 (HS 1 1 1 5 0) (HS (3/2) 4 0 5 0) (-2) /\ behind 3 (-1) (HS 1 1 (-1) 2 0) (HS (3/2) 4 0 2 0) 2.
Proof.
  unfold params_ok, usual_gamma6, admissible, behind, jump, conservative, euler_flux, total_energy, tgas.
  cbn [gamma0 gamma6 smallr smallp smallc riemann_type hD hP hU hV hW]. repeat split; try reflexivity; lra.
Qed.

(** ** C33, contact at rest *)
Lemma stagnant_flux p sg o us q : 0 < smallc p -> us = 0 -> forall b s,
  found_at_rest (gamma0 p) (smallr p) (smallc p) sg o b s us q -> (hP o <= hP b -> sg * s < 0) ->
  euler_flux (gamma0 p) q = HS 0 0 (hP b) 0 0.
Proof.
  intros C0 E b s (_ & _ & Hc & He) Hs.
  assert (Q : core q (Rmax (hD b) (smallr p)) us (hP b)).
  { destruct (Rle_dec (hP o) (hP b)) as [X|X].
    - apply (proj1 (Hc X)). auto.
    - apply (proj1 (He ltac:(lra))). rewrite E. match goal with |- context [Rmax ?a ?b] => assert (Y := Rmax_l a b) end. lra. }
  destruct Q as (_ & QU & QP). unfold euler_flux. rewrite QU, QP, E. apply HS_eq; ring.
Qed.

(** Mirror symmetry of the Newton solver with the contact at rest, if the outer shocks (if any) run
    outward.  With C33_mirror_approx_2d_partial and C33_mirror_approx_3d_partial, what is
    missing is only: contact exactly at rest and a shock that the iteration, stopped early, puts on
    the wrong side of it. *)
Definition outward (p : hparams R) (ql qr : hs R) : Prop :=
  let ps := approx_pstar p (hD ql) (hU ql) (hP ql) (hD qr) (hU qr) (hP qr) in
  (hP ql <= ps -> front p 1 ql ps < 0) /\ (hP qr <= ps -> 0 < front p (-1) qr ps).
Lemma stagnant_mirror p d3 ql qr : params_ok p -> usual_gamma6 p -> admissible p ql -> admissible p qr ->
  dim_ok d3 ql -> dim_ok d3 qr -> contact_speed p ql qr = 0 -> outward p ql qr ->
  riemann_approx p d3 (mirror qr) (mirror ql) = mirror_flux (riemann_approx p d3 ql qr).
Proof.
  intros Hp G6 A1 A2 D1 D2 Hc [O1 O2]. assert (Hp' := Hp). destruct Hp' as (_ & _ & _ & C0).
  assert (HF : forall ql qr, admissible p ql -> admissible p qr -> dim_ok d3 ql -> dim_ok d3 qr -> contact_speed p ql qr = 0 ->
    let ps := approx_pstar p (hD ql) (hU ql) (hP ql) (hD qr) (hU qr) (hP qr) in
    (hP ql <= ps -> front p 1 ql ps < 0) -> riemann_approx p d3 ql qr = HS 0 0 ps 0 0).
  { clear - Hp G6 C0. intros ql qr A1 A2 D1 D2 Hc ps Ho. unfold contact_speed in Hc. rewrite ustar_mean in Hc. fold ps in Hc.
    destruct (adm_positive p ql Hp A1) as [Dl Pl]. destruct (adm_positive p qr Hp A2) as [Dr Pr].
    destruct (pstar_below p Hp G6 (hD ql) (hU ql) (hP ql) (hD qr) (hU qr) (hP qr) Dl Pl Dr Pr) as [Ps0 _].
    destruct (approx_shape p d3 ql qr Hp A1 A2 D1 D2 ps eq_refl 0 (eq_sym Hc)) as (gD & gU & gP & _ & SP).
    destruct (SP ltac:(lra)) as [ES E]. rewrite E.
    apply (stagnant_flux p 1 ql 0 _ C0 eq_refl (back p 1 ql ps) (front p 1 ql ps)).
    - apply (sample_found p Hp 1 ql ps 0); try assumption. ring.
    - intros X. specialize (Ho X). lra. }
  assert (M1 : admissible p (mirror ql)) by exact A1. assert (M2 : admissible p (mirror qr)) by exact A2.
  assert (N1 : dim_ok d3 (mirror ql)) by exact D1. assert (N2 : dim_ok d3 (mirror qr)) by exact D2.
  rewrite (HF ql qr A1 A2 D1 D2 Hc O1).
  assert (EP : approx_pstar p (hD (mirror qr)) (hU (mirror qr)) (hP (mirror qr)) (hD (mirror ql)) (hU (mirror ql)) (hP (mirror ql)) =
    approx_pstar p (hD ql) (hU ql) (hP ql) (hD qr) (hU qr) (hP qr)) by (unfold mirror; cbn [hD hU hP]; apply pstar_mir).
  rewrite (HF (mirror qr) (mirror ql) M2 M1 N2 N1).
  - rewrite EP. unfold mirror_flux. cbn [hD hP hU hV hW]. apply HS_eq; ring.
  - unfold contact_speed. rewrite EP. unfold mirror; cbn [hD hU hP]. rewrite ustar_mir. unfold contact_speed in Hc. rewrite Hc. ring.
  - rewrite EP. cbn [mirror hP]. intros X. specialize (O2 X). unfold front, mirror in *. cbn [hD hU hP]. lra.
Qed.
Theorem C33_mirror_approx_stagnant_2d_partial : forall (p : hparams R) ql qr junk, params_ok p -> usual_gamma6 p ->
  riemann_type p = RIEMANN_APPROX -> admissible p ql -> admissible p qr -> planar ql -> planar qr ->
  contact_speed p ql qr = 0 -> outward p ql qr ->
  riemann_hydro2 p (mirror qr) (mirror ql) junk = mirror_flux (riemann_hydro2 p ql qr junk).
Proof. intros p ql qr junk Hp G6 Hr A1 A2 P1 P2 Hc Ho. unfold riemann_hydro2. rewrite Hr. apply stagnant_mirror; auto; right; assumption. Qed.
Theorem C33_mirror_approx_stagnant_3d_partial : forall (p : hparams R) ql qr junk, params_ok p -> usual_gamma6 p ->
  riemann_type p = RIEMANN_APPROX -> admissible p ql -> admissible p qr ->
  contact_speed p ql qr = 0 -> outward p ql qr ->
  riemann_hydro3 p (mirror qr) (mirror ql) junk = mirror_flux (riemann_hydro3 p ql qr junk).
Proof. intros p ql qr junk Hp G6 Hr A1 A2 Hc Ho. unfold riemann_hydro3. rewrite Hr. apply stagnant_mirror; auto; left; reflexivity. Qed.
Print Assumptions C33_mirror_approx_stagnant_2d_partial.
Print Assumptions C33_mirror_approx_stagnant_3d_partial.
(** Gas at rest on both sides of a contact. *)
Example C33_stagnant_hypotheses_hold : contact_speed tgas (HS 1 2 0 4 0) (HS 3 2 0 1 0) = 0 /\ outward tgas (HS 1 2 0 4 0) (HS 3 2 0 1 0).
Proof.
  assert (Hp : params_ok tgas) by (unfold params_ok, tgas; cbn; lra).
  assert (G6 : usual_gamma6 tgas) by (unfold usual_gamma6, tgas; cbn; lra).
  assert (E : approx_pstar tgas 1 0 2 3 0 2 = 2) by (apply pstar_equal; [exact Hp|lra|lra|lra]).
  unfold contact_speed, outward. cbn [hD hU hP]. rewrite E. split.
  - unfold approx_ustar. ar. replace (2 - 2) with 0 by ring. unfold Rdiv. ring.
  - unfold front. cbn [hD hU hP].
    destruct (approx_w_sq tgas Hp G6 1 2 2 ltac:(lra) ltac:(lra) ltac:(lra)) as [W1 _].
    destruct (approx_w_sq tgas Hp G6 3 2 2 ltac:(lra) ltac:(lra) ltac:(lra)) as [W2 _]. split; intros _; lra.
Qed.
