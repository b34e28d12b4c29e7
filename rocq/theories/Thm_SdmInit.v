(** C83: the initial state of the problems of the spectral difference solver.
    Specification: SdmInitSpec.v ([sprescribed]: the primitive state that the parameters
    of a problem prescribe at a point; [dof_position]: where a solution point is; [sheld]: the
    conservative state stored there; [sgood]: the settings without a defect; [smisses]: no
    prescribed state is stored), ShockSpec.v ([jump]: the Rankine-Hugoniot relations). *)
From Coq Require Import ZArith List Bool Lia Reals Lra.
From Verif Require Import Arith Par ParProofs GridModel HydroState HydroKernels CellKernels HydroSpec Physics ShockSpec MhdState MhdInit MhdInitSpec
  HydroInit HydroInitSpec HydroInitProofs HydroInitState HydroInitWrong MoodKernels MoodProofs TaskModel TaskKernels SdmGeom SdmDofs SdmKernels
  SdmInit SdmInitSpec SdmInitProofs.
Import ListNotations.
Local Open Scope R_scope.

Definition srun b3 P g h bx pr := run_kernels (init_sdm RSLibm b3 P g h bx pr).

(** Every problem, 2D and 3D, any order, any schedule, every solution point of every cell (ghost
    cells too), any process of the decomposition: what is stored is the conservative form of a
    state that the parameters prescribe there. *)
Theorem C83_state : forall b3 P g h bx pr s s' c q,
  1 < gamma0 h -> sgood b3 h bx pr (dof_position P g h bx c q) -> srun b3 P g h bx pr s s' -> In c (cells b3 g) -> In q (dofs b3 P) ->
  exists r, sprescribed b3 h bx pr (dof_position P g h bx c q) r /\ sheld b3 P s' c q = conservative (gamma0 h) r.
Proof.
  intros b3 P g h bx pr s s' c q Hg Hs Hr Hc Hq. destruct (all_sreach b3 h bx Hg pr c q _ Hs) as (r & Hp & Hh).
  exists r. split; [exact Hp|]. eapply sheld_init; eauto. rewrite spoint_sat. exact Hh.
Qed.
Print Assumptions C83_state.

(** Four quadrants, 2D: the state prescribed half a cell away in each direction. *)
Definition shifted (h : hparams R) (X : point) : point := Point (px X + dx h / 2) (py X + dy h / 2) (pz X).
Theorem C83_four_quadrant : forall P g h bx n xt yt s s' c q,
  1 < gamma0 h -> srun false P g h bx (SFourQuadrant n xt yt) s s' -> In c (cells false g) -> In q (dofs false P) ->
  exists r, sprescribed false h bx (SFourQuadrant n xt yt) (shifted h (dof_position P g h bx c q)) r /\
    sheld false P s' c q = conservative (gamma0 h) r.
Proof.
  intros P g h bx n xt yt s s' c q Hg Hr Hc Hq.
  destruct (four_reaches false h bx Hg n xt yt (shifted h (dof_position P g h bx c q)) eq_refl) as (r & Hp & Hh).
  exists r. split; [exact Hp|]. eapply sheld_init; eauto. rewrite spoint_sat. exact Hh.
Qed.
Print Assumptions C83_four_quadrant.

Lemma smisses_by b3 h bx pr X u a : 1 < gamma0 h -> hD a <> 0 -> u = conservative (gamma0 h) a ->
  (forall r, sprescribed b3 h bx pr X r -> r <> a) -> smisses b3 h bx pr X u.
Proof.
  intros Hg Hd He Hq r Hp Hc. rewrite He in Hc. apply conservative_inj in Hc; auto. apply (Hq r Hp). auto.
Qed.

(** So the points within half a cell of the line between the quadrants have the state of the
    wrong side (configuration 0, the default). *)
Theorem C83_four_quadrant_refuted : forall P g h bx xt yt s s' c q,
  1 < gamma0 h -> srun false P g h bx (SFourQuadrant 0 xt yt) s s' -> In c (cells false g) -> In q (dofs false P) ->
  px (dof_position P g h bx c q) < xt <= px (dof_position P g h bx c q) + dx h / 2 ->
  smisses false h bx (SFourQuadrant 0 xt yt) (dof_position P g h bx c q) (sheld false P s' c q).
Proof.
  intros P g h bx xt yt s s' c q Hg Hr Hc Hq Hx.
  destruct (C83_four_quadrant P g h bx 0 xt yt s s' c q Hg Hr Hc Hq) as (a & Ha & He). unfold shifted in Ha.
  set (X := dof_position P g h bx c q) in *. cbn in Ha. 
  assert (Hd : hD a <> 0 /\ hU a = 0).
  { destruct Ha as [(? & _)|[(? & _)|[(_ & _ & ->)|(_ & _ & ->)]]]; try lra; cbn; lra. }
  apply (smisses_by _ _ _ _ _ _ a Hg (proj1 Hd) He). intros r Hp Er. assert (HU := f_equal hU Er). rewrite (proj2 Hd) in HU.
  cbn in Hp. destruct Hp as [(_ & _ & ->)|[(_ & _ & ->)|[(? & _)|(? & _)]]]; cbn in HU; lra.
Qed.
Print Assumptions C83_four_quadrant_refuted.

(** Four quadrants, 3D: the memory stays as it was. *)
Theorem C83_four_quadrant_3d_refuted : forall P g h bx n xt yt s s' c q,
  srun true P g h bx (SFourQuadrant n xt yt) s s' -> In c (cells true g) -> In q (dofs true P) ->
  sheld true P s' c q = sheld true P s c q.
Proof.
  intros P g h bx n xt yt s s' c q Hr Hc Hq. eapply sheld_nothing; eauto. rewrite spoint_sat. reflexivity.
Qed.
Print Assumptions C83_four_quadrant_3d_refuted.

(** Implosion of a gas that moves: the velocity is divided by the density. *)
Theorem C83_implosion_refuted : forall b3 P g h bx a r s s' c q,
  let X := dof_position P g h bx c q in
  1 < gamma0 h -> srun b3 P g h bx (SImplode a) s s' -> In c (cells b3 g) -> In q (dofs b3 P) ->
  (implode_outside b3 bx a X /\ r = im_out a) \/ (~ implode_outside b3 bx a X /\ r = im_in a) -> mD r <> 0 -> mD r <> 1 -> ~ at_rest b3 r ->
  (hU (sheld b3 P s' c q) = mU r /\ hV (sheld b3 P s' c q) = mV r) /\
  smisses b3 h bx (SImplode a) X (sheld b3 P s' c q).
Proof.
  intros b3 P g h bx a r s s' c q X Hg Hr Hc Hq Hreg Hd H1 Hrest.
  assert (E : sheld b3 P s' c q = conservative (gamma0 h) (implode_actual b3 h r)).
  { eapply sheld_init; eauto. rewrite spoint_sat. fold X. cbn [sat]. unfold himplode.
    replace (if himplode_region b3 bx a (px X) (py X) (pz X) then im_out a else im_in a) with r.
    - unfold himplode_state. apply held_cons; unfold implode_actual, total_energy; cbn; try reflexivity; destruct b3; field; lra.
    - destruct (himplode_region b3 bx a (px X) (py X) (pz X)) eqn:Er.
      + apply implode_region_spec in Er. tauto.
      + destruct Hreg as [[H _]|[_ H]]; auto. apply implode_region_spec in H. congruence. }
  split. { rewrite E. unfold implode_actual. cbn. split; field; auto. }
  apply (smisses_by _ _ _ _ _ _ (implode_actual b3 h r) Hg); auto.
  intros q' Hq' Eq. assert (Eg : q' = gas_of b3 r) by (cbn in Hq'; destruct Hq' as [[Ha ->]|[Ha ->]], Hreg as [[Hb ->]|[Hb ->]]; tauto).
  rewrite Eg in Eq. unfold gas_of, implode_actual in Eq. apply Hrest.
  assert (HU := f_equal hU Eq). assert (HV := f_equal hV Eq). assert (HW := f_equal hW Eq). cbn [hU hV hW] in *.
  assert (Hx : forall x, x = x / mD r -> x = 0).
  { intros x Hx. assert (Hy : x * mD r = x) by (rewrite Hx at 1; field; lra).
    assert (Hz : x * (mD r - 1) = 0) by lra. apply Rmult_integral in Hz. destruct Hz; lra. }
  split; [apply Hx; auto|]. split; [apply Hx; auto|]. intros Eb. rewrite Eb in HW. apply Hx. auto.
Qed.
Print Assumptions C83_implosion_refuted.

(** Kelvin-Helmholtz without random and without Robertson's perturbation: the memory stays as it
    was. *)
Theorem C83_kelvin_helmholtz_refuted : forall b3 P g h bx rnd a s s' c q,
  srun b3 P g h bx (SKelvinHelmholtz rnd a) s s' -> In c (cells b3 g) -> In q (dofs b3 P) -> kh_rand a = false -> kh_sine_rob a = false ->
  sheld b3 P s' c q = sheld b3 P s c q.
Proof.
  intros b3 P g h bx rnd a s s' c q Hr Hc Hq H1 H2. eapply sheld_nothing; eauto. rewrite spoint_sat. cbn. unfold hkh. rewrite H1, H2. reflexivity.
Qed.
Print Assumptions C83_kelvin_helmholtz_refuted.

(** Gresho vortex: the velocity of the background is not used. *)
Theorem C83_gresho_refuted : forall b3 P g h bx a s s' c q,
  1 < gamma0 h -> srun b3 P g h bx (SGresho a) s s' -> In c (cells b3 g) -> In q (dofs b3 P) -> gr_rho0 a <> 0 ->
  gr_u a <> 0 \/ gr_v a <> 0 \/ gr_w a <> 0 -> smisses b3 h bx (SGresho a) (dof_position P g h bx c q) (sheld b3 P s' c q).
Proof.
  intros b3 P g h bx a s s' c q Hg Hr Hc Hq H0 Hd. set (X := dof_position P g h bx c q).
  assert (E : sheld b3 P s' c q = conservative (gamma0 h) (gresho_actual false h a X)).
  { eapply sheld_init; eauto. rewrite spoint_sat. apply sgresho_held; auto. }
  apply (smisses_by _ _ _ _ _ _ (gresho_actual false h a X) Hg); auto. intros r -> Er. unfold gresho_gas, gresho_actual in Er.
  assert (HU := f_equal hU Er). assert (HV := f_equal hV Er). assert (HW := f_equal hW Er). cbn [hU hV hW] in *. lra.
Qed.
Print Assumptions C83_gresho_refuted.

(** Isentropic vortex: the ambient pressure of the parameters is not used. *)
Theorem C83_vortex_pressure_refuted : forall b3 P g h bx a s s' c q,
  let X := dof_position P g h bx c q in
  1 < gamma0 h -> srun b3 P g h bx (SVortex a None) s s' -> In c (cells b3 g) -> In q (dofs b3 P) ->
  0 < iv_rho a -> 0 < iv_T a -> 0 < vortex_T (gamma0 h) a (px X) (py X) -> iv_p a <> iv_rho a * iv_T a ->
  smisses b3 h bx (SVortex a None) X (sheld b3 P s' c q).
Proof.
  intros b3 P g h bx a s s' c q X Hg Hr Hc Hq Hrho HT Ht Hp.
  assert (E : sheld b3 P s' c q = conservative (gamma0 h) (vortex_actual h a (px X) (py X))).
  { eapply sheld_init; eauto. rewrite spoint_sat. apply svortex_held; auto. }
  assert (Hpow : forall e, 0 < Rpower (vortex_T (gamma0 h) a (px X) (py X) / iv_T a) e) by (intros e; apply exp_pos).
  apply (smisses_by _ _ _ _ _ _ (vortex_actual h a (px X) (py X)) Hg); auto.
  - unfold vortex_actual, vortex_gas. cbn [hD]. apply Rgt_not_eq. apply Rmult_lt_0_compat; auto.
  - intros q' -> Eq. assert (HP := f_equal hP Eq). unfold vortex_actual in HP. cbv zeta in HP. cbn [hP] in HP.
    set (q0 := Vortex (iv_rho a) (iv_rho a * iv_T a) (iv_T a) (iv_u a) (iv_v a) (iv_x a) (iv_y a) (iv_beta a)).
    assert (HP0 := vortex_pressure h Hg q0 (px X) (py X) eq_refl HT Ht).
    change (hD (vortex_gas (gamma0 h) q0 (px X) (py X))) with (hD (vortex_gas (gamma0 h) a (px X) (py X))) in HP0.
    change (vortex_T (gamma0 h) q0 (px X) (py X)) with (vortex_T (gamma0 h) a (px X) (py X)) in HP0.
    rewrite <- HP0 in HP. unfold vortex_gas in HP. cbn [hP] in HP.
    change (vortex_T (gamma0 h) q0 (px X) (py X)) with (vortex_T (gamma0 h) a (px X) (py X)) in HP. cbn [q0 iv_p iv_T] in HP.
    apply Rmult_eq_reg_r in HP; [auto|]. apply Rgt_not_eq. apply Hpow.
Qed.
Print Assumptions C83_vortex_pressure_refuted.

(** Isentropic vortex at the end time: in a box that does not start at the origin the centre
    can be put outside of it. *)
Theorem C83_vortex_centre_refuted : forall b3 P g h bx a t s s' c q,
  let X := dof_position P g h bx c q in
  let x := iv_x a + t * iv_u a in let y := iv_y a + t * iv_v a in
  1 < gamma0 h -> srun b3 P g h bx (SVortex a (Some t)) s s' -> In c (cells b3 g) -> In q (dofs b3 P) ->
  0 < iv_rho a -> 0 < iv_T a -> iv_beta a <> 0 ->
  (forall x' y', 0 < vortex_T (gamma0 h) (Vortex (iv_rho a) (iv_p a) (iv_T a) (iv_u a) (iv_v a) x' y' (iv_beta a)) (px X) (py X)) ->
  xmin bx < 0 < xmax bx -> xmax bx <= x < xmax bx - xmin bx -> ymin bx = 0 -> 0 <= y < ymax bx ->
  px X <> x - (xmax bx - xmin bx) / 2 ->
  sheld b3 P s' c q = conservative (gamma0 h) (vortex_actual h (Vortex (iv_rho a) (iv_p a) (iv_T a) (iv_u a) (iv_v a) x y (iv_beta a)) (px X) (py X)) /\
  smisses b3 h bx (SVortex a (Some t)) X (sheld b3 P s' c q).
Proof.
  intros b3 P g h bx a t s s' c q X x y Hg Hr Hc Hq Hrho HT Hb Ht Hbox Hx Hy0 Hy Hne.
  assert (Hm : forall v L, 0 <= v < L -> Rfmod v L = v).
  { intros v L HL. assert (Hq0 : 0 <= v / L < 1).
    { split; [apply Rmult_le_pos; [lra|left; apply Rinv_0_lt_compat; lra]|]. apply (Rmult_lt_reg_r L); [lra|]. unfold Rdiv. rewrite Rmult_assoc, Rinv_l by lra. lra. }
    unfold Rfmod. destruct (Rle_dec 0 (v / L)); [|lra]. destruct (base_Int_part (v / L)) as [H1 H2].
    assert (Hi : (Int_part (v / L) = 0)%Z).
    { assert (IZR (Int_part (v / L)) < 1) by lra. assert (-1 < IZR (Int_part (v / L))) by lra. apply lt_IZR in H. apply lt_IZR in H0. lia. }
    rewrite Hi. ring. }
  set (vx := Vortex (iv_rho a) (iv_p a) (iv_T a) (iv_u a) (iv_v a) x y (iv_beta a)).
  assert (E : sheld b3 P s' c q = conservative (gamma0 h) (vortex_actual h vx (px X) (py X))).
  { eapply sheld_init; eauto. rewrite spoint_sat. cbn [sat]. fold X. unfold svortex.
    replace (moved_centre RSLibm bx a (Some t)) with vx; [apply svortex_held; auto|].
    unfold vx, moved_centre, RSLibm, ffmod. f_equal; symmetry; apply Hm; change (iv_x a + t * iv_u a)%A with x; change (iv_y a + t * iv_v a)%A with y; cbn; lra. }
  split; [exact E|].
  assert (Hpow : forall T' e, 0 < Rpower T' e) by (intros; apply exp_pos).
  apply (smisses_by _ _ _ _ _ _ (vortex_actual h vx (px X) (py X)) Hg); auto.
  - unfold vortex_actual, vortex_gas. cbn [hD]. apply Rgt_not_eq. apply Rmult_lt_0_compat; auto.
  - intros r (n & l & Hxn & Hyl & ->) Er. fold x y in Hxn, Hyl, Er. set (L := xmax bx - xmin bx) in *.
    assert (Hn : (n = -1)%Z).
    { assert (HL : 0 < L) by (unfold L; lra). assert (H1 : IZR n < 0) by nra. assert (H2 : -2 < IZR n) by (apply (Rmult_lt_reg_r L); unfold L in *; lra).
      apply lt_IZR in H1. apply lt_IZR in H2. lia. }
    assert (Hl : (l = 0)%Z).
    { assert (HL : 0 < ymax bx - ymin bx) by lra. assert (H1 : IZR l < 1) by nra. assert (H2 : -1 < IZR l) by nra.
      apply lt_IZR in H1. apply lt_IZR in H2. lia. }
    subst n l. replace (y + 0 * (ymax bx - ymin bx)) with y in Er by ring. replace (x + -1 * L) with (x - L) in Er by ring.
    assert (HD := f_equal hD Er). unfold vortex_actual, vx, vortex_gas in HD. cbn [hD iv_rho iv_T] in HD.
    apply Rmult_eq_reg_l in HD; [|lra]. pose proof (Ht (x - L) y) as T1. pose proof (Ht x y) as T2.
    set (A1 := vortex_T _ _ _ _) in HD. set (A2 := vortex_T _ _ _ _) in HD.
    assert (EA : A1 = A2).
    { unfold Rpower in HD. apply exp_inv in HD. apply Rmult_eq_reg_l in HD; [|apply Rinv_neq_0_compat; lra].
      apply ln_inv in HD; try (apply Rdiv_lt_0_compat; auto).
      unfold Rdiv in HD. apply Rmult_eq_reg_r in HD; [exact HD|]. apply Rinv_neq_0_compat. lra. }
    unfold A1, A2, vortex_T in EA. cbn [iv_x iv_y iv_T iv_beta] in EA.
    assert (Hk : (gamma0 h - 1) * (iv_beta a * iv_beta a) / (8 * gamma0 h * (PI * PI)) <> 0).
    { pose proof PI_RGT_0. assert (Hb2 : 0 < iv_beta a * iv_beta a) by nra. apply Rgt_not_eq. apply Rdiv_lt_0_compat; [nra|].
      assert (0 < PI * PI) by nra. nra. }
    assert (EE : exp (1 - ((px X - (x - L)) * (px X - (x - L)) + (py X - y) * (py X - y))) = exp (1 - ((px X - x) * (px X - x) + (py X - y) * (py X - y)))).
    { apply (Rmult_eq_reg_l ((gamma0 h - 1) * (iv_beta a * iv_beta a) / (8 * gamma0 h * (PI * PI)))); auto. lra. }
    apply exp_inv in EE. assert (Hz : L * (2 * (px X - x) + L) = 0) by lra. apply Rmult_integral in Hz. destruct Hz as [Hz|Hz]; unfold L in *; lra.
Qed.
Print Assumptions C83_vortex_centre_refuted.

(** Jet with no ratio of specific heats in the parameters (the problem takes 5/3, the solver
    7/5): the bulk gas gets 3/5 of its pressure. *)
Theorem C83_jet_gamma_refuted : forall b3 P g h bx a s s' c q,
  jt_gamma a = 5 / 3 -> gamma0 h = 7 / 5 -> (b3 = false -> hW (jt_bulk a) = 0) -> hD (jt_bulk a) <> 0 -> hP (jt_bulk a) <> 0 ->
  srun b3 P g h bx (SJet a) s s' -> In c (cells b3 g) -> In q (dofs b3 P) ->
  (exists r, sheld b3 P s' c q = conservative (gamma0 h) r /\ hP r = 3 / 5 * hP (jt_bulk a)) /\
  smisses b3 h bx (SJet a) (dof_position P g h bx c q) (sheld b3 P s' c q).
Proof.
  intros b3 P g h bx a s s' c q Hj Hh Hw Hd Hp Hr Hc Hq.
  set (r := HS (hD (jt_bulk a)) (3 / 5 * hP (jt_bulk a)) (hU (jt_bulk a)) (hV (jt_bulk a)) (if b3 then hW (jt_bulk a) else 0)).
  assert (E : sheld b3 P s' c q = conservative (gamma0 h) r).
  { eapply sheld_init; eauto. rewrite spoint_sat. cbn [sat]. unfold sjet, put_state, par_cons. cbn [hD hP hU hV hW]. apply held_cons; cbn -[IZR]; try reflexivity.
    - unfold total_energy, r. cbn [hD hP hU hV hW]. rewrite Hj, Hh. destruct b3; [|rewrite (Hw eq_refl)]; field; lra.
    - destruct b3; [reflexivity|ring]. }
  split; [exists r; auto|]. apply (smisses_by _ _ _ _ _ _ r); [lra|exact Hd|exact E|]. intros r' -> Er. assert (HP := f_equal hP Er). cbn in HP. lra.
Qed.
Print Assumptions C83_jet_gamma_refuted.

(** The left state of the Shu-Osher problem is the one behind a shock of Mach number 3 into
    the mean state ahead of it. *)
Theorem C83_shu_osher_shock : let ahead := HS 1 1 0 0 0 in jump (7 / 5) (3 * sound_speed (7 / 5) ahead) ahead shu_left.
Proof.
  cbv zeta. unfold jump, sound_speed, shu_left, conservative, euler_flux, total_energy. cbn [hD hP hU hV hW].
  replace (7 / 5 * 1 / 1) with (35 / (5 * 5)) by field. rewrite sqrt_div by lra. rewrite sqrt_square by lra.
  assert (Hs : sqrt 35 * sqrt 35 = 35) by (apply sqrt_sqrt; lra). set (z := sqrt 35) in *. clearbody z.
  repeat split; field [Hs].
Qed.
Print Assumptions C83_shu_osher_shock.

(** Across the default wedge front, seen along its normal, the two states are those of a shock that
    moves with the default speed (7/5). *)
Theorem C83_wedge_shock : forall gam x angle,
  let w := default_wedge RSLibm gam x angle in
  let seen q := HS (hD q) (hP q) (hU q * sin angle - hV q * cos angle) (hU q * cos angle + hV q * sin angle) (hW q) in
  jump (7 / 5) (wd_speed w) (seen (wd_pre w)) (seen (wd_post w)) /\ wd_speed w = 10 * sound_speed (7 / 5) (seen (wd_pre w)).
Proof.
  intros gam x angle. cbn -[PI jump sound_speed]. unfold ofZ. cbn -[IZR PI jump sound_speed].
  assert (Hc : cos (angle - PI / 2) = sin angle).
  { replace (angle - PI / 2) with (- (PI / 2 - angle)) by field. rewrite cos_neg. apply cos_shift. }
  assert (Hs : sin (angle - PI / 2) = - cos angle).
  { replace (angle - PI / 2) with (- (PI / 2 - angle)) by field. rewrite sin_neg, sin_shift. reflexivity. }
  rewrite Hc, Hs. assert (H1 : sin angle * sin angle + cos angle * cos angle = 1) by (apply (sin2_cos2 angle)).
  replace (825 / 100 * sin angle * sin angle - 825 / 100 * - cos angle * cos angle) with (825 / 100 * (sin angle * sin angle + cos angle * cos angle)) by ring.
  replace (825 / 100 * sin angle * cos angle + 825 / 100 * - cos angle * sin angle) with 0 by ring. rewrite H1. split.
  - unfold jump, conservative, euler_flux, total_energy. cbn [hD hP hU hV hW]. repeat split; field.
  - unfold sound_speed. cbn [hD hP]. replace (7 / 5 * 1 / (14 / 10)) with 1 by field. rewrite sqrt_1. field.
Qed.
Print Assumptions C83_wedge_shock.

(** ** Examples: two points per direction at 1/4 and 3/4, 4 cells per direction *)
Definition ipts : points R := Points 2 (fun n => if (n =? 0)%Z then 1 / 4 else 3 / 4) (fun n => IZR n / 2).
Definition igrid : grid := Grid 4 4 4 2 5 (fun _ => 3%Z).
Definition ipar : hparams R := HParams R (7 / 5) 1 (1/100) (1/100) (1/1000) 1 1 (1/2) (1/4) (1/4) (1/4) RIEMANN_HLLC.
Definition ibox : MhdInit.box R := MhdInit.Box 0 1 0 1 0 1 (fun _ => 0%Z).
Definition jbox : MhdInit.box R := MhdInit.Box (-5) 5 0 1 0 1 (fun _ => 0%Z).
Lemma icell (b3 : bool) : In (3, 3, if b3 then 3 else 0)%Z (cells b3 igrid).
Proof.
  apply In_cellsD. split; [|intros ->; reflexivity].
  intros a. destruct b3; cbn; intros Ha; repeat (destruct Ha as [<- | Ha]; [cbn; lia|]); contradiction.
Qed.
Lemma idof b3 : In (1, 0, 0)%Z (dofs b3 ipts).
Proof. apply In_dofs, in_box_coords. cbn. destruct b3; lia. Qed.
Lemma irun (b3 : bool) P g h bx pr (s : store R) : exists s', srun b3 P g h bx pr s s'.
Proof. eexists. apply run_kernels_seq. Qed.
Definition iimp : implode R := Implode (MS 2 (1/7) 1 0 0 0 0 0) (MS 1 1 0 0 0 0 0 0) 0.
Definition ivor : vortex R := Vortex 1 1 1 1 0 (-1) (1 / 2) (1 / 10).

Example C83_hypotheses_hold : 1 < gamma0 ipar /\ In (3, 3, 3)%Z (cells true igrid) /\ In (1, 0, 0)%Z (dofs true ipts) /\
  (forall X, sgood true ipar ibox SSod X /\ sgood false ipar ibox SShuOsher X) /\
  (forall X, sgood true ipar ibox (SWedge (default_wedge RSLibm (7 / 5) (1 / 10) (PI / 3))) X) /\
  (forall X, sgood false ipar ibox (SJet (Jet (7 / 5) (HS 5 (4 / 10) 800 0 0) (HS (5 / 10) (4 / 10) 0 0 0) (1 / 2) (1 / 10))) X) /\
  (exists s', srun true ipts igrid ipar ibox SSod (fun _ => 7) s').
Proof.
  split; [cbn; lra|]. split; [exact (icell true)|]. split; [apply idof|]. split; [intros; split; exact I|].
  split; [intros; split; [reflexivity|split; [cbn; rewrite cos_PI3; lra|discriminate]]|].
  split; [intros; split; [reflexivity|reflexivity]|apply irun].
Qed.
(** Point (1, 0) of cell (3, 3) of the 2D grid is at (7/16, 5/16). *)
Example C83_position : let X := dof_position ipts igrid ipar ibox (3, 3, 0)%Z (1, 0, 0)%Z in px X = 7 / 16 /\ py X = 5 / 16.
Proof. unfold dof_position. cbn. lra. Qed.
(** A transition at x = 1/2 is on the other side of it for the 2D four quadrants. *)
Example C83_four_quadrant_case : exists s', srun false ipts igrid ipar ibox (SFourQuadrant 0 (1 / 2) (1 / 2)) (fun _ => 7) s' /\
  smisses false ipar ibox (SFourQuadrant 0 (1 / 2) (1 / 2)) (dof_position ipts igrid ipar ibox (3, 3, 0)%Z (1, 0, 0)%Z) (sheld false ipts s' (3, 3, 0)%Z (1, 0, 0)%Z).
Proof.
  destruct (irun false ipts igrid ipar ibox (SFourQuadrant 0 (1 / 2) (1 / 2)) (fun _ => 7)) as (s' & Hr). exists s'. split; [exact Hr|].
  apply (C83_four_quadrant_refuted ipts igrid ipar ibox (1 / 2) (1 / 2) _ s' _ _ ltac:(cbn; lra) Hr (icell false) (idof false)). cbn. lra.
Qed.
Example C83_implosion_case : exists s', srun false ipts igrid ipar ibox (SImplode iimp) (fun _ => 7) s' /\
  smisses false ipar ibox (SImplode iimp) (dof_position ipts igrid ipar ibox (3, 3, 0)%Z (1, 0, 0)%Z) (sheld false ipts s' (3, 3, 0)%Z (1, 0, 0)%Z).
Proof.
  destruct (irun false ipts igrid ipar ibox (SImplode iimp) (fun _ => 7)) as (s' & Hr). exists s'. split; [exact Hr|].
  apply (C83_implosion_refuted false ipts igrid ipar ibox iimp (im_out iimp) _ s' _ _ ltac:(cbn; lra) Hr (icell false) (idof false)).
  - left. split; [|reflexivity]. unfold implode_outside. cbn. lra.
  - cbn; lra.
  - cbn; lra.
  - intros (H & _). cbn in H. lra.
Qed.
(** A vortex that moves from x = -1 with velocity 1 during 8 time units in the box [-5, 5]: its centre belongs
    at -3 and is put at 7. *)
Example C83_vortex_case : exists s', srun true ipts igrid ipar jbox (SVortex ivor (Some 8)) (fun _ => 7) s' /\
  smisses true ipar jbox (SVortex ivor (Some 8)) (dof_position ipts igrid ipar jbox (3, 3, 3)%Z (1, 0, 0)%Z) (sheld true ipts s' (3, 3, 3)%Z (1, 0, 0)%Z).
Proof.
  destruct (irun true ipts igrid ipar jbox (SVortex ivor (Some 8)) (fun _ => 7)) as (s' & Hr). exists s'. split; [exact Hr|].
  apply (C83_vortex_centre_refuted true ipts igrid ipar jbox ivor 8 _ s' _ _ ltac:(cbn; lra) Hr (icell true) (idof true)); try (cbn; lra).
  intros x' y'. unfold vortex_T. cbn [iv_x iv_y iv_T iv_beta gamma0 ipar ivor]. generalize (px (dof_position ipts igrid ipar jbox (3, 3, 3)%Z (1, 0, 0)%Z)) (py (dof_position ipts igrid ipar jbox (3, 3, 3)%Z (1, 0, 0)%Z)).
  intros x y. assert (Hr2 : 0 <= (x - x') * (x - x') + (y - y') * (y - y')) by (apply Rplus_le_le_0_compat; apply Rle_0_sqr). set (r2 := _ * _ + _ * _) in *. clearbody r2.
  assert (He : exp (1 - r2) <= 3).
  { apply Rle_trans with (exp 1); [|apply exp_le_3]. destruct (Rle_lt_or_eq_dec 0 r2 Hr2) as [L| <-]; [left; apply exp_increasing; lra|rewrite Rminus_0_r; lra]. }
  pose proof (exp_pos (1 - r2)) as Hp. pose proof PI_RGT_0. assert (HPI : 1 <= PI) by (pose proof PI2_1; lra).
  assert (Hd : 1 <= PI * PI) by nra.
  assert (Hi : 0 < / (8 * (7 / 5) * (PI * PI)) <= 1).
  { split; [apply Rinv_0_lt_compat; nra|]. rewrite <- Rinv_1. apply Rinv_le_contravar; nra. }
  unfold Rdiv at 1. set (k := / (8 * (7 / 5) * (PI * PI))) in *. set (e := exp (1 - r2)) in *. clearbody k e.
  assert (k * e <= 1 * 3) by (apply Rmult_le_compat; lra). lra.
Qed.
Example C83_jet_case : exists s', srun false ipts igrid ipar ibox (SJet (Jet (5 / 3) (HS 5 (4 / 10) 800 0 0) (HS (5 / 10) (4 / 10) 0 0 0) (1 / 2) (1 / 10))) (fun _ => 7) s'.
Proof. apply irun. Qed.
