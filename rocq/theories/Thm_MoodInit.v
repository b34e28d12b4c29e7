(** C86: the initial state of the MOOD solver's problems.  Specification: MoodInitSpec.v
    ([mprescribed]: the primitive state that the parameters prescribe at a point; [mgood]: the
    settings without a defect; [first_process]; [cell_mean], [poly2]: means over a cell and
    polynomials; [averaged]: average of a state over a cell by quadrature). *)
From Coq Require Import ZArith List Bool Lia Reals Lra.
From Coquelicot Require Import Coquelicot.
From Verif Require Import Arith Par ParProofs GridModel HydroState HydroKernels CellKernels HydroSpec Physics MhdState MhdInit MhdInitSpec
  HydroInit HydroInitSpec HydroInitProofs HydroInitState HydroInitWrong MoodKernels TaskModel SdmGeom SdmKernels SdmInit SdmInitSpec SdmInitProofs
  MoodInit MoodInitSpec MoodInitProofs.
Import ListNotations.
Local Open Scope R_scope.
Local Notation mrun b3 g h bx junk pr := (run_kernels (init_mood RSLibm b3 g h bx junk pr)).

(** One process: every problem but the vortex, 2D and 3D, any schedule, every cell (ghost cells
    too): what is stored is the conservative form of a state that the parameters prescribe there. *)
Theorem C86_state : forall b3 g h bx junk pr s s' i j k,
  1 < gamma0 h -> mgood b3 h pr -> (forall a, mpi bx a = 0%Z) ->
  mrun b3 g h bx junk pr s s' -> in_array b3 g i j k ->
  exists q, mprescribed b3 h bx pr (position g h bx i j k) q /\ held b3 s' i j k = conservative (gamma0 h) q.
Proof.
  intros b3 g h bx junk pr s s' i j k Hg Hs Hm Hrun Hin.
  destruct (all_mreach b3 h bx junk Hg pr (i, j, k) (position g h (first_process bx) i j k) Hs) as (q & Hq & Hh).
  exists q. split; [|eapply mheld_init; eauto].
  replace (position g h bx i j k) with (position g h (first_process bx) i j k); [exact Hq|].
  unfold position. cbn [first_process mpi xmin ymin zmin]. rewrite !Hm. reflexivity.
Qed.
Print Assumptions C86_state.

(** The initialisation ends, whatever the setting. *)
Theorem C86_completes : forall b3 g (h : hparams R) bx junk pr s, exists s', mrun b3 g h bx junk pr s s'.
Proof. intros. eexists. apply run_kernels_seq. Qed.
Print Assumptions C86_completes.

(** ** Several processes: every process holds the part of the first one *)
Definition two_boxes : MhdInit.box R := MhdInit.Box 0 2 0 1 0 1 (fun a => if (a =? IX)%Z then 1%Z else 0%Z).
Definition mgrid : grid := Grid 4 4 4 2 5 (fun _ => 3%Z).
Definition mpar : hparams R := HParams R (7 / 5) 1 (1/100) (1/100) (1/1000) 1 1 (1/2) (1/4) (1/4) (1/4) RIEMANN_HLLC.
Definition mblast : blast R := Blast (1 / 4) (1 / 2) (1 / 2) (1 / 2) 1 (12 / 10) 10 (1 / 10).

Theorem C86_decomposition_refuted :
  (forall b3 g h bx junk pr s s' i j k, 1 < gamma0 h -> mgood b3 h pr -> mrun b3 g h bx junk pr s s' -> in_array b3 g i j k ->
     exists q, mprescribed b3 h bx pr (position g h (first_process bx) i j k) q /\ held b3 s' i j k = conservative (gamma0 h) q) /\
  (forall junk s s', mrun false mgrid mpar two_boxes junk (MBlast mblast) s s' ->
     mmisses false mpar two_boxes (MBlast mblast) (position mgrid mpar two_boxes 3 3 0) (held false s' 3 3 0)).
Proof.
  split.
  - intros b3 g h bx junk pr s s' i j k Hg Hs Hrun Hin.
    destruct (all_mreach b3 h bx junk Hg pr (i, j, k) (position g h (first_process bx) i j k) Hs) as (q & Hq & Hh).
    exists q. split; [exact Hq|eapply mheld_init; eauto].
  - intros junk s s' Hrun q Hq Hc.
    assert (Hg : 1 < gamma0 mpar) by (cbn; lra).
    destruct (all_mreach false mpar two_boxes junk Hg (MBlast mblast) (3, 3, 0)%Z (position mgrid mpar (first_process two_boxes) 3 3 0) I) as (r & Hr & Hh).
    assert (Hi : in_array false mgrid 3 3 0) by (unfold in_array; cbn; lia).
    rewrite (mheld_init false mgrid mpar two_boxes junk _ _ _ _ _ _ _ Hrun Hi Hh) in Hc.
    cbn [mprescribed prescribed] in Hq, Hr. unfold dist2, position, centre in Hq, Hr. cbn in Hq, Hr.
    assert (Ed := f_equal hD Hc). cbn in Ed.
    destruct Hr as [[_ ->]|[Hr _]]; [|apply Hr; lra]. destruct Hq as [[Hq _]|[_ ->]]; [lra|]. cbn in Ed. lra.
Qed.
Print Assumptions C86_decomposition_refuted.

(** ** Kelvin-Helmholtz without random and without Robertson's perturbation: nothing is stored *)
Theorem C86_kelvin_helmholtz_refuted : forall b3 g h bx junk rnd a s s' i j k,
  kh_rand a = false -> kh_sine_rob a = false -> mrun b3 g h bx junk (MKelvinHelmholtz rnd a) s s' -> in_array b3 g i j k ->
  held b3 s' i j k = held b3 s i j k.
Proof.
  intros b3 g h bx junk rnd a s s' i j k H1 H2 Hrun Hin. eapply mheld_nothing; eauto.
  cbn [mpoint]. unfold mkh. rewrite H1, H2. reflexivity.
Qed.
Print Assumptions C86_kelvin_helmholtz_refuted.

(** ** Isentropic vortex *)
(** With n points per direction the average is the mean over the cell for every polynomial of
    degree below 2n in x and in y. *)
Theorem C86_quadrature : forall (h : hparams R) n l x y, (1 <= n <= 4)%Z -> 0 < dx h -> 0 < dy h ->
  (forall p q, In (p, q) l -> (Z.of_nat (length p) <= 2 * n)%Z /\ (Z.of_nat (length q) <= 2 * n)%Z) ->
  quadrature h n (poly2 l) x y = cell_mean (poly2 l) x y (dx h) (dy h).
Proof. apply quadrature_mean. Qed.
Print Assumptions C86_quadrature.

(** 2D, no velocity along z: the cells hold the averages of the conservative vortex. *)
Theorem C86_vortex : forall g h bx junk q s s' i j,
  let a := mv_vortex q in let X := position g h (first_process bx) i j 0 in
  1 < gamma0 h -> (1 <= mv_points q <= 4)%Z -> mv_w q = 0 ->
  iv_p a = iv_rho a * iv_T a -> 0 < iv_T a -> (forall x y, 0 < vortex_T (gamma0 h) a x y) ->
  mrun false g h bx junk (MVortexP q) s s' -> in_array false g i j 0 ->
  held false s' i j 0 = averaged h (mv_points q) (fun x y => conservative (gamma0 h) (vortex_gas (gamma0 h) a x y)) (px X) (py X).
Proof.
  intros g h bx junk q s s' i j a X Hg Hn Hw H1 H2 H3 Hrun Hin. eapply mheld_init; eauto. fold X.
  cbn [mpoint]. unfold mv_cell. do 5 eexists. split; [reflexivity|].
  unfold mv_state, averaged. assert (E : ((1 <=? mv_points q) && (mv_points q <=? 4))%Z = true) by (apply andb_true_intro; lia).
  rewrite E. cbn [Z.eqb ID IP IU IV Pos.eqb]. fold a. cbn [hD hP hU hV hW conservative].
  f_equal; try (apply quadrature_ext; intros u v).
  - symmetry. apply compute_rho_eq; auto.
  - symmetry. rewrite compute_e_eq by auto. rewrite Hw. field.
  - symmetry. rewrite (compute_u_eq h), compute_rho_eq by auto. reflexivity.
  - symmetry. rewrite (compute_v_eq h), compute_rho_eq by auto. reflexivity.
  - rewrite (quadrature_ext _ _ _ (fun u v => 0 * 0)), quadrature_scal; [ring|]. intros. unfold vortex_gas. cbn. ring.
Qed.
Print Assumptions C86_vortex.

(** 2D, ambient velocity along z (the default is 1): the energy is too high by that of the
    motion along z, which the 2D state does not have. *)
Theorem C86_vortex_energy_refuted : forall g h bx junk q s s' i j,
  let a := mv_vortex q in let X := position g h (first_process bx) i j 0 in
  let avg := averaged h (mv_points q) (fun x y => conservative (gamma0 h) (vortex_gas (gamma0 h) a x y)) (px X) (py X) in
  1 < gamma0 h -> (1 <= mv_points q <= 4)%Z -> mv_w q <> 0 -> 0 < iv_rho a ->
  iv_p a = iv_rho a * iv_T a -> 0 < iv_T a -> (forall x y, 0 < vortex_T (gamma0 h) a x y) ->
  mrun false g h bx junk (MVortexP q) s s' -> in_array false g i j 0 ->
  hP (held false s' i j 0) = hP avg + mv_w q * mv_w q / 2 * hD avg /\ hP avg < hP (held false s' i j 0).
Proof.
  intros g h bx junk q s s' i j a X avg Hg Hn Hw H0 H1 H2 H3 Hrun Hin.
  assert (E : hP (held false s' i j 0) = hP avg + mv_w q * mv_w q / 2 * hD avg).
  { erewrite mheld_init; [|exact Hrun|exact Hin|do 5 eexists; split; reflexivity]. cbn [hP]. fold X.
    unfold mv_state, avg, averaged. assert (E : ((1 <=? mv_points q) && (mv_points q <=? 4))%Z = true) by (apply andb_true_intro; lia).
    rewrite E. cbn [Z.eqb ID IP IU IV Pos.eqb]. fold a. cbn [hD hP conservative].
    rewrite <- quadrature_scal, <- quadrature_plus. apply quadrature_ext. intros u v. apply compute_e_eq; auto. }
  split; [exact E|]. rewrite E.
  assert (Hd : 0 < hD avg) by (apply quadrature_pos; [exact Hn|]; intros u v; cbn [hD conservative]; apply density_pos; exact H0).
  assert (Hw2 : 0 < mv_w q * mv_w q) by (destruct (Rtotal_order (mv_w q) 0) as [?|[?|?]]; nra). nra.
Qed.
Print Assumptions C86_vortex_energy_refuted.

(** 3D: the energy is read beyond the end of the array of the averages. *)
Theorem C86_vortex_3d_refuted : forall g h bx junk q s s' i j k,
  (1 <= mv_points q <= 4)%Z -> mrun true g h bx junk (MVortexP q) s s' -> in_array true g i j k ->
  hP (held true s' i j k) = junk (i, j, k) IW.
Proof.
  intros g h bx junk q s s' i j k Hn Hrun Hin. erewrite mheld_init; [|exact Hrun|exact Hin|do 5 eexists; split; reflexivity].
  cbn [hP]. unfold mv_state. match goal with |- context [if ?b then _ else _] => destruct b end; reflexivity.
Qed.
Print Assumptions C86_vortex_3d_refuted.

(** Any other number of quadrature points is accepted: what is stored was never set. *)
Theorem C86_points_refuted : forall b3 g h bx junk q s s' i j k,
  ~ (1 <= mv_points q <= 4)%Z -> mrun b3 g h bx junk (MVortexP q) s s' -> in_array b3 g i j k ->
  held b3 s' i j k = HS (junk (i, j, k) ID) (junk (i, j, k) (if b3 then IW else IP)) (junk (i, j, k) IU) (junk (i, j, k) IV)
                        (if b3 then junk (i, j, k) ID * mv_w q else 0).
Proof.
  intros b3 g h bx junk q s s' i j k Hn Hrun Hin. eapply mheld_init; eauto. cbn [mpoint]. unfold mv_cell.
  assert (E : ((1 <=? mv_points q) && (mv_points q <=? 4))%Z = false) by lia.
  unfold mv_state. rewrite E. do 5 eexists. split; [reflexivity|]. destruct b3; reflexivity.
Qed.
Print Assumptions C86_points_refuted.

(** ** The hypotheses can be met *)
Definition mbox : MhdInit.box R := MhdInit.Box 0 1 0 1 0 1 (fun _ => 0%Z).
Definition mvort : vortex R := Vortex 1 1 1 1 1 (1/2) (1/2) (1/2).
Example C86_hypotheses_hold : 1 < gamma0 mpar /\ (forall a, mpi mbox a = 0%Z) /\ in_array false mgrid 3 3 0 /\ in_array true mgrid 3 4 2 /\
  mgood true mpar MImplode /\ mgood false mpar (MBlast mblast) /\ mgood true mpar (MFourQuadrant 3 (1 / 2) (1 / 2)) /\
  mgood true mpar (MWedge (default_wedge RSLibm (7 / 5) (1 / 10) (PI / 3))) /\
  (exists s', mrun true mgrid mpar mbox (fun _ _ => 7) (MBlast mblast) (fun _ => 7) s').
Proof.
  split; [cbn; lra|]. split; [reflexivity|]. split; [unfold in_array; cbn; lia|]. split; [unfold in_array; cbn; lia|].
  split; [exact I|]. split; [exact I|]. split; [exact I|]. split.
  - cbn [mgood default_wedge wd_gamma wd_angle wd_post wd_pre]. split; [reflexivity|]. split; [|discriminate].
    apply cos_gt_0; assert (H := PI_RGT_0); lra.
  - eexists. apply run_kernels_seq.
Qed.
(** The temperature of this vortex is positive everywhere. *)
Example C86_vortex_hypotheses_hold : 1 < gamma0 mpar /\ iv_p mvort = iv_rho mvort * iv_T mvort /\ 0 < iv_T mvort /\ 0 < iv_rho mvort /\
  (forall x y, 0 < vortex_T (gamma0 mpar) mvort x y) /\
  (exists s', mrun false mgrid mpar mbox (fun _ _ => 7) (MVortexP (MVortex mvort 1 4)) (fun _ => 7) s').
Proof.
  split; [cbn; lra|]. split; [cbn; lra|]. split; [cbn; lra|]. split; [cbn; lra|]. split; [|eexists; apply run_kernels_seq].
  intros x y. unfold vortex_T, mvort, mpar. cbn [iv_T iv_x iv_y iv_beta gamma0].
  set (r2 := _ + _ * (y - _)). assert (Hr : 0 <= r2) by (unfold r2; apply Rplus_le_le_0_compat; apply Rle_0_sqr).
  assert (He : exp (1 - r2) <= 3).
  { apply Rle_trans with (exp 1); [destruct (Req_dec r2 0) as [-> |]; [rewrite Rminus_0_r; lra|left; apply exp_increasing; lra]|apply exp_le_3]. }
  assert (H0 := exp_pos (1 - r2)).
  assert (Hp : 3 < PI) by (assert (H := PI2_3_2); lra).
  assert (Hd : 0 < 8 * (7 / 5) * (PI * PI)) by nra.
  apply (Rmult_lt_reg_r (8 * (7 / 5) * (PI * PI))); [exact Hd|]. rewrite Rmult_0_l.
  replace ((1 - (7 / 5 - 1) * (1 / 2 * (1 / 2)) / (8 * (7 / 5) * (PI * PI)) * exp (1 - r2)) * (8 * (7 / 5) * (PI * PI)))
    with (8 * (7 / 5) * (PI * PI) - (7 / 5 - 1) * (1 / 2 * (1 / 2)) * exp (1 - r2)) by (field; lra). nra.
Qed.
(** Degrees 7 in x and 6 in y with four points. *)
Example C86_quadrature_example : let l := [([0; 0; 0; 0; 0; 0; 0; 1], [1; 0; 0; 0; 0; 0; 2]); ([1; 2], [3])] in
  quadrature mpar 4 (poly2 l) (3 / 8) (5 / 8) = cell_mean (poly2 l) (3 / 8) (5 / 8) (1 / 4) (1 / 4).
Proof. cbv zeta. apply (C86_quadrature mpar 4); [lia|cbn; lra|cbn; lra|]. intros p q [E|[E|[]]]; injection E as <- <-; cbn; lia. Qed.
