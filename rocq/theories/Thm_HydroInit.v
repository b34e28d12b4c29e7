(** C76: the initial state of the hydrodynamics problems.  Specification: HydroInitSpec.v
    ([prescribed]: the primitive state that the parameters of a problem prescribe at a point;
    [prescribed_gravity]; [position]: the cell centre; [held]: the state stored;
    [good_setting]: the settings without a defect; [misses]: no prescribed state is stored). *)
From Coq Require Import ZArith List Bool Lia Reals Lra Floats.SpecFloat.
From Verif Require Import Arith SpecF Par ParProofs GridModel HydroState HydroKernels HydroSpec Physics
  MhdState MhdInit MhdInitSpec HydroInit HydroInitSpec HydroInitProofs HydroInitState HydroInitWrong HydroInitNan.
Import ListNotations.
Local Open Scope R_scope.

(** Every problem, 2D and 3D, any schedule, every cell (ghost cells too), any process of the
    decomposition: what is stored is the conservative form of a state that the parameters prescribe. *)
Theorem C76_state : forall b3 g h bx pr s s' i j k,
  1 < gamma0 h -> offered b3 pr -> good_setting b3 h bx pr (position g h bx i j k) ->
  run_kernels (init_hydro RHLibm b3 g h bx pr) s s' -> in_array b3 g i j k ->
  exists q, prescribed b3 h bx pr (position g h bx i j k) q /\ held b3 s' i j k = conservative (gamma0 h) q.
Proof.
  intros b3 g h bx pr s s' i j k Hg Ho Hs Hrun Hin.
  destruct (all_reach b3 h bx Hg pr (i, j, k) (position g h bx i j k) Ho Hs) as (q & Hq & Hh).
  exists q. split; [exact Hq|]. eapply held_init; eauto.
Qed.
Print Assumptions C76_state.

(** The gravity field that goes with the problem (the disk: centred on the origin). *)
Theorem C76_gravity : forall b3 g h bx pr s s' i j k,
  match pr with
  | HRayleigh _ | HBubble _ => True
  | HDisk q _ => dk_xc q = 0 /\ dk_yc q = 0 /\ dk_zc q = 0
  | _ => False
  end ->
  run_kernels (init_hydro RHLibm b3 g h bx pr) s s' -> in_array b3 g i j k ->
  prescribed_gravity b3 pr (position g h bx i j k) (held_gravity b3 s' i j k).
Proof.
  intros b3 g h bx pr s s' i j k Hp Hrun Hin. destruct pr as [q|q|rnd q|q|n xt yt|q|q|q|q so]; try contradiction.
  - erewrite gravity_init; [|exact Hrun|exact Hin|reflexivity]. reflexivity.
  - erewrite gravity_init; [|exact Hrun|exact Hin|reflexivity]. reflexivity.
  - destruct Hp as (H1 & H2 & H3).
    assert (Hm := disk_gravity_moved b3 g h bx s s' i j k Hin q so Hrun).
    replace (moved b3 q so) with so in Hm; [exact Hm|].
    unfold moved. rewrite H1, H2, H3. destruct so, b3; cbn; f_equal; ring.
Qed.
Print Assumptions C76_gravity.

(** The other problems leave the gravity field as it was. *)
Theorem C76_no_gravity : forall b3 g h bx pr s s' i j k v,
  match pr with HRayleigh _ | HBubble _ | HDisk _ _ => False | _ => True end ->
  run_kernels (init_hydro RHLibm b3 g h bx pr) s s' -> in_array b3 g i j k ->
  s' (Loc aG i j k v) = s (Loc aG i j k v).
Proof.
  intros b3 g h bx pr s s' i j k v Hp Hrun Hin.
  destruct (init_cells RHLibm b3 g h bx pr s s' Hrun (i, j, k) v (In_array _ _ _ _ _ Hin)) as [_ E].
  etransitivity; [exact E|]. destruct pr; try contradiction; reflexivity.
Qed.
Print Assumptions C76_no_gravity.

(** ** Example settings: 2D and 3D grids of 4 cells per direction on the unit box *)
Definition egrid : grid := Grid 4 4 4 2 5 (fun _ => 3%Z).
Definition epar : hparams R := HParams R 2 1 (1/100) (1/100) (1/1000) 1 1 (1/2) (1/4) (1/4) (1/4) RIEMANN_HLLC.
Definition ebox : box R := Box 0 1 0 1 0 1 (fun _ => 0%Z).
Definition sbox : box R := Box (-1/2) (1/2) (-1/2) (1/2) (-1/2) (1/2) (fun _ => 0%Z).
Lemma run_exists m b3 g (h : hparams R) bx pr (s : store R) : exists s', run_kernels (init_hydro m b3 g h bx pr) s s'.
Proof. eexists. apply run_kernels_seq. Qed.
Lemma ein2 : in_array false egrid 3 4 0.
Proof. unfold in_array; cbn; lia. Qed.
Lemma ein3 : in_array true egrid 3 4 2.
Proof. unfold in_array; cbn; lia. Qed.
Definition edisk : disk R := Disk (1/4) (1/8) 0 0 0 1 100 (1/10) (1/100).
Definition esource : source R := Source 0 0 0 1 (1/4).

Example C76_hypotheses_hold : 1 < gamma0 epar /\ in_array false egrid 3 4 0 /\ in_array true egrid 3 4 2 /\
  good_setting true epar ebox (HImplode (Implode (MS 1 1 0 0 0 0 0 0) (MS (1/8) (1/7) 0 0 0 0 0 0) 0)) (position egrid epar ebox 3 4 2) /\
  good_setting true epar ebox (HBlast (default_blast ebox)) (position egrid epar ebox 3 4 2) /\
  good_setting false epar ebox (HGresho (Gresho 1 (1/10) 0 0 0)) (position egrid epar ebox 3 4 0) /\
  good_setting false epar ebox (HVortex (Vortex 1 1 1 1 1 (1/2) (1/2) (1/2))) (position egrid epar ebox 3 4 0) /\
  good_setting true epar ebox (HRayleigh (Rayleigh 0 1 2 0 0 (-1))) (position egrid epar ebox 3 4 2) /\
  offered false (HFourQuadrant 3 (1/2) (1/2) : hproblem R) /\ 
  (exists s', run_kernels (init_hydro RHLibm true egrid epar ebox (HBlast (default_blast ebox))) (fun _ => 7) s').
Proof.
  split; [cbn; lra|]. split; [apply ein2|]. split; [apply ein3|].
  split; [intros r [-> | ->]; left; repeat split; intros; reflexivity|]. split; [exact I|].
  split; [cbn; repeat split; lra|]. split.
  { cbn. split; [lra|]. split; [lra|]. unfold vortex_T. cbn [iv_T iv_beta iv_x iv_y].
    assert (Hp : 3 < PI) by (assert (H := PI2_3_2); unfold PI2 in H; lra).
    set (r2 := _ + _). assert (He : exp (1 - r2) <= exp 1).
    { destruct (Req_dec r2 0) as [->|]; [rewrite Rminus_0_r; lra|]. left. apply exp_increasing.
      assert (0 <= r2) by (unfold r2; apply Rplus_le_le_0_compat; apply Rle_0_sqr). lra. }
    assert (H3 := exp_le_3).
    assert (Hc : (2 - 1) * (1 / 2 * (1 / 2)) / (8 * 2 * (PI * PI)) <= / 100).
    { apply (Rmult_le_reg_r (8 * 2 * (PI * PI))); [nra|]. field_simplify; [|lra]. nra. }
    assert (0 < exp (1 - r2)) by apply exp_pos.
    assert (0 <= (2 - 1) * (1 / 2 * (1 / 2)) / (8 * 2 * (PI * PI))).
    { apply Rlt_le, Rdiv_lt_0_compat; nra. }
    cbn [gamma0 epar]. nra. }
  split; [reflexivity|]. split; [reflexivity|]. apply run_exists.
Qed.

(** ** Findings: settings for which the state is not the prescribed one *)

(** Implosion of a moving gas: the velocity is stored as the momentum. *)
Theorem C76_implode_moving : forall b3 g h bx q r s s' i j k,
  let P := position g h bx i j k in
  1 < gamma0 h -> run_kernels (init_hydro RHLibm b3 g h bx (HImplode q)) s s' -> in_array b3 g i j k ->
  (implode_outside b3 bx q P /\ r = im_out q) \/ (~ implode_outside b3 bx q P /\ r = im_in q) ->
  mD r <> 0 -> mD r <> 1 -> ~ at_rest b3 r -> misses b3 h bx (HImplode q) P (held b3 s' i j k).
Proof. intros b3 g h bx q r s s' i j k P Hg Hrun Hin Hr Hd. apply (implode_wrong b3 g h bx Hg s s' i j k Hin q r Hrun Hr Hd). Qed.
Print Assumptions C76_implode_moving.

(** Kelvin-Helmholtz with neither perturbation chosen (also with the advertised choice
    perturbation_sine): the state is left as the memory was found. *)
Theorem C76_kh_untouched : forall (m : hlibm R) b3 g h bx rnd q s s' i j k,
  run_kernels (init_hydro m b3 g h bx (HKelvinHelmholtz rnd q)) s s' -> in_array b3 g i j k ->
  kh_rand q = false -> kh_sine_rob q = false -> held b3 s' i j k = held b3 s i j k.
Proof. intros m b3 g h bx rnd q s s' i j k Hrun Hin. exact (kh_nothing b3 g h bx s s' i j k Hin m rnd q Hrun). Qed.
Print Assumptions C76_kh_untouched.

(** Gresho vortex: the drift velocity is ignored; in 3D the momentum along z is that along y. *)
Theorem C76_gresho_drift : forall b3 g h bx q s s' i j k,
  1 < gamma0 h -> gr_rho0 q <> 0 ->
  run_kernels (init_hydro RHLibm b3 g h bx (HGresho q)) s s' -> in_array b3 g i j k ->
  gr_u q <> 0 \/ gr_v q <> 0 ->
  misses b3 h bx (HGresho q) (position g h bx i j k) (held b3 s' i j k).
Proof.
  intros b3 g h bx q s s' i j k Hg H0 Hrun Hin Hc.
  apply (gresho_wrong b3 g h bx Hg s s' i j k Hin q Hrun H0). tauto.
Qed.
Print Assumptions C76_gresho_drift.
Theorem C76_gresho_3d : forall g h bx q s s' i j k,
  let P := position g h bx i j k in
  1 < gamma0 h -> gr_rho0 q <> 0 -> gr_w q = 0 ->
  run_kernels (init_hydro RHLibm true g h bx (HGresho q)) s s' -> in_array true g i j k ->
  hW (held true s' i j k) = hV (held true s' i j k) /\
  (px P <> 0 -> radius (px P) (py P) < 2 / 5 -> misses true h bx (HGresho q) P (held true s' i j k)).
Proof.
  intros g h bx q s s' i j k P Hg H0 Hw Hrun Hin.
  destruct (gresho_wrong true g h bx Hg s s' i j k Hin q Hrun H0) as [E Hm].
  split; [rewrite E; reflexivity|]. intros Hx Hr. apply Hm. right. right. auto.
Qed.
Print Assumptions C76_gresho_3d.

(** Isentropic vortex: the ambient pressure setting has no effect unless it is density times temperature. *)
Theorem C76_vortex_pressure : forall g h bx q s s' i j,
  let P := position g h bx i j 0 in
  1 < gamma0 h -> run_kernels (init_hydro RHLibm false g h bx (HVortex q)) s s' -> in_array false g i j 0 ->
  0 < iv_rho q -> 0 < iv_T q -> 0 < vortex_T (gamma0 h) q (px P) (py P) -> iv_p q <> iv_rho q * iv_T q ->
  misses false h bx (HVortex q) P (held false s' i j 0).
Proof. intros g h bx q s s' i j P Hg Hrun Hin. apply (vortex_wrong false g h bx Hg s s' i j 0 Hin q eq_refl Hrun). Qed.
Print Assumptions C76_vortex_pressure.

(** Rayleigh-Taylor: wherever the gas is perturbed, its velocity is that prescribed divided by
    the density, and the pressure is lower than prescribed. *)
Theorem C76_rayleigh : forall b3 g h bx q d s s' i j k,
  let P := position g h bx i j k in
  1 < gamma0 h -> run_kernels (init_hydro RHLibm b3 g h bx (HRayleigh q)) s s' -> in_array b3 g i j k ->
  (rt_above b3 bx P /\ d = rt_d1 q) \/ (~ rt_above b3 bx P /\ d = rt_d0 q) -> 0 < d -> rt_velocity bx q P <> 0 ->
  (exists a, held b3 s' i j k = conservative (gamma0 h) a /\ hD a = d /\
     (if b3 then hW a else hV a) = rt_velocity bx q P / d /\ hP a < hP (rt_gas b3 bx q P d)) /\
  misses b3 h bx (HRayleigh q) P (held b3 s' i j k).
Proof.
  intros b3 g h bx q d s s' i j k P Hg Hrun Hin Hr Hd Hv.
  destruct (rayleigh_wrong b3 g h bx Hg s s' i j k Hin q d Hrun Hr Hd) as [E Hm].
  destruct (Hm Hv) as [Hp Hmiss]. split; [|exact Hmiss].
  exists (rt_actual b3 h bx q P d). repeat split; auto. unfold rt_actual. cbn. destruct b3; reflexivity.
Qed.
Print Assumptions C76_rayleigh.

(** Disk: where the square of the angular velocity is negative the gas is at rest, and the
    pressure is lowered by the energy of a rotation that is not there. *)
Theorem C76_disk_pressure : forall b3 g h bx q so s s' i j k,
  let P := position g h bx i j k in
  1 < gamma0 h -> run_kernels (init_hydro RHLibm b3 g h bx (HDisk q so)) s s' -> in_array b3 g i j k ->
  0 < dk_r (dk_pos b3 q P) -> dk_omega2 q so (dk_pos b3 q P) < 0 ->
  (exists a, held b3 s' i j k = conservative (gamma0 h) a /\ hP a < hP (disk_gas b3 q so P)) /\
  misses b3 h bx (HDisk q so) P (held b3 s' i j k).
Proof.
  intros b3 g h bx q so s s' i j k P Hg Hrun Hin Hr Hw.
  destruct (disk_wrong b3 g h bx Hg s s' i j k Hin q so Hrun Hr) as [E Hm].
  destruct (Hm Hw) as [Hp Hmiss]. split; [|exact Hmiss]. exists (disk_actual b3 h q so P). auto.
Qed.
Print Assumptions C76_disk_pressure.

(** Disk: the source of gravity is displaced by the centre of the disk. *)
Theorem C76_disk_gravity_displaced : forall b3 g h bx q so s s' i j k,
  run_kernels (init_hydro RHLibm b3 g h bx (HDisk q so)) s s' -> in_array b3 g i j k ->
  prescribed_gravity b3 (HDisk q (Source (ps_x so + dk_xc q) (ps_y so + dk_yc q)
     (if b3 then ps_z so + dk_zc q else ps_z so) (ps_GM so) (ps_eps so))) (position g h bx i j k) (held_gravity b3 s' i j k).
Proof. intros b3 g h bx q so s s' i j k Hrun Hin. exact (disk_gravity_moved b3 g h bx s s' i j k Hin q so Hrun). Qed.
Print Assumptions C76_disk_gravity_displaced.
Theorem C76_disk_gravity_refuted : exists b3 g h bx q so s s' i j k,
  run_kernels (init_hydro RHLibm b3 g h bx (HDisk q so)) s s' /\ in_array b3 g i j k /\
  ~ prescribed_gravity b3 (HDisk q so) (position g h bx i j k) (held_gravity b3 s' i j k).
Proof.
  set (q := Disk (1/4) (1/8) (1/2) 0 0 1 100 (1/10) (1/100)). set (so := Source (3/8) 0 0 1 (1/4)).
  destruct (run_exists RHLibm false egrid epar ebox (HDisk q so) (fun _ => 0)) as [s' Hs].
  exists false, egrid, epar, ebox, q, so, (fun _ => 0), s', 3%Z, 4%Z, 0%Z.
  split; [exact Hs|]. split; [apply ein2|]. intros Hp.
  assert (Hm := C76_disk_gravity_displaced _ _ _ _ _ _ _ _ _ _ _ Hs ein2).
  unfold prescribed_gravity in Hp, Hm. cbv zeta in Hp, Hm. rewrite Hp in Hm.
  apply (f_equal (fun t => fst (fst t))) in Hm. cbn [fst] in Hm.
  assert (EP : px (position egrid epar ebox 3 4 0) = 3 / 8) by (unfold position, centre; cbn; lra).
  rewrite EP in Hm. cbn [ps_x ps_GM so dk_xc q ps_y ps_z ps_eps] in Hm.
  replace (3 / 8 - 3 / 8) with 0 in Hm by lra. rewrite Rmult_0_r in Hm. unfold Rdiv in Hm at 1. rewrite Rmult_0_l in Hm.
  symmetry in Hm. unfold Rdiv in Hm. apply Rmult_integral in Hm. destruct Hm as [Hm|Hm]; [lra|].
  revert Hm. apply Rinv_neq_0_compat.
  match goal with |- sqrt ?e * _ * _ <> 0 => assert (0 < sqrt e) end.
  { apply sqrt_lt_R0. apply Rplus_le_lt_0_compat; [|lra]. repeat apply Rplus_le_le_0_compat; apply Rle_0_sqr. }
  repeat apply Rmult_integral_contrapositive_currified; lra.
Qed.
Print Assumptions C76_disk_gravity_refuted.

(** Disk in double precision (any library functions, any softening length): a cell whose
    centre is on the axis gets momenta that are not numbers. *)
Theorem C76_disk_axis_nan : forall (m : hlibm spec_float) b3 g h bx q so s s' i j k,
  run_kernels (init_hydro (AT := F64) m b3 g h bx (HDisk q so)) s s' -> in_array b3 g i j k ->
  is_zero_sf (sub (Arith := F64) (hx (AT := F64) g h bx i) (dk_xc q)) = true ->
  is_zero_sf (sub (Arith := F64) (hy (AT := F64) g h bx j) (dk_yc q)) = true ->
  s' (Loc aU i j k IU) = S754_nan /\ s' (Loc aU i j k IV) = S754_nan.
Proof. exact disk_nan. Qed.
Print Assumptions C76_disk_axis_nan.
(** e.g. an odd number of cells on a box around the origin. *)
Definition fnum (n : Z) (d : positive) : spec_float := lit (Arith := F64) n d.
Example C76_disk_axis_case :
  let g := Grid 5 5 5 2 5 (fun _ => 3%Z) in
  let o := fnum 0 1 in let l := fnum (-1) 2 in let r := fnum 1 2 in
  let h := HParams spec_float (fnum 5 3) o o o o o o o (fnum 1 5) (fnum 1 5) (fnum 1 5) RIEMANN_HLLC in
  let bx := Box l r l r l r (fun _ => 0%Z) in
  in_array false g 4 4 0 /\
  is_zero_sf (sub (Arith := F64) (hx (AT := F64) g h bx 4) o) = true /\
  is_zero_sf (sub (Arith := F64) (hy (AT := F64) g h bx 4) o) = true.
Proof. split; [unfold in_array; cbn; lia|]. split; vm_compute; reflexivity. Qed.

(** Blast with the default radius on a box that is symmetric about x = 0: no blast. *)
Theorem C76_default_blast_refuted : forall b3 g h bx s s' i j k,
  1 < gamma0 h -> xmin bx = - xmax bx ->
  run_kernels (init_hydro RHLibm b3 g h bx (HBlast (default_blast bx))) s s' -> in_array b3 g i j k ->
  held b3 s' i j k = conservative (gamma0 h) (HS (12 / 10) (1 / 10) 0 0 0).
Proof.
  intros b3 g h bx s s' i j k Hg Hx Hrun Hin.
  destruct (C76_state b3 g h bx (HBlast (default_blast bx)) s s' i j k Hg I I Hrun Hin) as (q & Hq & E).
  rewrite E. destruct Hq as [[Hlt _]|[_ ->]]; [exfalso|reflexivity].
  revert Hlt. apply Rle_not_lt. unfold default_blast, ofZ. cbn -[IZR dist2]. rewrite Hx.
  replace ((- xmax bx + xmax bx) / 2 / (10 / 1) * ((- xmax bx + xmax bx) / 2 / (10 / 1))) with 0 by field.
  unfold dist2. destruct b3; repeat apply Rplus_le_le_0_compat; try apply Rle_0_sqr; lra.
Qed.
Print Assumptions C76_default_blast_refuted.
Example C76_default_blast_case : xmin sbox = - xmax sbox /\
  (exists s', run_kernels (init_hydro RHLibm true egrid epar sbox (HBlast (default_blast sbox))) (fun _ => 7) s').
Proof. split; [cbn; lra|apply run_exists]. Qed.

(** Settings that meet the hypotheses of the findings. *)
Example C76_findings_reachable :
  ~ at_rest false (MS 2 1 1 0 0 0 0 0) /\
  (let P := position egrid epar sbox 3 4 2 in px P <> 0 /\ radius (px P) (py P) < 2 / 5) /\
  rt_velocity ebox (Rayleigh 1 1 2 0 0 (-1)) (position egrid epar ebox 3 3 3) <> 0 /\
  (let q := Disk 1 (1/8) 0 0 0 1 100 (1/10) 10 in let so := Source 0 0 0 1 (1/4) in
   let D := dk_pos false q (position egrid epar sbox 3 4 0) in 0 < dk_r D /\ dk_omega2 q so D < 0).
Proof.
  split; [intros (H & _); cbn in H; lra|].
  assert (EP : position egrid epar sbox 3 4 2 = Point (- / 8) (/ 8) (- (3 / 8))) by (unfold position, centre; cbn; f_equal; lra).
  assert (EQ : position egrid epar sbox 3 4 0 = Point (- / 8) (/ 8) (- (7 / 8))) by (unfold position, centre; cbn; f_equal; lra).
  assert (Hr : / 8 < radius (- / 8) (/ 8) < 2 / 5).
  { unfold radius. split.
    - replace (/ 8) with (sqrt (/ 64)) at 1; [apply sqrt_lt_1; lra|]. replace (/ 64) with (/ 8 * / 8) by lra. apply sqrt_square. lra.
    - replace (2 / 5) with (sqrt (4 / 25)); [apply sqrt_lt_1; lra|]. replace (4 / 25) with (2 / 5 * (2 / 5)) by lra. apply sqrt_square. lra. }
  split; [rewrite EP; cbn [px py]; lra|]. split.
  - assert (ER : position egrid epar ebox 3 3 3 = Point (3 / 8) (3 / 8) (3 / 8)) by (unfold position, centre; cbn; f_equal; lra).
    rewrite ER. unfold rt_velocity. cbn [px py rt_amplitude xmax xmin ymax ymin ebox].
    replace (2 * PI * (3 / 8) / (1 - 0)) with (3 * (PI / 4)) by field. rewrite cos_3PI4.
    assert (H2 : 1 < sqrt 2) by (rewrite <- sqrt_1 at 1; apply sqrt_lt_1; lra).
    assert (H3 : / sqrt 2 < 1) by (rewrite <- Rinv_1; apply Rinv_lt_contravar; lra).
    unfold Rdiv. assert (0 < 1 + -1 * / sqrt 2) by lra. apply Rgt_not_eq. nra.
  - cbv zeta. rewrite EQ. unfold dk_pos. cbn [px py pz dk_xc dk_yc dk_zc]. rewrite !Rminus_0_r.
    set (D := Point (- / 8) (/ 8) 0). assert (Er : dk_r D = radius (- / 8) (/ 8)) by reflexivity.
    split; [lra|]. unfold dk_omega2. cbn [dk_radius_inner ps_GM]. destruct (Rlt_dec (dk_r D) (1 / 8)) as [H|_]; [lra|].
    assert (Es : dk_sph (Source 0 0 0 1 (1 / 4)) D = dk_soft (Source 0 0 0 1 (1 / 4)) D).
    { unfold dk_sph, dk_soft. f_equal. cbn [pz D]. ring. }
    rewrite Es. set (S := dk_soft _ D).
    assert (HS : / 4 < S).
    { unfold S, dk_soft. cbn [px py D ps_eps]. replace (/ 4) with (sqrt (/ 16)); [apply sqrt_lt_1; lra|].
      replace (/ 16) with (/ 4 * / 4) by lra. apply sqrt_square. lra. }
    set (c := dk_cs _ _).
    assert (Hc : 10 < c).
    { unfold c, dk_cs. cbn [dk_sound dk_radius_inner dk_radius]. rewrite Er, Rmax_left by lra. set (r := radius _ _) in *.
      replace (r / 1) with r by field.
      assert (Hq : 0 < sqrt r < 1) by (split; [apply sqrt_lt_R0; lra|rewrite <- sqrt_1; apply sqrt_lt_1; lra]).
      apply (Rmult_lt_reg_r (sqrt r)); [lra|]. unfold Rdiv. rewrite Rmult_assoc, Rinv_l by lra. lra. }
    replace (1 / (S * S * S) - 7 / 2 * (c / S * (c / S))) with ((1 - 7 / 2 * (c * c) * S) / (S * S * S)) by (field; lra).
    apply Ropp_lt_cancel. rewrite Ropp_0. unfold Rdiv. rewrite Ropp_mult_distr_l. apply Rmult_lt_0_compat.
    + nra.
    + apply Rinv_0_lt_compat. apply Rmult_lt_0_compat; nra.
Qed.
