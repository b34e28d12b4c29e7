(** Theorems about the positivity correction of the spectral difference solver: C80. *)
From Coq Require Import ZArith List Bool Reals Lia Lra.
From Coquelicot Require Import Coquelicot.
From Verif Require Import Arith Par ParProofs GridModel HydroState HydroKernels CellKernels PointProofs MoodKernels MoodProofs
  TaskModel TaskKernels SdmGeom SdmSpec SdmPoints SdmKernels SdmDofs SdmProofs SdmRunSpec
  SdmConsSpec SdmUniform SdmConserve SdmFlux EulerSpec SdmDt SdmDtProofs SdmPos SdmPosSpec SdmPosProofs SdmPosRun.
Import ListNotations.
Open Scope R_scope.

Lemma fold_left_ext_in {X Y} (f h : X -> Y -> X) l a : (forall x y, In y l -> f x y = h x y) -> fold_left f l a = fold_left h l a.
Proof.
  revert a. induction l as [|y l IH]; intros a H; [reflexivity|]. cbn [fold_left]. rewrite H by (left; auto). apply IH. intros; apply H; right; auto.
Qed.
(** A run of the correction on array [a], in any interleaving of the cells. *)
Definition corrects (b3 : bool) (P : points R) (p : hparams R) (big : R) (g : grid) (a : Z) (s s' : store R) : Prop :=
  (1 <= npts P)%Z /\ distinct (npts P) (solp P) /\ a <> aAve /\ 0 < smallr p /\ 1 < gamma0 p /\
  par_exec s (apply_positivity b3 P p big g a) s'.
(** Some flux point of the cell has a density below the stored average. *)
Definition below_average (b3 : bool) (P : points R) (U : cell -> Z -> R) (ave : Z -> R) : Prop :=
  exists dir q n, flux_point b3 P dir q n /\ value_at P U dir q n ID < ave ID.

Lemma state_ext b3 (f h : Z -> R) : (forall v, In v (vars b3) -> f v = h v) -> state_of b3 f = state_of b3 h.
Proof.
  intros H. unfold state_of. rewrite !(H ID), !(H IP), !(H IU), !(H IV) by (apply vars_in; unfold ID, IP, IU, IV; lia).
  destruct b3 eqn:Eb; [|reflexivity]. rewrite (H IW); [reflexivity|]. apply vars_in; auto.
Qed.
Lemma ID_vars b3 : In ID (vars b3). Proof. apply vars_in. unfold ID. lia. Qed.

(** Averages with density above the floor and pressure above 1e-13: after the
    correction every flux point has a density of at least the floor less 1e-13 times
    the spread, and a pressure of at least 1e-13. *)
Theorem C80_positive : forall b3 P p big g a s s' c m, corrects b3 P p big g a s s' -> In c (cells b3 g) ->
  let U := stored b3 P s a c in let U' := stored b3 P s' a c in let ave := stored_average aAve s c in
  smallr p <= ave ID -> 1 / 10000000000000 <= cons_pressure (gamma0 p) (state_of b3 ave) -> below_average b3 P U ave ->
  m <= big -> (forall dir q n, flux_point b3 P dir q n -> m <= value_at P U dir q n ID) ->
  let floor := smallr p - 1 / 10000000000000 * (ave ID - m) in 0 < floor ->
  forall dir q n, flux_point b3 P dir q n ->
  floor <= value_at P U' dir q n ID /\
  1 / 10000000000000 <= cons_pressure (gamma0 p) (state_of b3 (value_at P U' dir q n)).
Proof.
  intros b3 P p big g a s s' c m (HN & HP & Ha & Hr & Hg & Hex) Hc U U' ave H1 H2 H3 H4 H5 floor H6 dir q n Hf.
  destruct (positivity_run b3 P p big g a s s' Ha Hex) as [R _]. destruct (R c Hc) as (V & av & RV & RA & RU).
  pose proof (ID_vars b3) as HID.
  assert (EV : forall d x k v, flux_point b3 P d x k -> In v (vars b3) -> value_at P V d x k v = value_at P U d x k v).
  { intros d x k v (F1 & F2 & F3) Hv. apply (value_at_ext b3); auto. intros; apply RV; auto. }
  assert (EU : forall v, In v (vars b3) -> value_at P (positivity_cell b3 P p big V av) dir q n v = value_at P U' dir q n v).
  { intros v Hv. destruct Hf as (F1 & F2 & F3). apply (value_at_ext b3); auto. intros x Hx. symmetry. apply RU; auto. }
  assert (EA : state_of b3 av = state_of b3 ave) by (apply state_ext; auto).
  assert (Eid : av ID = ave ID) by (apply RA; auto).
  assert (HX : 0 <= excess b3 p av) by (apply (excess_pressure b3 p); [auto|lra|rewrite EA; exact H2]).
  destruct (cell_ok b3 P p big HN HP V av m Hg) with (dir := dir) (q := q) (n := n) as [G1 G2]; auto; try (rewrite Eid; auto; fail).
  - rewrite Eid. destruct H3 as (d & x & k & F & L). pose proof (rho_min_le b3 P big V d x k F). rewrite EV in H; auto. lra.
  - intros d x k F. rewrite EV; auto.
  - cbv zeta in G1, G2. rewrite Eid in G1. rewrite EU in G1 by auto. split; [exact G1|].
    assert (Epos : 0 < value_at P (positivity_cell b3 P p big V av) dir q n ID).
    { rewrite EU by auto. unfold floor in H6. unfold mu in G1. lra. }
    apply (excess_pressure b3 p _ Hg Epos) in G2. rewrite (state_ext b3 _ _ EU) in G2. exact G2.
Qed.
Print Assumptions C80_positive.

(** Values move towards the averages, all variables but the density by the same
    factor, the density by a stronger one. *)
Theorem C80_towards_average : forall b3 P p big g a s s' c, corrects b3 P p big g a s s' -> In c (cells b3 g) ->
  let U := stored b3 P s a c in let U' := stored b3 P s' a c in let ave := stored_average aAve s c in
  smallr p <= ave ID -> below_average b3 P U ave ->
  exists td t, 0 <= td <= t /\ t <= 1 /\ forall q v, In q (dofs b3 P) -> In v (vars b3) ->
    U' q v = ave v + (if (v =? ID)%Z then td else t) * (U q v - ave v).
Proof.
  intros b3 P p big g a s s' c (HN & HP & Ha & Hr & Hg & Hex) Hc U U' ave H1 H3.
  destruct (positivity_run b3 P p big g a s s' Ha Hex) as [R _]. destruct (R c Hc) as (V & av & RV & RA & RU).
  pose proof (ID_vars b3) as HID. assert (Eid : av ID = ave ID) by (apply RA; auto).
  destruct (cell_between b3 P p big V av) as (td & t & B1 & B2 & B3).
  - rewrite Eid; auto.
  - rewrite Eid. destruct H3 as (d & x & k & F & L). pose proof (rho_min_le b3 P big V d x k F).
    destruct F as (F1 & F2 & F3). rewrite (value_at_ext b3 P V U) in H by (auto; intros; apply RV; auto). lra.
  - exists td, t. split; [auto|split; [auto|]]. intros q v Hq Hv. unfold U', stored. rewrite RU, B3 by auto. rewrite RV, RA by auto. reflexivity.
Qed.
Print Assumptions C80_towards_average.
(** So they stay on the same side of the average, no further from it, and with the
    true averages stored the averages of the cell do not change. *)
Theorem C80_average : forall b3 P p big g a s s' c v, corrects b3 P p big g a s s' -> In c (cells b3 g) -> In v (vars b3) ->
  let ave := stored_average aAve s c in
  smallr p <= ave ID -> below_average b3 P (stored b3 P s a c) ave ->
  ave v = average b3 P (stored b3 P s a) c v ->
  average b3 P (stored b3 P s' a) c v = average b3 P (stored b3 P s a) c v.
Proof.
  intros b3 P p big g a s s' c v H Hc Hv ave H1 H2 H3. pose proof H as (HN & HP & _).
  destruct (C80_towards_average b3 P p big g a s s' c H Hc H1 H2) as (td & t & _ & _ & E).
  rewrite (average_squeeze b3 P HN HP (stored b3 P s a) (stored b3 P s' a) c v (if (v =? ID)%Z then td else t) (ave v)).
  - rewrite <- H3. ring.
  - intros q Hq. apply E; auto.
Qed.
Print Assumptions C80_average.

(** A cell with densities above the floor and pressures above 1e-12 at its flux
    points is left alone, and no other array is touched. *)
Theorem C80_untouched : forall b3 P p big g a s s' c, corrects b3 P p big g a s s' -> In c (cells b3 g) ->
  let U := stored b3 P s a c in let U' := stored b3 P s' a c in let ave := stored_average aAve s c in
  below_average b3 P U ave -> smallr p <= big ->
  (forall dir q n, flux_point b3 P dir q n -> smallr p <= value_at P U dir q n ID /\
     1 / 1000000000000 <= cons_pressure (gamma0 p) (state_of b3 (value_at P U dir q n))) ->
  (forall q v, In q (dofs b3 P) -> In v (vars b3) -> U' q v = U q v) /\ (forall l, la l <> a -> s' l = s l).
Proof.
  intros b3 P p big g a s s' c (HN & HP & Ha & Hr & Hg & Hex) Hc U U' ave H3 H4 H5.
  destruct (positivity_run b3 P p big g a s s' Ha Hex) as [R F]. split; [|exact F]. destruct (R c Hc) as (V & av & RV & RA & RU).
  pose proof (ID_vars b3) as HID. assert (Eid : av ID = ave ID) by (apply RA; auto).
  assert (EV : forall d x k v, flux_point b3 P d x k -> In v (vars b3) -> value_at P V d x k v = value_at P U d x k v).
  { intros d x k v (F1 & F2 & F3) Hv. apply (value_at_ext b3); auto. intros; apply RV; auto. }
  intros q v Hq Hv. unfold U', stored. rewrite RU by auto. rewrite (cell_unchanged b3 P p big HN HP V av); auto.
  - unfold U, stored. apply RV; auto.
  - rewrite Eid. destruct H3 as (d & x & k & Fp & L). pose proof (rho_min_le b3 P big V d x k Fp). rewrite EV in H; auto. lra.
  - intros d x k Fp. rewrite EV by auto. rewrite (state_ext b3 _ (value_at P U d x k)) by (intros; apply EV; auto). apply H5; auto.
Qed.
Print Assumptions C80_untouched.

(** The floor is missed: in a gas at rest the lowest density becomes the floor less
    1e-13 times its distance from the average, negative once that exceeds the floor. *)
Theorem C80_density_refuted : forall b3 P p big g a s s' c dir q n, corrects b3 P p big g a s s' -> In c (cells b3 g) ->
  let U := stored b3 P s a c in let U' := stored b3 P s' a c in let ave := stored_average aAve s c in
  let low := value_at P U dir q n ID in
  flux_point b3 P dir q n -> (forall d x k, flux_point b3 P d x k -> low <= value_at P U d x k ID) -> low <= big ->
  (forall x, In x (dofs b3 P) -> U x IU = 0 /\ U x IV = 0 /\ (b3 = true -> U x IW = 0)) ->
  (forall d x k, flux_point b3 P d x k -> 1 / 1000000000000 <= (gamma0 p - 1) * value_at P U d x k IE) ->
  smallr p <= ave ID -> ave ID - smallr p < (1 - 1 / 10000000000000) * (ave ID - low) ->
  smallr p < 1 / 10000000000000 * (ave ID - low) ->
  value_at P U' dir q n ID = smallr p - 1 / 10000000000000 * (ave ID - low) /\ value_at P U' dir q n ID < 0.
Proof.
  intros b3 P p big g a s s' c dir q n (HN & HP & Ha & Hr & Hg & Hex) Hc U U' ave low Hf Hl Hb Hm Hp H1 H2 H3.
  destruct (positivity_run b3 P p big g a s s' Ha Hex) as [R _]. destruct (R c Hc) as (V & av & RV & RA & RU).
  pose proof (ID_vars b3) as HID. assert (Eid : av ID = ave ID) by (apply RA; auto).
  assert (EV : forall d x k v, flux_point b3 P d x k -> In v (vars b3) -> value_at P V d x k v = value_at P U d x k v).
  { intros d x k v (F1 & F2 & F3) Hv. apply (value_at_ext b3); auto. intros; apply RV; auto. }
  assert (E : value_at P U' dir q n ID = smallr p - mu * (ave ID - low)); [|rewrite E; unfold mu; split; lra].
  destruct Hf as (F1 & F2 & F3). rewrite <- (value_at_ext b3 P (positivity_cell b3 P p big V av)) by (auto; intros x Hx; symmetry; apply RU; auto).
  assert (Hf : flux_point b3 P dir q n) by (split; auto).
  rewrite (cell_negative b3 P p big HN HP V av dir q n); auto.
  - rewrite Eid, EV by auto. reflexivity.
  - intros x Hx. destruct (Hm x Hx) as (M1 & M2 & M3). unfold U, stored in *.
    rewrite !RV by (auto; apply vars_in; unfold IU, IV; lia). split; [auto|split; [auto|]].
    intros Eb. rewrite RV; auto. apply vars_in; auto.
  - intros d x k F. rewrite EV by (auto; apply vars_in; unfold IE; lia). auto.
  - intros d x k F. rewrite !EV by auto. auto.
  - rewrite EV by auto. exact Hb.
  - rewrite Eid, EV by auto. exact H2.
  - rewrite Eid. auto.
Qed.
Print Assumptions C80_density_refuted.

(** The averages the solver stores are not the averages (C45), so the correction
    creates mass, momentum and energy: a uniform cell whose pressure is below 1e-12
    has all its variables multiplied by a factor above one. *)
Theorem C80_conservation_refuted : forall b3 N p big g a s s' c k,
  let P := sdm_points N in
  corrects b3 P p big g a s s' -> In c (cells b3 g) ->
  (forall v, In v (vars b3) -> stored_average aAve s c v = sdm_average b3 N p (fun q => stored b3 P s a c q v) v) ->
  (forall q v, In q (dofs b3 P) -> In v (vars b3) -> stored b3 P s a c q v = k v) ->
  smallr p <= k ID <= big -> cons_pressure (gamma0 p) (state_of b3 k) < 1 / 1000000000000 ->
  exists f, 1 < f /\ (forall q v, In q (dofs b3 P) -> In v (vars b3) -> stored b3 P s' a c q v = f * k v) /\
    (forall v, In v (vars b3) -> average b3 P (stored b3 P s' a) c v = f * average b3 P (stored b3 P s a) c v).
Proof.
  intros b3 N p big g a s s' c k P (HN & HP & Ha & Hr & Hg & Hex) Hc HA HU Hk Hp. change (npts P) with N in HN.
  destruct (positivity_run b3 P p big g a s s' Ha Hex) as [R _]. destruct (R c Hc) as (V & av & RV & RA & RU).
  set (kap := (half_angle N / sin (half_angle N)) ^ (if b3 then 3 else 2)).
  assert (K1 : 1 < kap) 
    by (pose proof (factor_gt1 N HN) as F; unfold kap; set (y := half_angle N / sin (half_angle N)) in *; clearbody y; clear - F;
        assert (1 < y * y) by nra; destruct b3; cbn [pow]; nra).
  assert (AX : forall v w, In v (vars b3) -> sdm_average b3 N p (fun q => stored b3 P s a c q v) w = sdm_average b3 N p (fun _ => k v) w).
  { intros v w Hv. unfold sdm_average. cbv zeta. rewrite (fold_left_ext_in _ (fun tmp q => let '(x, y, z) := q in
      tmp + (if b3 then k v * cheb_weight N x * cheb_weight N y * cheb_weight N z else k v * cheb_weight N x * cheb_weight N y))).
    - reflexivity.
    - intros tmp [[x y] z] Hq. rewrite HU by auto. reflexivity. }
  assert (AC : forall v, In v (vars b3) -> av v = kap * k v).
  { intros v Hv. rewrite RA by auto. fold (stored_average aAve s c v). rewrite HA, AX by auto.
    destruct (Z.eq_dec v ID) as [->|Hn].
    - change (sdm_average b3 N p (fun _ => k ID) ID) with
        (let t := sdm_average b3 N p (fun _ => k ID) IU in if Rlt_dec (smallr p) t then t else smallr p).
      cbv zeta. rewrite (average_const b3 N p (k ID) IU HN) by discriminate. fold kap.
      destruct (Rlt_dec (smallr p) (k ID * kap)); [ring|nra].
    - rewrite (average_const b3 N p (k v) v HN Hn). fold kap. ring. }
  destruct (cell_uniform b3 P p big HN HP V av k kap) as (f & F1 & F2); auto.
  - intros x v Hx Hv. rewrite RV by auto. apply HU; auto.
  - lra.
  - lra.
  - rewrite fpressure_cons. exact Hp.
  - exists f. split; [lra|]. assert (E : forall q v, In q (dofs b3 P) -> In v (vars b3) -> stored b3 P s' a c q v = f * k v).
    { intros q v Hq Hv. unfold stored. rewrite RU by auto. apply F2; auto. }
    split; [exact E|]. intros v Hv. unfold average. rewrite <- lsum_scal. apply lsum_ext. intros q Hq. rewrite E, HU by auto. ring.
Qed.
Print Assumptions C80_conservation_refuted.

(** ** Concrete cells: two solution points per direction, density depending on x. *)
Lemma lagrange2 (y : Z -> R) (x : R) : y 0%Z <> y 1%Z ->
  lagrange 2 y 0 x = (x - y 1%Z) / (y 0%Z - y 1%Z) /\ lagrange 2 y 1 x = (x - y 0%Z) / (y 1%Z - y 0%Z).
Proof.
  intros H. unfold lagrange, loopv. change (zrange 0 2) with [0; 1]%Z. cbn [fold_left]. change (1 =? 0)%Z with false. change (0 =? 1)%Z with false.
  rewrite !Z.eqb_refl. ar. split; field; lra.
Qed.
Definition val2 (u0 u1 : R) (n : Z) : R :=
  if (n =? 0)%Z then / 2 * (u0 + u1 + (u0 - u1) * sqrt 2) else if (n =? 1)%Z then / 2 * (u0 + u1) else / 2 * (u0 + u1 + (u1 - u0) * sqrt 2).
Lemma value2 (U : cell -> Z -> R) dir q n v : (0 <= n <= 2)%Z ->
  value_at (sdm_points 2) U dir q n v = val2 (U (setc dir 0 q) v) (U (setc dir 1 q) v) n.
Proof.
  intros Hn. unfold value_at. change (npts (sdm_points 2)) with 2%Z. change (zrange 0 2) with [0; 1]%Z. cbn [lsum].
  set (y := solp (sdm_points 2)).
  pose proof (sqrt_lt_R0 2 ltac:(lra)) as S0. pose proof (sqrt_sqrt 2 ltac:(lra)) as S2.
  assert (C : cos (PI / 4) = / sqrt 2) by (rewrite cos_PI4; unfold Rdiv; ring).
  assert (Y0 : y 0%Z = / 2 * (1 - / sqrt 2)).
  { unfold y. cbn [solp sdm_points]. unfold sol_ptsR. rewrite <- C. do 3 f_equal. field. }
  assert (Y1 : y 1%Z = / 2 * (1 + / sqrt 2)).
  { unfold y. cbn [solp sdm_points]. unfold sol_ptsR. rewrite <- C.
    replace (PI * (2 * 1 + 1) / 2 / 2) with (PI - PI / 4) by field. rewrite <- cos_neg. replace (- (PI - PI / 4)) with (PI / 4 - PI) by ring.
    rewrite cos_minus, cos_PI, sin_PI. ring. }
  assert (I0 : 0 < / sqrt 2) by (apply Rinv_0_lt_compat; auto).
  destruct (lagrange2 y (flxp (sdm_points 2) n)) as [L0 L1]; [lra|]. rewrite L0, L1, Y0, Y1.
  assert (F : flxp (sdm_points 2) n = IZR n / 2).
  { assert (n = 0 \/ n = 1 \/ n = 2)%Z as [->|[->| ->]] by lia.
    - transitivity 0; [reflexivity|field].
    - transitivity (/ 2); [reflexivity|field].
    - transitivity 1; [reflexivity|field]. }
  rewrite F. unfold val2.
  assert (n = 0 \/ n = 1 \/ n = 2)%Z as [->|[->| ->]] by lia; cbn [Z.eqb Pos.eqb]; field_simplify; try lra; try (split; lra).
Qed.
Definition air2 (floor : R) : hparams R := HParams R 1.4 (2.4/2.8) floor 0.01 0.01 0.0001 1 0.5 0.1 0.2 0.3 0.
Definition pgrid : grid := Grid 4 3 1 1 4 (fun _ => 3%Z).
(** Density [u0] and [u1] at the two abscissae, energy [E], at rest, average density [ave]. *)
Definition step_store (u0 u1 E ave : R) : store R := fun l =>
  if (la l =? aAve)%Z then (if (lv l =? ID)%Z then ave else if (lv l =? IE)%Z then E else 0)
  else let v := (lv l / 4)%Z in
    if (v =? ID)%Z then (if (lv l mod 2 =? 0)%Z then u0 else u1) else if (v =? IE)%Z then E else 0.
Lemma step_stored u0 u1 E ave c x y v : (0 <= x < 2)%Z -> (0 <= y < 2)%Z -> (0 <= v < 4)%Z ->
  stored false (sdm_points 2) (step_store u0 u1 E ave) aU c (x, y, 0%Z) v =
  if (v =? ID)%Z then (if (x =? 0)%Z then u0 else u1) else if (v =? IE)%Z then E else 0.
Proof.
  intros Hx Hy Hv. unfold stored, step_store, sloc. destruct c as [[ci cj] ck]. cbn [at_cell la lv]. change (aU =? aAve)%Z with false. cbv iota.
  unfold DofMap. change (npts (sdm_points 2)) with 2%Z.
  assert (E1 : ((x + 2 * y + 2 * 2 * v) / 4 = v)%Z) by (symmetry; apply (Z.div_unique _ 4 v (x + 2 * y)); lia).
  assert (E2 : ((x + 2 * y + 2 * 2 * v) mod 2 = x)%Z) by (symmetry; apply (Z.mod_unique _ 2 (y + 2 * v) x); lia).
  rewrite E1, E2. reflexivity.
Qed.
Lemma step_average u0 u1 E ave c : let A := stored_average aAve (step_store u0 u1 E ave) c in A ID = ave /\ A IP = E /\ A IU = 0 /\ A IV = 0.
Proof. destruct c as [[ci cj] ck]. unfold stored_average, step_store. cbn [at_cell la lv]. repeat split; reflexivity. Qed.
Lemma step_flux u0 u1 E ave c dir q n : flux_point false (sdm_points 2) dir q n ->
  let U := stored false (sdm_points 2) (step_store u0 u1 E ave) aU c in
  (value_at (sdm_points 2) U dir q n ID = val2 u0 u1 n \/ value_at (sdm_points 2) U dir q n ID = u0 \/ value_at (sdm_points 2) U dir q n ID = u1) /\
  value_at (sdm_points 2) U dir q n IE = E /\ (0 <= n <= 2)%Z.
Proof.
  intros (Hd & Hq & Hn) U. change (npts (sdm_points 2)) with 2%Z in Hn. rewrite !value2 by auto.
  apply In_lines in Hq. destruct q as [[x y] z]. apply in_box_coords in Hq. unfold mL in Hq. change (npts (sdm_points 2)) with 2%Z in Hq.
  assert (V2 : forall u, val2 u u n = u) by (intros u; unfold val2; destruct (n =? 0)%Z, (n =? 1)%Z; field).
  unfold U. destruct Hd as [<-|[<-|[]]]; cbn in Hq; assert (z = 0%Z) by lia; subst z; unfold setc; cbn [Z.eqb Pos.eqb IX IY];
    change (IX =? IX)%Z with true; change (IY =? IX)%Z with false; change (IY =? IY)%Z with true; cbv iota;
    rewrite !step_stored by (unfold ID, IE; lia); change (ID =? ID)%Z with true; change (IE =? ID)%Z with false; change (IE =? IE)%Z with true; cbv iota;
    change (0 =? 0)%Z with true; change (1 =? 0)%Z with false; cbv iota; rewrite ?V2.
  - split; [left; reflexivity|split; [reflexivity|auto]].
  - split; [right; destruct (x =? 0)%Z; auto|split; [reflexivity|auto]].
Qed.
Lemma sqrt2_range : 1.41 < sqrt 2 < 1.42.
Proof.
  pose proof (sqrt_lt_R0 2 ltac:(lra)) as S0. pose proof (sqrt_sqrt 2 ltac:(lra)) as S2. split; nra.
Qed.
Lemma corrects_exists b3 N p big g a s : (1 <= N <= 6)%Z -> a <> aAve -> 0 < smallr p -> 1 < gamma0 p ->
  exists s', corrects b3 (sdm_points N) p big g a s s'.
Proof.
  intros HN Ha H1 H2.
  pose proof (run_kernels_seq [apply_positivity b3 (sdm_points N) p big g a] s) as K. inversion K; subst.
  eexists. split; [cbn; lia|]. split; [apply (proj1 (points_std N HN))|]. split; [auto|]. split; [auto|]. split; [auto|]. eassumption.
Qed.
(** A cell whose interpolated density is negative on a face and which is corrected. *)
Example ex_positive : exists s', let s := step_store (1 / 10) 10 10 (101 / 20) in
  let P := sdm_points 2 in let c := (1, 1, 0)%Z in let U := stored false P s aU c in let ave := stored_average aAve s c in
  corrects false P (air2 (1 / 100)) 1000000 pgrid aU s s' /\ In c (cells false pgrid) /\
  1 / 100 <= ave ID /\ 1 / 10000000000000 <= cons_pressure 1.4 (state_of false ave) /\ below_average false P U ave /\
  (forall dir q n, flux_point false P dir q n -> -10 <= value_at P U dir q n ID) /\
  0 < 1 / 100 - 1 / 10000000000000 * (ave ID - -10) /\
  flux_point false P IX (0, 0, 0)%Z 0 /\ value_at P U IX (0, 0, 0)%Z 0 ID < 0.
Proof.
  pose proof sqrt2_range as S2.
  destruct (corrects_exists false 2 (air2 (1 / 100)) 1000000 pgrid aU (step_store (1 / 10) 10 10 (101 / 20))) as [s' Hs];
    [lia|discriminate|cbn; lra|cbn; lra|].
  exists s'. intros s P c U ave. split; [exact Hs|].
  destruct (step_average (1 / 10) 10 10 (101 / 20) c) as (A1 & A2 & A3 & A4). fold s ave in A1, A2, A3, A4.
  assert (FP : flux_point false P IX (0, 0, 0)%Z 0).
  { split; [left; reflexivity|]. split; [|cbn; lia]. apply In_lines. apply in_box_coords. cbn. lia. }
  assert (V0 : value_at P U IX (0, 0, 0)%Z 0 ID < 0).
  { unfold P, U. rewrite value2 by lia. unfold setc. change (IX =? IX)%Z with true. cbv iota. unfold s. rewrite !step_stored by (unfold ID; lia).
    unfold val2. cbn. lra. }
  split; [vm_compute; tauto|]. rewrite A1. split; [lra|]. split.
  { unfold cons_pressure, state_of. cbn [hD hP hU hV hW]. rewrite A1, A2, A3, A4. lra. }
  split; [exists IX, (0, 0, 0)%Z, 0%Z; split; [exact FP|lra]|]. split.
  { intros dir q n F. destruct (step_flux (1 / 10) 10 10 (101 / 20) c dir q n F) as ([E|[E|E]] & _ & Hn); unfold U, P, s; rewrite E; try lra.
    unfold val2. destruct (n =? 0)%Z, (n =? 1)%Z; lra. }
  split; [lra|]. split; auto.
Qed.
(** A cell corrected to a negative density, with the default floor and the true
    average density stored. *)
Example ex_negative : exists s', let s := step_store 1 100000 1 (100001 / 2) in
  let P := sdm_points 2 in let c := (1, 1, 0)%Z in let U := stored false P s aU c in let ave := stored_average aAve s c in
  corrects false P (air2 (1 / 10000000000)) 1000000 pgrid aU s s' /\ value_at P (stored false P s' aU c) IX (0, 0, 0)%Z 0 ID < 0 /\
  (forall q, In q (dofs false P) -> 1 <= U q ID) /\ ave ID = 100001 / 2.
Proof.
  pose proof sqrt2_range as S2.
  destruct (corrects_exists false 2 (air2 (1 / 10000000000)) 1000000 pgrid aU (step_store 1 100000 1 (100001 / 2))) as [s' Hs];
    [lia|discriminate|cbn; lra|cbn; lra|].
  exists s'. intros s P c U ave. split; [exact Hs|].
  destruct (step_average 1 100000 1 (100001 / 2) c) as (A1 & A2 & A3 & A4). fold s ave in A1, A2, A3, A4.
  assert (FP : flux_point false P IX (0, 0, 0)%Z 0).
  { split; [left; reflexivity|]. split; [|cbn; lia]. apply In_lines. apply in_box_coords. cbn. lia. }
  assert (V0 : value_at P U IX (0, 0, 0)%Z 0 ID = / 2 * (100001 - 99999 * sqrt 2)).
  { unfold P, U. rewrite value2 by lia. unfold setc. change (IX =? IX)%Z with true. cbv iota. unfold s. rewrite !step_stored by (unfold ID; lia).
    unfold val2. cbn. lra. }
  assert (DD : forall q, In q (dofs false P) -> exists x y, q = (x, y, 0%Z) /\ (0 <= x < 2)%Z /\ (0 <= y < 2)%Z).
  { intros [[x y] z] Hq. apply In_dofs in Hq. apply in_box_coords in Hq. cbn in Hq. exists x, y. replace z with 0%Z by lia. split; [auto|lia]. }
  split; [|split; [|exact A1]].
  - apply (C80_density_refuted false P (air2 (1 / 10000000000)) 1000000 pgrid aU s s' c IX (0, 0, 0)%Z 0); auto.
    + vm_compute; tauto.
    + intros d x k F. fold U. rewrite V0.
      destruct (step_flux 1 100000 1 (100001 / 2) c d x k F) as ([E|[E|E]] & _ & Hn); unfold U, P, s; rewrite E; try lra.
      unfold val2. destruct (k =? 0)%Z, (k =? 1)%Z; lra.
    + fold U. rewrite V0. lra.
    + intros x Hx. destruct (DD x Hx) as (i & j & -> & Hi & Hj). unfold P, s. rewrite !step_stored by (unfold IU, IV; lia).
      split; [reflexivity|split; [reflexivity|discriminate]].
    + intros d x k F. destruct (step_flux 1 100000 1 (100001 / 2) c d x k F) as (_ & E & _). unfold P, s. rewrite E. cbn. lra.
    + fold ave. rewrite A1. cbn. lra.
    + fold ave U. rewrite A1, V0. cbn. lra.
    + fold ave U. rewrite A1, V0. cbn. lra.
  - intros q Hq. destruct (DD q Hq) as (i & j & -> & Hi & Hj). unfold U, P, s. rewrite step_stored by (unfold ID; lia).
    change (ID =? ID)%Z with true. cbv iota. destruct (i =? 0)%Z; lra.
Qed.
(** A uniform cold cell with the averages the solver stores. *)
Example ex_cold : let p := air2 (1 / 100) in let P := sdm_points 2 in
  let s := step_store 1 1 0 (sdm_average false 2 p (fun _ => 1) ID) in let c := (1, 1, 0)%Z in
  let k := fun v => if (v =? ID)%Z then 1 else 0 in
  (exists s', corrects false P p 1000000 pgrid aU s s') /\ In c (cells false pgrid) /\
  (forall v, In v (vars false) -> stored_average aAve s c v = sdm_average false 2 p (fun q => stored false P s aU c q v) v) /\
  (forall q v, In q (dofs false P) -> In v (vars false) -> stored false P s aU c q v = k v) /\
  smallr p <= k ID <= 1000000 /\ cons_pressure (gamma0 p) (state_of false k) < 1 / 1000000000000.
Proof.
  intros p P s c k. split; [apply corrects_exists; [lia|discriminate|cbn; lra|cbn; lra]|]. split; [vm_compute; tauto|].
  assert (ST : forall q v, In q (dofs false P) -> In v (vars false) -> stored false P s aU c q v = k v).
  { intros [[x y] z] v Hq Hv. apply In_dofs in Hq. apply in_box_coords in Hq. cbn in Hq. apply In_vars in Hv. cbn in Hv.
    replace z with 0%Z by lia. unfold s, P. rewrite step_stored by lia. unfold k. destruct (v =? ID)%Z; [destruct (x =? 0)%Z; reflexivity|].
    destruct (v =? IE)%Z; reflexivity. }
  split; [|split; [exact ST|]].
  - intros v Hv. transitivity (sdm_average false 2 p (fun _ => k v) v).
    + unfold stored_average, s, step_store, c. cbn [at_cell la lv]. destruct (Z.eq_dec v ID) as [->|Hn]; [reflexivity|].
      rewrite (average_const false 2 p (k v) v) by (auto; lia). unfold k. rewrite (proj2 (Z.eqb_neq v ID) Hn).
      change (aAve =? aAve)%Z with true. cbv iota. destruct (v =? IE)%Z; ring.
    + unfold sdm_average. cbv zeta. rewrite (fold_left_ext_in (fun tmp q => let '(x, y, z) := q in tmp + stored false P s aU c q v * cheb_weight 2 x * cheb_weight 2 y)
         (fun tmp q => let '(x, y, z) := q in tmp + k v * cheb_weight 2 x * cheb_weight 2 y)).
      * reflexivity.
      * intros t [[x y] z] Hq. rewrite ST by auto. reflexivity.
  - split; [unfold k; cbn; lra|]. unfold cons_pressure, state_of, k. cbn. lra.
Qed.
