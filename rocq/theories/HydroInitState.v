(** The initial state of each hydrodynamics problem is the prescribed one. *)
From Coq Require Import ZArith List Bool Lia Reals Lra.
From Verif Require Import Arith Par GridModel HydroState HydroKernels HydroSpec Physics
  MhdState MhdInit MhdInitSpec HydroInit HydroInitSpec HydroInitProofs.
Import ListNotations.
Local Open Scope R_scope.

Lemma held_cons (b3 : bool) (gam : R) (d e mu mv mw : R) (q : hs R) :
  d = hD q -> e = total_energy gam q -> mu = hD q * hU q -> mv = hD q * hV q -> (if b3 then mw else 0) = hD q * hW q ->
  held_of b3 (cons_assign b3 d e mu mv mw) (conservative gam q).
Proof.
  intros -> -> -> -> Hw. exists (hD q), (total_energy gam q), (hD q * hU q), (hD q * hV q), mw.
  split; [reflexivity|]. unfold conservative. rewrite Hw. reflexivity.
Qed.
Lemma kh_held (b3 : bool) (h : hparams R) q (d u v w : R) : 1 < gamma0 h ->
  held_of b3 (hkh_assign b3 h q d u v w) (conservative (gamma0 h) (HS d (kh_pressure q) u v (if b3 then w else 0))).
Proof. intros Hg. unfold hkh_assign. apply held_cons; unfold total_energy; cbn; destruct b3; try field; try lra; reflexivity. Qed.

Section State.
Variable b3 : bool.
Variable h : hparams R.
Variable bx : box R.
Hypothesis Hgam : 1 < gamma0 h.
Local Notation gam := (gamma0 h).
Local Notation heldof := (held_of b3).

(** The assignments [l] stand for the conservative form of a prescribed state. *)
Definition reaches (pr : hproblem R) (P : point) (l : list (Z * R)) : Prop :=
  exists q, prescribed b3 h bx pr P q /\ heldof l (conservative gam q).

Lemma implode_region_spec q P : himplode_region b3 bx q (px P) (py P) (pz P) = true <-> implode_outside b3 bx q P.
Proof.
  unfold himplode_region, implode_outside. destruct (im_shape q =? 1)%Z, b3; cbn;
    repeat match goal with |- context [Rlt_dec ?a ?b] => destruct (Rlt_dec a b) end; cbn; split; intros; auto; try discriminate; lra.
Qed.
Lemma implode_reaches q P : good_setting b3 h bx (HImplode q) P ->
  reaches (HImplode q) P (himplode b3 h bx q (px P) (py P) (pz P)).
Proof.
  intros Hg. cbn in Hg. unfold himplode.
  assert (Hs : forall r, r = im_in q \/ r = im_out q -> heldof (himplode_state b3 h r) (conservative gam (gas_of b3 r))).
  { intros r Hr. specialize (Hg r Hr). unfold himplode_state. apply held_cons; unfold gas_of, total_energy; cbn;
      [reflexivity| | | |]; destruct Hg as [(H1 & H2 & H3)|H1]; try rewrite H1; try rewrite H2;
      destruct b3; try rewrite (H3 eq_refl); field; lra. }
  destruct (himplode_region b3 bx q (px P) (py P) (pz P)) eqn:E.
  - exists (gas_of b3 (im_out q)). split; [left; split; [apply implode_region_spec; exact E|reflexivity]|apply Hs; auto].
  - exists (gas_of b3 (im_in q)). split; [right; split; [|reflexivity]|apply Hs; auto].
    intros Hi. apply implode_region_spec in Hi. congruence.
Qed.

Lemma blast_reaches q P : reaches (HBlast q) P (hblast b3 h q (px P) (py P) (pz P)).
Proof.
  unfold hblast. assert (E : hblast_inside b3 q (px P) (py P) (pz P) = true <->
      dist2 b3 P (bl_x q) (bl_y q) (bl_z q) < bl_radius q * bl_radius q).
  { unfold hblast_inside, dist2. destruct b3; cbn; match goal with |- context [Rlt_dec ?a ?b] => destruct (Rlt_dec a b) end;
      split; intros; auto; try discriminate; lra. }
  destruct (hblast_inside b3 q (px P) (py P) (pz P)) eqn:E'.
  - exists (HS (bl_rho_in q) (bl_p_in q) 0 0 0). split; [left; split; [tauto|reflexivity]|].
    apply held_cons; unfold total_energy; cbn; try (destruct b3); try field; try lra; reflexivity.
  - exists (HS (bl_rho_out q) (bl_p_out q) 0 0 0). split; [right; split; [|reflexivity]; intros H; apply E in H; discriminate|].
    apply held_cons; unfold total_energy; cbn; try (destruct b3); try field; try lra; reflexivity.
Qed.

Lemma half_amp a r : 0 <= r <= 1 -> Rabs (a * (r - 1 / 2)) <= Rabs a / 2.
Proof.
  intros Hr. rewrite Rabs_mult. unfold Rdiv at 2. apply Rmult_le_compat_l; [apply Rabs_pos|].
  apply Rabs_le. lra.
Qed.
Lemma kh_reaches rnd q c P : good_setting b3 h bx (HKelvinHelmholtz rnd q) P ->
  reaches (HKelvinHelmholtz rnd q) P (hkh RHLibm b3 h bx (rnd c) q (px P) (py P) (pz P)).
Proof.
  intros [[Hr Hn]|[Hr Hs]]; unfold hkh, reaches, prescribed; rewrite Hr.
  - eexists. split; [|apply kh_held; exact Hgam]. unfold kh_random. cbn [hD hP hU hV hW].
    split; [reflexivity|].
    assert (Hn' : forall n, Rabs (kh_amplitude q * (rnd c n - 1 / 2)) <= Rabs (kh_amplitude q) / 2) by (intros n; apply half_amp, Hn).
    split; [|split; [|destruct b3; [|reflexivity]]].
    2, 3: cbn; rewrite Rplus_0_l; apply Hn'.
    set (sn := if b3 then _ else _).
    match goal with |- context [orb ?a ?b] => set (o := orb a b) end.
    assert (Ho : o = true <-> (sn < / 4 \/ 3 / 4 < sn)).
    { unfold o, sn. destruct b3; cbn; repeat match goal with |- context [Rlt_dec ?a ?b] => destruct (Rlt_dec a b) end;
        cbn; split; intros; auto; try discriminate; lra. }
    assert (Eu : forall v, Rabs ((v + kh_amplitude q * (rnd c 0%Z - lit 1 2))%A - v) <= Rabs (kh_amplitude q) / 2).
    { intros v. cbn. replace (v + _ - v) with (kh_amplitude q * (rnd c 0%Z - 1 / 2)) by ring. apply Hn'. }
    destruct o.
    + left. split; [apply Ho; reflexivity|]. split; [reflexivity|apply Eu].
    + right. split; [intros H; apply Ho in H; discriminate|]. split; [reflexivity|apply Eu].
  - rewrite Hs. exists (kh_smooth b3 q P). split; [reflexivity|].
    assert (Ef : forall s, 1 / (1 + exp (2 * (s - 1 / 4) / kh_delta q)) + 1 / (1 + exp (2 * (3 / 4 - s) / kh_delta q))
                = / (1 + exp (2 * (s - / 4) / kh_delta q)) + / (1 + exp (2 * (3 / 4 - s) / kh_delta q))).
    { intros s. replace (1 / 4) with (/ 4) by lra. unfold Rdiv. rewrite !Rmult_1_l. reflexivity. }
    destruct b3; cbn -[IZR hkh_assign kh_smooth held_of conservative]; rewrite Ef.
    + match goal with |- held_of _ ?l _ => match l with hkh_assign _ _ _ ?d ?u ?v ?w =>
        replace (kh_smooth true q P) with (HS d (kh_pressure q) u v (if true then w else 0)) end end; [apply kh_held; exact Hgam|].
      unfold kh_smooth, ofZ. cbn -[IZR]. unfold Rdiv. rewrite Rinv_1, !Rmult_1_r. reflexivity.
    + match goal with |- held_of _ ?l _ => match l with hkh_assign _ _ _ ?d ?u ?v ?w =>
        replace (kh_smooth false q P) with (HS d (kh_pressure q) u v (if false then w else 0)) end end; [apply kh_held; exact Hgam|].
      unfold kh_smooth, ofZ. cbn -[IZR]. unfold Rdiv. rewrite Rinv_1, !Rmult_1_r. reflexivity.
Qed.

(** Gresho vortex: the profile and the momentum. *)
Lemma gresho_profile_spec q r :
  hgresho_profile RHLibm (gr_rho0 q / (gam * gr_Ma q * gr_Ma q)) r = (gresho_speed r, gresho_pressure gam q r).
Proof.
  unfold hgresho_profile, gresho_speed, gresho_pressure, ofZ. cbn -[IZR].
  replace (2 / 10) with (/ 5) by lra. replace (4 / 10) with (2 / 5) by lra.
  set (p0 := gr_rho0 q / _).
  destruct (Rlt_dec r (/ 5)); [|destruct (Rlt_dec r (2 / 5))]; apply (f_equal2 pair); field.
Qed.
(** What the momentum assignments stand for (2D and 3D), with the velocity along z of the 3D code. *)
Definition gresho_actual (q : gresho R) (P : point) : hs R :=
  let r := radius (px P) (py P) in
  HS (gr_rho0 q) (gresho_pressure gam q r) (- (py P / r * gresho_speed r)) (px P / r * gresho_speed r)
     (if b3 then px P / r * gresho_speed r else 0).
Lemma gresho_speed_0 : gresho_speed 0 = 0.
Proof. unfold gresho_speed. destruct (Rlt_dec 0 (/ 5)); lra. Qed.
Lemma gresho_held q P : gr_rho0 q <> 0 ->
  heldof (hgresho RHLibm b3 h q (px P) (py P) (pz P)) (conservative gam (gresho_actual q P)).
Proof.
  intros H0. unfold hgresho. cbv zeta.
  change (sqr (px P * px P + py P * py P)%A) with (radius (px P) (py P)).
  change (gr_rho0 q / (gamma0 h * gr_Ma q * gr_Ma q))%A with (gr_rho0 q / (gamma0 h * gr_Ma q * gr_Ma q)).
  rewrite gresho_profile_spec.
  assert (Hu : sin (atan2 (py P) (px P)) * gresho_speed (radius (px P) (py P)) = py P / radius (px P) (py P) * gresho_speed (radius (px P) (py P))
       /\ cos (atan2 (py P) (px P)) * gresho_speed (radius (px P) (py P)) = px P / radius (px P) (py P) * gresho_speed (radius (px P) (py P))).
  { destruct (Req_dec (px P) 0) as [Ex|Ex]; [destruct (Req_dec (py P) 0) as [Ey|Ey]|].
    - rewrite Ex, Ey. replace (radius 0 0) with 0 by (unfold radius; rewrite Rmult_0_l, Rplus_0_l, sqrt_0; reflexivity).
      rewrite gresho_speed_0. lra.
    - destruct (atan2_polar (px P) (py P)) as [Hc Hs]; [auto|]. rewrite Hc, Hs. auto.
    - destruct (atan2_polar (px P) (py P)) as [Hc Hs]; [auto|]. rewrite Hc, Hs. auto. }
  destruct Hu as [Hs Hc].
  assert (Em : gr_rho0 q * (- sin (atan2 (py P) (px P)) * gresho_speed (radius (px P) (py P)))
        = gr_rho0 q * - (py P / radius (px P) (py P) * gresho_speed (radius (px P) (py P)))) by (rewrite <- Hs; ring).
  apply held_cons; cbn -[IZR]; [reflexivity| | | |].
  - rewrite Em, Hc. unfold total_energy, gresho_actual. cbn [hD hP hU hV hW].
    set (X := py P / _ * _). set (Y := px P / _ * _). destruct b3; field; lra.
  - rewrite Em. reflexivity.
  - rewrite Hc. reflexivity.
  - unfold gresho_actual. cbn [hD hW]. destruct b3; [rewrite Hc; reflexivity|ring].
Qed.
Lemma gresho_reaches q P : good_setting b3 h bx (HGresho q) P ->
  reaches (HGresho q) P (hgresho RHLibm b3 h q (px P) (py P) (pz P)).
Proof.
  intros (Hb & H0 & H1 & H2 & H3). exists (gresho_gas gam q P). split; [reflexivity|].
  replace (gresho_gas gam q P) with (gresho_actual q P); [apply gresho_held; auto|].
  unfold gresho_actual, gresho_gas. rewrite H1, H2, H3, Hb. f_equal; ring.
Qed.

Lemma config_planar n q : 
  (let '(q0, q1, q2, q3) := riemann_config (T := R) n in q = q0 \/ q = q1 \/ q = q2 \/ q = q3) -> hW q = 0.
Proof.
  unfold riemann_config.
  repeat match goal with |- context [if ?b then _ else _] => destruct b end;
    intros [->|[->|[->| ->]]]; reflexivity.
Qed.
Lemma four_reaches n xt yt P : b3 = false -> reaches (HFourQuadrant n xt yt) P (hfour b3 h n xt yt (px P) (py P)).
Proof.
  intros Hb. unfold hfour, reaches, prescribed.
  assert (Hp : forall q, (let '(q0, q1, q2, q3) := riemann_config (T := R) n in q = q0 \/ q = q1 \/ q = q2 \/ q = q3) ->
       heldof (prim_to_cons b3 h q) (conservative gam q)).
  { intros q Hq. apply config_planar in Hq. unfold prim_to_cons. apply held_cons; unfold total_energy; cbn; try rewrite Hq; try rewrite Hb; try field; lra. }
  destruct (riemann_config n) as [[[q0 q1] q2] q3]. unfold quadrant. cbn.
  destruct (Rlt_dec (px P) xt), (Rlt_dec (py P) yt); eexists; (split; [|apply Hp; tauto]).
  - left. auto.
  - right. left. repeat split; auto; lra.
  - right. right. left. repeat split; auto; lra.
  - right. right. right. repeat split; auto; lra.
Qed.

(** Isentropic vortex.  What is stored: pressure rho T. *)
Definition vortex_actual (q : vortex R) (x y : R) : hs R :=
  let a := vortex_gas gam q x y in HS (hD a) (hD a * vortex_T gam q x y) (hU a) (hV a) 0.
Lemma vortex_held q P : b3 = false ->
  heldof (hvortex RHLibm b3 h q (px P) (py P)) (conservative gam (vortex_actual q (px P) (py P))).
Proof.
  intros Hb. unfold hvortex. cbv zeta. unfold ofZ. cbn -[IZR].
  set (xp := px P - iv_x q). set (yp := py P - iv_y q).
  rewrite sqrt_sqrt by nra.
  assert (Ep : 2 * PI <> 0) by (assert (H := PI_RGT_0); lra).
  assert (ET : iv_T q - (gam - 1) * iv_beta q * iv_beta q / (8 / 1 * gam * PI * PI) * exp (1 - (xp * xp + yp * yp))
      = vortex_T gam q (px P) (py P)).
  { unfold vortex_T. fold xp yp. assert (H := PI_RGT_0). field. lra. }
  rewrite ET.
  assert (Ee : exp (/ 2 * (1 - (xp * xp + yp * yp))) = exp ((1 - (xp * xp + yp * yp)) / 2)) by (f_equal; field).
  rewrite Ee.
  assert (Ed : iv_rho q * Rpower (vortex_T gam q (px P) (py P) / iv_T q) (1 / (gam - 1)) = hD (vortex_gas gam q (px P) (py P))).
  { unfold vortex_gas. cbn [hD]. unfold Rdiv at 2. rewrite Rmult_1_l. reflexivity. }
  rewrite Ed.
  assert (Eu : iv_u q + - yp * iv_beta q / (2 * PI) * exp ((1 - (xp * xp + yp * yp)) / 2) = hU (vortex_gas gam q (px P) (py P))).
  { unfold vortex_gas. cbn [hU]. fold xp yp. field. assert (H := PI_RGT_0). lra. }
  assert (Ev : iv_v q + xp * iv_beta q / (2 * PI) * exp ((1 - (xp * xp + yp * yp)) / 2) = hV (vortex_gas gam q (px P) (py P))).
  { unfold vortex_gas. cbn [hV]. fold xp yp. field. assert (H := PI_RGT_0). lra. }
  rewrite Eu, Ev. apply held_cons; unfold vortex_actual, total_energy; cbn [hD hP hU hV hW]; try reflexivity.
  - field. lra.
  - rewrite Hb. ring.
Qed.
Lemma vortex_pressure q x y : iv_p q = iv_rho q * iv_T q -> 0 < iv_T q -> 0 < vortex_T gam q x y ->
  hP (vortex_gas gam q x y) = hD (vortex_gas gam q x y) * vortex_T gam q x y.
Proof.
  intros Hp Ht HT. unfold vortex_gas. cbn [hP hD].
  set (t := vortex_T gam q x y / iv_T q). assert (Ht0 : 0 < t) by (apply Rdiv_lt_0_compat; auto).
  replace (gam / (gam - 1)) with (/ (gam - 1) + 1) by (field; lra).
  rewrite Rpower_plus, Rpower_1 by auto. rewrite Hp. unfold t at 2. field. lra.
Qed.
Lemma vortex_reaches q P : b3 = false -> good_setting b3 h bx (HVortex q) P ->
  reaches (HVortex q) P (hvortex RHLibm b3 h q (px P) (py P)).
Proof.
  intros Hb (H1 & H2 & H3). exists (vortex_gas gam q (px P) (py P)). split; [reflexivity|].
  replace (vortex_gas gam q (px P) (py P)) with (vortex_actual q (px P) (py P)); [apply vortex_held; auto|].
  unfold vortex_actual. rewrite <- vortex_pressure by auto. reflexivity.
Qed.

(** Rayleigh-Taylor.  What is stored: the velocity perturbation as a momentum, and the
    energy without the kinetic part. *)
Definition rt_actual (q : rayleigh R) (P : point) (d : R) : hs R :=
  let a := rt_gas b3 bx q P d in
  let w := rt_velocity bx q P in
  HS d (hP a - (gam - 1) * (w * w / (2 * d))) 0 (if b3 then 0 else w / d) (if b3 then w / d else 0).
Lemma rt_held q P d : d <> 0 ->
  heldof (cons_assign b3 d
    ((1 + d * (if b3 then rt_gx q * px P + rt_gy q * py P + rt_gz q * pz P else rt_gx q * px P + rt_gy q * py P)) / (gam - 1))
    0 (if b3 then 0 else rt_velocity bx q P) (rt_velocity bx q P))
    (conservative gam (rt_actual q P d)).
Proof.
  intros Hd. apply held_cons; unfold rt_actual, rt_gas, total_energy; cbn [hD hP hU hV hW]; destruct b3; try field; try lra; reflexivity.
Qed.
Lemma hrayleigh_eq q P : exists d,
  ((rt_above b3 bx P /\ d = rt_d1 q) \/ (~ rt_above b3 bx P /\ d = rt_d0 q)) /\
  hrayleigh RHLibm b3 h bx q (px P) (py P) (pz P) = cons_assign b3 d
    ((1 + d * (if b3 then rt_gx q * px P + rt_gy q * py P + rt_gz q * pz P else rt_gx q * px P + rt_gy q * py P)) / (gam - 1))
    0 (if b3 then 0 else rt_velocity bx q P) (rt_velocity bx q P).
Proof.
  unfold hrayleigh. cbv zeta. unfold ofZ.
  assert (Ev : (rt_amplitude q * (one + fcos (hm RHLibm) (two * fpi (hm RHLibm) * px P / (xmax bx - xmin bx)))
               * (one + fcos (hm RHLibm) (two * fpi (hm RHLibm) * py P / (ymax bx - ymin bx))) / lit 4 1)%A = rt_velocity bx q P).
  { unfold rt_velocity. cbn -[IZR]. field. }
  rewrite Ev. unfold rt_above.
  destruct b3; cbn; match goal with |- context [Rlt_dec ?a ?b] => destruct (Rlt_dec a b) end;
    [exists (rt_d1 q)|exists (rt_d0 q)|exists (rt_d1 q)|exists (rt_d0 q)]; split; auto.
Qed.
Lemma rt_reaches q P : good_setting b3 h bx (HRayleigh q) P ->
  reaches (HRayleigh q) P (hrayleigh RHLibm b3 h bx q (px P) (py P) (pz P)).
Proof.
  intros Ha. cbn in Ha. destruct (hrayleigh_eq q P) as (d & Hd & E). rewrite E. exists (rt_gas b3 bx q P d). split.
  - destruct Hd as [[H ->]|[H ->]]; [left|right]; auto.
  - assert (Ev : rt_velocity bx q P = 0) by (unfold rt_velocity; rewrite Ha; field_simplify; lra).
    apply held_cons; unfold rt_gas, total_energy; cbn [hD hP hU hV hW]; rewrite ?Ev; destruct b3; try field; try lra; reflexivity.
Qed.

(** Rising bubble. *)
Lemma bubble_reaches q P : reaches (HBubble q) P (hbubble b3 h q (px P) (py P) (pz P)).
Proof.
  unfold hbubble. cbv zeta.
  match goal with |- context [if ?c then rb_din q else rb_dout q] => set (d := if c then rb_din q else rb_dout q) end.
  exists (bubble_gas b3 q P d). split.
  - unfold prescribed, either, bubble_inside, d, dist2. destruct b3; cbn; rewrite ?Rplus_0_r;
      match goal with |- context [Rlt_dec ?a ?b] => destruct (Rlt_dec a b) end; auto.
  - apply held_cons; unfold bubble_gas, total_energy; cbn [hD hP hU hV hW]; cbn -[d]; destruct b3; try field; try lra; reflexivity.
Qed.

(** Disk. *)
Lemma sound_spec (q : disk R) (r : R) : disk_sound q r = dk_cs q r.
Proof.
  unfold disk_sound, dk_cs. cbn. destruct (Rlt_dec r (dk_radius_inner q)); [rewrite Rmax_right by lra|rewrite Rmax_left by lra]; reflexivity.
Qed.
Lemma omega2_spec (q : disk R) (s : source R) D : disk_omega2 q s (dk_r D) (dk_soft s D) (dk_sph s D) (dk_cs q (dk_r D)) = dk_omega2 q s D.
Proof.
  unfold disk_omega2, dk_omega2. cbn -[IZR].
  destruct (Rle_dec (dk_radius_inner q) (dk_r D)), (Rlt_dec (dk_r D) (dk_radius_inner q)); try lra; ring.
Qed.
Lemma density_spec (q : disk R) (s : source R) D : disk_density RHLibm q s (pz D) (dk_r D) (dk_soft s D) (dk_sph s D) (dk_cs q (dk_r D)) = dk_rho q s D.
Proof.
  unfold disk_density, dk_rho. cbn -[IZR].
  replace (-5 / 2) with (- (5 / 2)) by lra. replace (1 / 1000000) with (/ 1000000) by lra.
  replace (1 / dk_sph s D - 1 / dk_soft s D) with (/ dk_sph s D - / dk_soft s D) by (unfold Rdiv; rewrite !Rmult_1_l; reflexivity).
  set (rho := dk_density q * _ * _). f_equal.
  set (a := dk_r D - dk_radius q). set (b := Rabs (pz D) - dk_radius q / 2).
  assert (Hb : Rabs (pz D) = b + dk_radius q / 2) by (unfold b; ring).
  assert (Ha : dk_r D = a + dk_radius q) by (unfold a; ring).
  assert (M1 := Rmax_l a b). assert (M2 := Rmax_r a b).
  assert (M3 : Rmax a b = a \/ Rmax a b = b) by (unfold Rmax; destruct (Rle_dec a b); auto).
  destruct (Rlt_dec (dk_radius q) (dk_r D)), (Rlt_dec (/ 2 * dk_radius q) (Rabs (pz D))); cbn [orb];
    destruct (Rle_dec (Rmax a b) 0); try reflexivity; try (exfalso; lra);
    destruct (Rlt_dec (dk_radius q + dk_width q) (dk_r D)), (Rlt_dec (/ 2 * dk_radius q + dk_width q) (Rabs (pz D))); cbn [orb];
    destruct (Rle_dec (Rmax a b) (dk_width q)); try reflexivity; try (exfalso; lra); do 3 f_equal;
    replace (Rabs (pz D) - / 2 * dk_radius q) with b by (unfold b; field);
    (assert (Hw : 0 < dk_width q) by lra); unfold Rdiv;
    rewrite !(Rmult_comm _ (/ dk_width q)), RmaxRmult by (left; apply Rinv_0_lt_compat; lra); reflexivity.
Qed.
(** What is stored: the pressure changes where gravity does not hold the gas (the square
    of the angular velocity is negative). *)
Definition disk_actual (q : disk R) (s : source R) (P : point) : hs R :=
  let D := dk_pos b3 q P in
  let a := disk_gas b3 q s P in
  HS (hD a) (hP a + (gam - 1) * (hD a * Rmin (dk_omega2 q s D) 0 * (dk_soft s D * dk_soft s D) / 2)) (hU a) (hV a) 0.
Lemma disk_held q s P : 0 < dk_r (dk_pos b3 q P) ->
  heldof (fst (hdisk RHLibm b3 h q s (px P) (py P) (pz P))) (conservative gam (disk_actual q s P)).
Proof.
  intros Hr. unfold hdisk. cbv zeta.
  set (D := dk_pos b3 q P) in *.
  replace (if b3 then (pz P - dk_zc q)%A else zero) with (pz D) by (unfold D, dk_pos; destruct b3; reflexivity).
  change (px P - dk_xc q)%A with (px D). change (py P - dk_yc q)%A with (py D).
  destruct (source_eval s (px D) (py D) (pz D)) as [[gx gy] gz]. cbn [fst].
  change (sqr (px D * px D + py D * py D)%A) with (dk_r D).
  change (sqr (px D * px D + py D * py D + ps_eps s * ps_eps s)%A) with (dk_soft s D).
  change (sqr (px D * px D + py D * py D + ps_eps s * ps_eps s + pz D * pz D)%A) with (dk_sph s D).
  rewrite sound_spec, omega2_spec, density_spec.
  set (w2 := dk_omega2 q s D). set (rho := dk_rho q s D). set (c := dk_cs q (dk_r D)).
  assert (Hs : dk_soft s D * dk_soft s D = px D * px D + py D * py D + ps_eps s * ps_eps s) by (apply sqrt_sqrt; nra).
  assert (Hr2 : dk_r D * dk_r D = px D * px D + py D * py D) by apply radius_sq.
  assert (Hw : sqrt (Rmax w2 0) * sqrt (Rmax w2 0) = Rmax w2 0) by (apply sqrt_sqrt, Rmax_r).
  assert (Hm : Rmax w2 0 + Rmin w2 0 = w2) by (unfold Rmax, Rmin; destruct (Rle_dec w2 0); lra).
  apply held_cons; unfold disk_actual, disk_gas, total_energy; cbv zeta; fold D; fold w2 rho c; cbn [hD hP hU hV hW]; clearbody w2 rho c; clearbody D; cbn -[dk_soft dk_r Rmax Rmin].
  - reflexivity.
  - rewrite <- Hs.
    set (o := sqrt (Rmax w2 0)) in *. set (S := dk_soft s D) in *. set (r := dk_r D) in *.
    assert (EK : - (py D / r * (o * S)) * - (py D / r * (o * S)) + px D / r * (o * S) * (px D / r * (o * S)) + 0 * 0
        = (o * o) * (S * S)).
    { transitivity ((px D * px D + py D * py D) / (r * r) * ((o * o) * (S * S))); [field; lra|]. rewrite <- Hr2. field. lra. }
    rewrite EK, Hw. rewrite <- Hm at 1. field. lra.
  - field. lra.
  - field. lra.
  - destruct b3; ring.
Qed.
Lemma disk_reaches q s P : good_setting b3 h bx (HDisk q s) P ->
  reaches (HDisk q s) P (fst (hdisk RHLibm b3 h q s (px P) (py P) (pz P))).
Proof.
  intros [Hr Hw]. exists (disk_gas b3 q s P). split; [reflexivity|].
  replace (disk_gas b3 q s P) with (disk_actual q s P); [apply disk_held; auto|].
  unfold disk_actual. cbv zeta. rewrite Rmin_right by auto.
  unfold disk_gas. cbv zeta. cbn [hD hP hU hV hW]. f_equal. field.
Qed.

Lemma all_reach pr c P : offered b3 pr -> good_setting b3 h bx pr P ->
  reaches pr P (fst (hpoint b3 h bx RHLibm pr c (px P) (py P) (pz P))).
Proof.
  intros Ho Hg. destruct pr; unfold hpoint; cbn [fst].
  - apply implode_reaches; auto.
  - apply blast_reaches.
  - apply (kh_reaches rnd q c P); auto.
  - apply gresho_reaches; auto.
  - apply four_reaches; auto.
  - apply vortex_reaches; auto.
  - apply rt_reaches; auto.
  - apply bubble_reaches.
  - apply disk_reaches; auto.
Qed.

(** Gravity. *)
Lemma source_spec s x y z : source_eval (T := R) s x y z =
  (let d := sqrt ((x - ps_x s) * (x - ps_x s) + (y - ps_y s) * (y - ps_y s) + (z - ps_z s) * (z - ps_z s) + ps_eps s * ps_eps s) in
   (ps_GM s * (ps_x s - x) / (d * d * d), ps_GM s * (ps_y s - y) / (d * d * d), ps_GM s * (ps_z s - z) / (d * d * d))).
Proof. unfold source_eval. cbn. unfold Rdiv. f_equal; [f_equal|]; ring. Qed.
(** The source that the disk problem uses: moved by the centre of the disk. *)
Definition moved (q : disk R) (s : source R) : source R :=
  Source (ps_x s + dk_xc q) (ps_y s + dk_yc q) (if b3 then ps_z s + dk_zc q else ps_z s) (ps_GM s) (ps_eps s).
Lemma disk_gravity q s c P : exists gx gy gz, snd (hpoint b3 h bx RHLibm (HDisk q s) c (px P) (py P) (pz P)) = grav_assign b3 gx gy gz /\
  prescribed_gravity b3 (HDisk q (moved q s)) P (gx, gy, if b3 then gz else 0).
Proof.
  unfold hpoint, hdisk. cbv zeta. rewrite source_spec. cbv zeta. cbn [snd].
  do 3 eexists. split; [reflexivity|]. unfold prescribed_gravity, moved. cbn [ps_x ps_y ps_z ps_GM ps_eps]. cbv zeta.
  replace ((px P - dk_xc q)%A - ps_x s) with (px P - (ps_x s + dk_xc q)) by (cbn; ring).
  replace ((py P - dk_yc q)%A - ps_y s) with (py P - (ps_y s + dk_yc q)) by (cbn; ring).
  replace (ps_x s - (px P - dk_xc q)%A) with (ps_x s + dk_xc q - px P) by (cbn; ring).
  replace (ps_y s - (py P - dk_yc q)%A) with (ps_y s + dk_yc q - py P) by (cbn; ring).
  destruct b3; [|reflexivity].
  replace ((pz P - dk_zc q)%A - ps_z s) with (pz P - (ps_z s + dk_zc q)) by (cbn; ring).
  replace (ps_z s - (pz P - dk_zc q)%A) with (ps_z s + dk_zc q - pz P) by (cbn; ring).
  reflexivity.
Qed.
End State.
