(** C77: the initial flows of the vortex, disk and stratified problems are exact solutions of the
    Euler equations.  Specification: FlowSpec.v ([solves]: the conservation laws hold at a time
    and position), HydroInitSpec.v (the prescribed states, which C76 shows to be those stored). *)
From Coq Require Import List Bool Reals Lra ZArith Lia.
From Coquelicot Require Import Coquelicot.
From Verif Require Import Arith HydroState Physics MhdInit HydroInit HydroInitSpec HydroInitProofs FlowSpec FlowExact FlowProblems FlowDisk.
Import ListNotations.
Local Open Scope R_scope.

(** Isentropic vortex: carried unchanged by the ambient flow, at all times and positions. *)
Theorem C77_vortex : forall gam q t x y z,
  1 < gam -> iv_p q = iv_rho q * iv_T q -> 0 < iv_T q -> 0 < vortex_T gam q (x - iv_u q * t) (y - iv_v q * t) ->
  solves gam no_gravity (fun t x y _ => vortex_gas gam q (x - iv_u q * t) (y - iv_v q * t)) t x y z.
Proof. intros. apply vortex_solves; auto. Qed.
Print Assumptions C77_vortex.

(** Gresho vortex of density 1: a solution wherever the profile is smooth, and the profile is continuous. *)
Theorem C77_gresho : forall gam q t x y z,
  1 < gam -> gr_w q = 0 -> gr_rho0 q = 1 ->
  let r := radius (x - gr_u q * t) (y - gr_v q * t) in r <> / 5 -> r <> 2 / 5 ->
  solves gam no_gravity (fun t x y z => gresho_gas gam q (Point (x - gr_u q * t) (y - gr_v q * t) z)) t x y z.
Proof. intros. apply gresho_solves; auto. Qed.
Print Assumptions C77_gresho.
Theorem C77_gresho_continuous : forall gam q r,
  0 < r -> continuity_pt gresho_speed r /\ continuity_pt (gresho_pressure gam q) r.
Proof. intros. split; [apply gresho_speed_continuous|apply gresho_pressure_continuous; auto]. Qed.
Print Assumptions C77_gresho_continuous.
(** Finding: with another density the pressure does not balance the rotation anywhere in the vortex. *)
Theorem C77_gresho_density_refuted : forall gam q t x y z,
  1 < gam -> gr_w q = 0 -> gr_rho0 q <> 1 ->
  let r := radius (x - gr_u q * t) (y - gr_v q * t) in 0 < r < / 5 \/ / 5 < r < 2 / 5 ->
  ~ solves gam no_gravity (fun t x y z => gresho_gas gam q (Point (x - gr_u q * t) (y - gr_v q * t) z)) t x y z.
Proof. intros. apply gresho_unbalanced; auto. Qed.
Print Assumptions C77_gresho_density_refuted.

(** Disk without softening, centred with its source on the origin: rotation, pressure and gravity
    balance within the body of the disk, inside and outside of the inner radius. *)
Theorem C77_disk : forall b3 gam q so t x y z a,
  let r := radius x y in let D := dk_pos b3 q (Point x y z) in
  1 < gam -> dk_xc q = 0 /\ dk_yc q = 0 /\ dk_zc q = 0 -> ps_x so = 0 /\ ps_y so = 0 /\ ps_z so = 0 -> ps_eps so = 0 ->
  dk_sound q <> 0 -> 0 < r < dk_radius q -> r <> dk_radius_inner q -> Rabs (pz D) < dk_radius q / 2 ->
  / 1000000 < dk_rho q so D -> 0 < dk_omega2 q so D ->
  prescribed_gravity b3 (HDisk q so) (Point x y z) a ->
  solves gam a (fun _ x y z => disk_gas b3 q so (Point x y z)) t x y z.
Proof.
  intros b3 gam q so t x y z a r D Hg Hq Hp He Hc Hr Hi. unfold D. rewrite (pos_point b3 q Hq).
  intros Hz Hrho Hom Ha. apply disk_solves; auto; lra.
Qed.
Print Assumptions C77_disk.

(** Rayleigh-Taylor and rising bubble before any perturbation: each fluid is in hydrostatic balance. *)
Theorem C77_rayleigh : forall gam b3 h bx q (w : flow) t x y z,
  rt_amplitude q = 0 -> (forall t x y z, prescribed b3 h bx (HRayleigh q) (Point x y z) (w t x y z)) ->
  (if b3 then z <> (zmin bx + zmax bx) / 2 else y <> (ymin bx + ymax bx) / 2) ->
  solves gam (rt_gx q, rt_gy q, if b3 then rt_gz q else 0) w t x y z.
Proof. intros. eapply rayleigh_solves; eauto. Qed.
Print Assumptions C77_rayleigh.
Theorem C77_bubble : forall gam b3 h bx q (w : flow) t x y z,
  0 < rb_R q -> (forall t x y z, prescribed b3 h bx (HBubble q) (Point x y z) (w t x y z)) ->
  dist2 b3 (Point x y z) (rb_x0 q) (rb_y0 q) (rb_z0 q) <> rb_R q * rb_R q ->
  solves gam (rb_gx q, rb_gy q, if b3 then rb_gz q else 0) w t x y z.
Proof. intros. eapply bubble_solves; eauto. Qed.
Print Assumptions C77_bubble.

(** Across the interface of the Rayleigh-Taylor problem the pressure jumps by the density
    difference times g.x: the two fluids balance only if g.x = 0 there. *)
Theorem C77_rayleigh_jump : forall h bx q (w : flow) t x z,
  rt_amplitude q = 0 -> (forall t x y z, prescribed false h bx (HRayleigh q) (Point x y z) (w t x y z)) ->
  let mid := (ymin bx + ymax bx) / 2 in
  let jump := (rt_d1 q - rt_d0 q) * (rt_gx q * x + rt_gy q * mid) in
  forall eps, 0 < eps -> exists del, 0 < del /\ forall y, mid < y < mid + del ->
    Rabs (hP (w t x y z) - hP (w t x mid z) - jump) < eps.
Proof.
  intros h bx q w t x z Ha Hw mid jump eps He.
  set (k := Rabs (rt_d1 q * rt_gy q) + 1). assert (Hk : 0 < k) by (unfold k; assert (H := Rabs_pos (rt_d1 q * rt_gy q)); lra).
  exists (eps / k). split; [apply Rdiv_lt_0_compat; auto|]. intros y [Hy1 Hy2].
  assert (E1 : hP (w t x y z) = 1 + rt_d1 q * (rt_gx q * x + rt_gy q * y)).
  { destruct (Hw t x y z) as [[_ ->]|[H _]]; [rewrite rayleigh_static by auto; cbn [hP px py pz]; ring|]. exfalso. apply H. exact Hy1. }
  assert (E0 : hP (w t x mid z) = 1 + rt_d0 q * (rt_gx q * x + rt_gy q * mid)).
  { destruct (Hw t x mid z) as [[H _]|[_ ->]]; [|rewrite rayleigh_static by auto; cbn [hP px py pz]; ring]. exfalso. revert H. apply Rlt_irrefl. }
  rewrite E1, E0. unfold jump.
  replace (1 + _ - _ - _) with (rt_d1 q * rt_gy q * (y - mid)) by ring.
  rewrite Rabs_mult, (Rabs_right (y - mid)) by lra.
  apply Rlt_le_trans with (k * (eps / k)); [|right; field; lra].
  apply Rle_lt_trans with (Rabs (rt_d1 q * rt_gy q) * (eps / k)).
  - apply Rmult_le_compat_l; [apply Rabs_pos|lra].
  - apply Rmult_lt_compat_r; [apply Rdiv_lt_0_compat; auto|unfold k; lra].
Qed.
Print Assumptions C77_rayleigh_jump.

(** Settings that meet the hypotheses. *)
Definition zdisk : disk R := Disk 1 (1/8) 0 0 0 1 100 (1/10) (1/10).
Definition zsource : source R := Source 0 0 0 1 0.
Example C77_hypotheses_hold :
  0 < vortex_T 2 (Vortex 1 1 1 1 1 0 0 0) 3 4 /\
  (let q := Gresho 1 (1/10) 0 0 0 in let r := radius (1/2 - gr_u q * 3) (0 - gr_v q * 3) in r <> / 5 /\ r <> 2 / 5) /\
  (let D := dk_pos false zdisk (Point (1/2) 0 0) in
   0 < radius (1/2) 0 < dk_radius zdisk /\ radius (1/2) 0 <> dk_radius_inner zdisk /\ Rabs (pz D) < dk_radius zdisk / 2 /\
   / 1000000 < dk_rho zdisk zsource D /\ 0 < dk_omega2 zdisk zsource D) /\
  (exists w : flow, forall h bx t x y z, prescribed false h bx (HRayleigh (Rayleigh 0 1 1 0 0 0)) (Point x y z) (w t x y z)).
Proof.
  assert (Er : radius (1/2) 0 = 1/2).
  { unfold radius. replace (1 / 2 * (1 / 2) + 0 * 0) with (1 / 2 * (1 / 2)) by ring. apply sqrt_square. lra. }
  split; [unfold vortex_T; cbn [iv_T iv_beta]; replace ((2 - 1) * (0 * 0)) with 0 by ring; unfold Rdiv; rewrite !Rmult_0_l; lra|].
  split.
  { cbv zeta. cbn [gr_u gr_v]. replace (1 / 2 - 0 * 3) with (1 / 2) by ring. replace (0 - 0 * 3) with 0 by ring. rewrite Er. lra. }
  split.
  { cbv zeta. rewrite (pos_point false zdisk) by (cbn; auto). unfold zz. rewrite Er. cbn [pz dk_radius dk_radius_inner zdisk].
    rewrite Rabs_R0. split; [lra|]. split; [lra|]. split; [lra|].
    assert (Es : dk_soft zsource (Point (1 / 2) 0 0) = 1 / 2).
    { rewrite soft_point by reflexivity. exact Er. }
    assert (Eh : dk_sph zsource (Point (1 / 2) 0 0) = 1 / 2).
    { unfold dk_sph. cbn [px py pz ps_eps zsource]. rewrite <- Er at 3. unfold radius. f_equal. ring. }
    assert (E0 : dk_r (Point (1 / 2) 0 0) = 1 / 2) by exact Er.
    split.
    - unfold dk_rho. cbv zeta. rewrite E0, Es, Eh. cbn [pz dk_radius zdisk dk_density]. rewrite Rabs_R0.
      destruct (Rle_dec (Rmax (1 / 2 - 1) (0 - 1 / 2)) 0) as [H|H]; [|exfalso; apply H; apply Rmax_lub; lra].
      apply Rlt_le_trans with 1; [lra|]. eapply Rle_trans; [|apply Rmax_l].
      replace (/ (1 / 2) - / (1 / 2)) with 0 by ring. rewrite Rmult_0_r, exp_0, Rmult_1_l, Rmult_1_r.
      assert (Hl : ln (1 / 2 / 1) < 0) by (rewrite <- ln_1; apply ln_increasing; lra).
      unfold Rpower. left. rewrite <- exp_0 at 1. apply exp_increasing. cbn [dk_radius]. lra.
    - unfold dk_omega2. cbv zeta. rewrite E0, Es, Eh. cbn [dk_radius_inner zdisk ps_GM zsource].
      destruct (Rlt_dec (1 / 2) (1 / 8)); [lra|].
      assert (Ec : dk_cs zdisk (1 / 2) * dk_cs zdisk (1 / 2) = 1 / 50).
      { unfold dk_cs. cbn [dk_radius_inner dk_radius dk_sound zdisk]. rewrite Rmax_left by lra.
        assert (Hq : sqrt (1 / 2 / 1) * sqrt (1 / 2 / 1) = 1 / 2) by (rewrite sqrt_sqrt; lra).
        assert (Hp : 0 < sqrt (1 / 2 / 1)) by (apply sqrt_lt_R0; lra).
        set (w := sqrt _) in *. replace (1 / 10 / w * (1 / 10 / w)) with (1 / 100 / (w * w)) by (field; lra). rewrite Hq. lra. }
      fold zdisk. set (c := dk_cs zdisk (1 / 2)) in *.
      replace (c / (1 / 2) * (c / (1 / 2))) with (4 * (c * c)) by field. rewrite Ec. lra. }
  exists (fun _ _ _ _ => HS 1 1 0 0 0). intros h bx t x y z.
  destruct (Rlt_dec ((ymin bx + ymax bx) / 2) y) as [H|H]; [left|right]; (split; [exact H|]);
    rewrite rayleigh_static by reflexivity; cbn; f_equal; ring.
Qed.
