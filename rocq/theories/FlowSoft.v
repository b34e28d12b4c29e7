(** The rotating disk with a softened source, in 2D: the Euler equations on the x axis
    within the inner radius. *)
From Coq Require Import List Bool Reals Lra ZArith Lia.
From Coquelicot Require Import Coquelicot.
From Verif Require Import Arith HydroState Physics MhdInit HydroInit HydroInitSpec HydroInitProofs FlowSpec FlowExact FlowProblems FlowDisk.
Import ListNotations.
Local Open Scope R_scope.

Ltac req := match goal with |- @eq _ ?a ?b => change (@eq R a b) end.
Section Soft.
Variables (gam : R) (q : disk R) (so : source R).
Local Notation Rd := (dk_radius q).
Local Notation Ri := (dk_radius_inner q).
Local Notation GM := (ps_GM so).
Local Notation e := (ps_eps so).
Hypothesis Hq : dk_xc q = 0 /\ dk_yc q = 0.
Hypothesis Hp : ps_x so = 0 /\ ps_y so = 0 /\ ps_z so = 0.
Hypothesis HR : 0 < Rd.

(** Closed forms where no cap or switch acts. *)
Definition sft (x y : R) : R := sqrt (x * x + y * y + e * e).
Definition cin : R := dk_sound q / sqrt (Ri / Rd).
Definition rho_s (x y : R) : R := dk_density q * exp (- (5 / 2) * ln (sft x y / Rd)).
Definition om_s (x y : R) : R := GM / (sft x y * sft x y * sft x y) - 5 / 2 * (cin / sft x y * (cin / sft x y)).
Definition gas_s (x y : R) : hs R :=
  let v := sqrt (om_s x y) * sft x y in
  HS (rho_s x y) (cin * cin * rho_s x y) (- (y / radius x y * v)) (x / radius x y * v) 0.

Lemma raw_rho x y : radius x y < Ri -> radius x y < Rd ->
  dk_rho q so (dk_pos false q (Point x y 0)) = Rmax (rho_s x y) (/ 1000000).
Proof.
  intros Hi Hd. destruct Hq as [Qx Qy]. unfold dk_rho, dk_pos, dk_r, dk_soft, dk_sph. cbv zeta. cbn [px py pz]. rewrite Qx, Qy, !Rminus_0_r.
  rewrite Rmult_0_l, Rplus_0_r. fold (sft x y). replace (/ sft x y - / sft x y) with 0 by ring. rewrite Rmult_0_r, exp_0, Rmult_1_r.
  destruct (Rle_dec (Rmax (radius x y - Rd) (Rabs 0 - Rd / 2)) 0) as [_|H]; [reflexivity|].
  exfalso. apply H. rewrite Rabs_R0. apply Rmax_lub; lra.
Qed.
Lemma raw_om x y : radius x y < Ri -> dk_omega2 q so (dk_pos false q (Point x y 0)) = om_s x y.
Proof.
  intros Hi. destruct Hq as [Qx Qy]. unfold dk_omega2, dk_pos, dk_r, dk_soft. cbv zeta. cbn [px py pz]. rewrite Qx, Qy, !Rminus_0_r.
  fold (sft x y). destruct (Rlt_dec (radius x y) Ri); [|lra]. unfold om_s, dk_cs. rewrite Rmax_right by lra. reflexivity.
Qed.
Lemma pos_z x y z : dk_pos false q (Point x y z) = dk_pos false q (Point x y 0).
Proof. reflexivity. Qed.
Lemma gas_eq x y z : radius x y < Ri -> radius x y < Rd -> / 1000000 < rho_s x y -> 0 < om_s x y ->
  disk_gas false q so (Point x y z) = gas_s x y.
Proof.
  intros Hi Hd Hr Ho. unfold disk_gas. cbv zeta. rewrite pos_z, raw_rho, raw_om by assumption.
  rewrite !Rmax_left by lra. destruct Hq as [Qx Qy]. unfold dk_pos, dk_r, dk_soft, dk_cs. cbn [px py pz]. rewrite Qx, Qy, !Rminus_0_r.
  rewrite Rmax_right by lra. reflexivity.
Qed.

Lemma soft_unbalanced t x z a : e <> 0 -> 0 < x -> x < Ri -> x < Rd ->
  / 1000000 < dk_rho q so (dk_pos false q (Point x 0 z)) -> 0 < dk_omega2 q so (dk_pos false q (Point x 0 z)) ->
  prescribed_gravity false (HDisk q so) (Point x 0 z) a ->
  ~ solves gam a (fun _ x y z => disk_gas false q so (Point x y z)) t x 0 z.
Proof.
  intros He Hx Hi Hd Hrho Hom Ha Hs. rewrite pos_z in Hrho, Hom.
  assert (Er : radius x 0 = x) by (unfold radius; rewrite Rmult_0_l, Rplus_0_r; apply sqrt_square; lra).
  rewrite raw_om in Hom by lra. rewrite raw_rho in Hrho by lra.
  assert (Hrho' : / 1000000 < rho_s x 0).
  { revert Hrho. unfold Rmax. destruct Rle_dec; lra. }
  clear Hrho.
  assert (He2 : 0 < e * e) by (destruct (Rdichotomy _ _ He); nra).
  assert (Hsq : 0 < sft x 0) by (apply sqrt_lt_R0; nra).
  assert (Hax : 0 < x * x + 0 * 0 + e * e) by nra.
  assert (Hq0 : 0 < sft x 0 / Rd) by (apply Rdiv_lt_0_compat; lra).
  assert (Rx : ex_derive (fun x => radius x 0) x) by (unfold radius; auto_derive; nra).
  assert (Ry : ex_derive (fun y => radius x y) 0) by (unfold radius; auto_derive; nra).
  assert (Dx : ex_derive (fun x => rho_s x 0) x) by (unfold rho_s, sft in *; auto_derive; repeat split; assumption).
  assert (Dy : ex_derive (fun y => rho_s x y) 0) by (unfold rho_s, sft in *; auto_derive; repeat split; assumption).
  assert (N3 : sft x 0 * sft x 0 * sft x 0 <> 0) by (apply Rgt_not_eq; repeat apply Rmult_lt_0_compat; assumption).
  assert (N1 : sft x 0 <> 0) by lra.
  assert (Ox : ex_derive (fun x => om_s x 0) x) by (unfold om_s, sft in *; auto_derive; repeat split; assumption).
  assert (Oy : ex_derive (fun y => om_s x y) 0) by (unfold om_s, sft in *; auto_derive; repeat split; assumption).
  assert (S' : solves gam a (fun _ x y _ => gas_s x y) t x 0 z).
  { eapply solves_ext; [| | | |exact Hs]; cbv beta.
    - apply filter_forall. intros _. apply gas_eq; lra.
    - eapply filter_imp; [|apply filter_and; [apply (loc_lt _ _ _ Rx : radius x 0 < Ri -> _); lra|apply filter_and; [apply (loc_lt _ _ _ Rx : radius x 0 < Rd -> _); lra|
        apply filter_and; [apply (loc_gt _ _ _ Dx Hrho')|apply (loc_gt _ _ _ Ox Hom)]]]].
      intros u (U1 & U2 & U3 & U4). apply gas_eq; assumption.
    - eapply filter_imp; [|apply filter_and; [apply (loc_lt _ _ _ Ry : radius x 0 < Ri -> _); lra|apply filter_and; [apply (loc_lt _ _ _ Ry : radius x 0 < Rd -> _); lra|
        apply filter_and; [apply (loc_gt _ _ _ Dy Hrho')|apply (loc_gt _ _ _ Oy Hom)]]]].
      intros u (U1 & U2 & U3 & U4). apply gas_eq; assumption.
    - apply filter_forall. intros u. apply gas_eq; lra. }
  clear Hs. destruct (S' hU) as (dt & dx & dy & dz & Ht & Hdx & Hdy & Hdz & E); [cbn; auto|].
  assert (Et : dt = 0).
  { apply is_derive_unique in Ht. rewrite <- Ht. apply Derive_const. }
  assert (Ez : dz = 0).
  { apply is_derive_unique in Hdz. rewrite <- Hdz. apply Derive_const. }
  assert (Ex : dx = cin * cin * (rho_s x 0 * (- (5 / 2) * (x / (sft x 0 * sft x 0))))).
  { apply is_derive_unique in Hdx. rewrite <- Hdx. apply is_derive_unique.
    apply (is_derive_ext (fun x => cin * cin * rho_s x 0)).
    { intros u. unfold gas_s, euler_flux. cbn [hU hD hP]. unfold Rdiv. rewrite Rmult_0_l, Rmult_0_l, Ropp_0. req. ring. }
    unfold rho_s. unfold sft at 1. auto_derive.
    - unfold sft in Hq0. repeat split; assumption.
    - change (sqrt (x * x + 0 * 0 + e * e)) with (sft x 0). unfold Rdiv.
      generalize (exp (- (5 * / 2) * ln (sft x 0 * / Rd))). intros ex. field. split; lra. }
  set (G := fun y : R => - (rho_s x y * (x / radius x y * (sqrt (om_s x y) * sft x y)) * (/ radius x y * (sqrt (om_s x y) * sft x y)))).
  assert (DG : ex_derive G 0).
  { unfold G. 
    assert (D1 : ex_derive (fun y => / radius x y) 0) by (apply ex_derive_inv; [exact Ry|rewrite Er; lra]).
    assert (D2 : ex_derive (fun y => sqrt (om_s x y)) 0) by (apply (ex_derive_comp sqrt); [auto_derive; exact Hom|exact Oy]).
    assert (D3 : ex_derive (fun y => sft x y) 0) by (unfold sft; auto_derive; exact Hax).
    assert (D4 := ex_derive_mult _ _ _ D2 D3).
    apply @ex_derive_opp. apply ex_derive_mult; [apply ex_derive_mult; [exact Dy|]|].
    - apply ex_derive_mult; [unfold Rdiv; apply ex_derive_scal; exact D1|exact D4].
    - apply ex_derive_mult; [exact D1|exact D4]. }
  assert (Ey : dy = G 0).
  { apply is_derive_unique in Hdy. rewrite <- Hdy. apply is_derive_unique.
    apply (is_derive_ext (fun y => y * G y)).
    { intros u. unfold G, gas_s, flux_y, swap_y, euler_flux. cbn [hU hD hP hV hW]. unfold Rdiv. req. ring. }
    destruct DG as [l Dl]. clearbody G. clear - Dl. replace (G 0) with (1 * G 0 + 0 * l) by ring.
    apply (is_derive_mult (fun y : R => y) G 0 1 l); [apply @is_derive_id|exact Dl|intros; apply Rmult_comm]. }
  rewrite Et, Ez, Ex, Ey in E. clear - E Ha Hp Er Hx Hsq He2 Hom Hrho'.
  unfold G in E. rewrite Er in E.
  assert (V : sqrt (om_s x 0) * sqrt (om_s x 0) = om_s x 0) by (apply sqrt_sqrt; lra).
  unfold prescribed_gravity in Ha. cbn zeta in Ha. cbn [px py pz] in Ha. destruct Hp as (P1 & P2 & P3). rewrite P1, P2, P3 in Ha.
  replace (sqrt ((x - 0) * (x - 0) + (0 - 0) * (0 - 0) + (0 - 0) * (0 - 0) + e * e)) with (sft x 0) in Ha by (unfold sft; f_equal; ring).
  rewrite Ha in E. unfold gravity_source, gas_s in E. cbn [hU hD] in E.
  assert (S2 : sft x 0 * sft x 0 = x * x + e * e).
  { unfold sft. rewrite sqrt_sqrt by nra. ring. }
  assert (Om : om_s x 0 = GM / (sft x 0 * sft x 0 * sft x 0) - 5 / 2 * (cin / sft x 0 * (cin / sft x 0))) by reflexivity.
  set (o := om_s x 0) in *. set (w := sft x 0) in *. set (rho := rho_s x 0) in *. set (v := sqrt o) in *.
  assert (K : rho * o * (x - w * w / x) = 0).
  { transitivity (rho * (o * x) - rho * (v * v) * (w * w) / x); [rewrite V; field; lra|].
    transitivity (rho * ((GM / (w * w * w) - 5 / 2 * (cin / w * (cin / w))) * x) - rho * (v * v) * (w * w) / x); [rewrite <- Om; ring|].
    assert (E' : cin * cin * (rho * (- (5 / 2) * (x / (w * w)))) - rho * (v * v) * (w * w) / x = rho * (GM * (0 - x) / (w * w * w))).
    { rewrite <- E. field. split; lra. }
    replace (rho * (v * v) * (w * w) / x) with (cin * cin * (rho * (- (5 / 2) * (x / (w * w)))) - rho * (GM * (0 - x) / (w * w * w))) by lra.
    field. lra. }
  apply Rmult_integral in K. destruct K as [K|K].
  - assert (0 < rho * o) by (apply Rmult_lt_0_compat; lra). lra.
  - rewrite S2 in K. assert (x * (x - (x * x + e * e) / x) = 0) by (rewrite K; ring).
    assert (- (e * e) = 0); [|lra]. rewrite <- H. field. lra.
Qed.
End Soft.
