(** The initial flows of the test problems as solutions of the Euler equations. *)
From Coq Require Import List Bool Reals Lra ZArith Lia.
From Coquelicot Require Import Coquelicot.
From Verif Require Import Arith HydroState Physics MhdInit HydroInit HydroInitSpec HydroInitProofs FlowSpec FlowExact.
Import ListNotations.
Local Open Scope R_scope.

Lemma solves_eq gam a b (w w' : flow) t x y z : (forall t x y z, w t x y z = w' t x y z) -> a = b ->
  solves gam a w t x y z -> solves gam b w' t x y z.
Proof. intros H <-. apply solves_ext; apply filter_forall; intros; apply H. Qed.
Lemma loc_gt (f : R -> R) (x a : R) : ex_derive f x -> a < f x -> locally x (fun y => a < f y).
Proof.
  intros Hf Ha. apply ex_derive_continuous in Hf. exact (Hf (fun v => a < v) (open_gt a (f x) Ha)).
Qed.
Lemma loc_lt (f : R -> R) (x a : R) : ex_derive f x -> f x < a -> locally x (fun y => f y < a).
Proof.
  intros Hf Ha. apply ex_derive_continuous in Hf. exact (Hf (fun v => v < a) (open_lt a (f x) Ha)).
Qed.

(** ** Isentropic vortex, carried by the ambient flow *)
Section Vortex.
Variable gam : R.
Variable q : vortex R.
Hypothesis Hg : 1 < gam.
Hypothesis Hp : iv_p q = iv_rho q * iv_T q.
Hypothesis HT : 0 < iv_T q.
Let C := (gam - 1) * (iv_beta q * iv_beta q) / (8 * gam * (PI * PI)).
Let Ts s := iv_T q - C * exp (1 - s).
Lemma Ts_derive s : is_derive Ts s (C * exp (1 - s)).
Proof. unfold Ts. auto_derive; [exact I|unfold Rminus; ring]. Qed.
Lemma pow_derive e s : 0 < Ts s ->
  is_derive (fun s => Rpower (Ts s / iv_T q) e) s (e * (C * exp (1 - s)) / Ts s * Rpower (Ts s / iv_T q) e).
Proof.
  intros Ht. assert (Hd := Ts_derive s). unfold Rpower.
  auto_derive.
  - split; [eexists; exact Hd|]. split; [apply Rdiv_lt_0_compat; auto|exact I].
  - change (fun x => Ts x) with Ts. rewrite (is_derive_unique _ _ _ Hd). unfold Rdiv.
    set (E := exp (e * ln _)). field. lra.
Qed.
Lemma vortex_solves t x y z : 0 < vortex_T gam q (x - iv_u q * t) (y - iv_v q * t) ->
  solves gam no_gravity (fun t x y _ => vortex_gas gam q (x - iv_u q * t) (y - iv_v q * t)) t x y z.
Proof.
  intros Ht.
  set (X := x - iv_x q - iv_u q * t). set (Y := y - iv_y q - iv_v q * t). set (s := X * X + Y * Y).
  assert (Et : vortex_T gam q (x - iv_u q * t) (y - iv_v q * t) = Ts s).
  { unfold vortex_T, Ts, C. do 2 f_equal. f_equal. unfold s, X, Y. ring. }
  rewrite Et in Ht.
  apply (solves_eq gam (0 * X, 0 * Y, 0) no_gravity
     (rot (iv_x q) (iv_y q) (iv_u q) (iv_v q) (fun s _ => iv_rho q * Rpower (Ts s / iv_T q) (/ (gam - 1)))
        (fun s _ => iv_p q * Rpower (Ts s / iv_T q) (gam / (gam - 1))) (fun s _ => iv_beta q / (2 * PI) * exp ((1 - s) / 2)))).
  - clear. intros t x y z. unfold rot, vortex_gas. cbv zeta.
    replace (x - iv_u q * t - iv_x q) with (x - iv_x q - iv_u q * t) by ring.
    replace (y - iv_v q * t - iv_y q) with (y - iv_y q - iv_v q * t) by ring.
    set (X := x - _ - _). set (Y := y - _ - _).
    assert (Et : vortex_T gam q (x - iv_u q * t) (y - iv_v q * t) = Ts (X * X + Y * Y)).
    { unfold vortex_T, Ts, C. do 2 f_equal. f_equal. unfold X, Y. ring. }
    rewrite Et. reflexivity.
  - unfold no_gravity. rewrite !Rmult_0_l. reflexivity.
  - assert (HPI := PI_RGT_0).
    eapply rotation_solves; cbv zeta; fold X Y; fold s; [lra| | | | | |].
    + apply is_derive_scal. apply pow_derive. exact Ht.
    + apply is_derive_scal. apply pow_derive. exact Ht.
    + auto_derive; [exact I|reflexivity].
    + apply @is_derive_const.
    + replace (gam / (gam - 1)) with (/ (gam - 1) + 1) at 2 by (field; lra).
      rewrite Rpower_plus, Rpower_1 by (apply Rdiv_lt_0_compat; auto). rewrite Hp, Rplus_0_r.
      assert (Ee : exp (1 - s) = exp ((1 - s) / 2) * exp ((1 - s) / 2)) by (rewrite <- exp_plus; f_equal; field).
      rewrite Ee. set (E := exp _). set (W := Rpower _ _). unfold C. field. repeat split; lra.
    + rewrite Rmult_0_r. reflexivity.
Qed.
End Vortex.

Lemma glue (f g : R -> R) (a r : R) : continuity_pt f r -> continuity_pt g r -> (r = a -> f r = g r) ->
  continuity_pt (fun r => if Rlt_dec r a then f r else g r) r.
Proof.
  intros Hf Hg Ha. destruct (total_order_T r a) as [[H|H]|H].
  - apply (continuity_pt_ext_loc f); auto. eapply filter_imp; [|apply (open_lt a r H)]. intros u Hu. cbn beta in *. destruct (Rlt_dec u a); [reflexivity|contradiction].
  - intros eps He. destruct (Hf eps He) as (d1 & Hd1 & K1). destruct (Hg eps He) as (d2 & Hd2 & K2).
    exists (Rmin d1 d2). split; [apply Rmin_pos; auto|]. intros u [Hu1 Hu2].
    assert (U1 : R_dist u r < d1) by (eapply Rlt_le_trans; [exact Hu2|apply Rmin_l]).
    assert (U2 : R_dist u r < d2) by (eapply Rlt_le_trans; [exact Hu2|apply Rmin_r]).
    destruct (Rlt_dec r a); [lra|]. destruct (Rlt_dec u a).
    + rewrite <- (Ha H). apply K1. split; auto.
    + apply K2. split; auto.
  - apply (continuity_pt_ext_loc g); auto. eapply filter_imp; [|apply (open_gt a r H)]. intros u Hu. cbn beta in *. destruct (Rlt_dec u a); [lra|reflexivity].
Qed.
Lemma cont_derive (f : R -> R) (x : R) : ex_derive f x -> continuity_pt f x.
Proof. intros H. apply continuity_pt_filterlim. apply (ex_derive_continuous f x H). Qed.

(** ** Gresho vortex *)
Section Gresho.
Variable gam : R.
Variable q : gresho R.
Hypothesis Hg : 1 < gam.
Hypothesis Hw : gr_w q = 0.
Let p0 := gr_rho0 q / (gam * gr_Ma q * gr_Ma q).
Let om (s z : R) : R := if Rlt_dec s (/ 25) then 5 else if Rlt_dec s (4 / 25) then 2 / sqrt s - 5 else 0.
Let pr (s z : R) : R :=
  if Rlt_dec s (/ 25) then p0 + 25 / 2 * s
  else if Rlt_dec s (4 / 25) then p0 + 25 / 2 * s + 4 * (1 - 5 * sqrt s - ln (/ 5) + ln (sqrt s))
  else p0 - 2 + 4 * ln 2.
Lemma sq_lt s r : 0 <= s -> 0 < r -> (sqrt s < r <-> s < r * r).
Proof.
  intros Hs Hr. split; intros H.
  - rewrite <- (sqrt_sqrt s Hs). assert (H0 := sqrt_pos s). nra.
  - rewrite <- (sqrt_square r) by lra. apply sqrt_lt_1; nra.
Qed.
Lemma radius_sqrt x y : radius x y = sqrt (x * x + y * y).
Proof. reflexivity. Qed.
Lemma gresho_rot t x y z : gresho_gas gam q (Point (x - gr_u q * t) (y - gr_v q * t) z)
  = rot 0 0 (gr_u q) (gr_v q) (fun _ _ => gr_rho0 q) pr om t x y z.
Proof.
  unfold gresho_gas, rot. cbv zeta. cbn [px py]. rewrite Hw, !Rminus_0_r, radius_sqrt.
  set (X := x - gr_u q * t). set (Y := y - gr_v q * t). set (s := X * X + Y * Y).
  assert (Hs : 0 <= s) by (unfold s; nra). assert (Hs2 := sqrt_sqrt s Hs). assert (Hs0 := sqrt_pos s).
  assert (E1 := sq_lt s (/ 5) Hs). assert (E2 := sq_lt s (2 / 5) Hs).
  assert (K1 : sqrt s < / 5 <-> s < / 25) by (replace (/ 25) with (/ 5 * / 5) by lra; apply E1; lra).
  assert (K2 : sqrt s < 2 / 5 <-> s < 4 / 25) by (replace (4 / 25) with (2 / 5 * (2 / 5)) by lra; apply E2; lra).
  assert (Ep : gresho_pressure gam q (sqrt s) = pr s z).
  { unfold gresho_pressure, pr. cbv zeta. fold p0.
    replace (25 / 2 * sqrt s * sqrt s) with (25 / 2 * s) by (rewrite <- Hs2 at 1; ring).
    destruct (Rlt_dec (sqrt s) (/ 5)), (Rlt_dec s (/ 25)); try tauto.
    destruct (Rlt_dec (sqrt s) (2 / 5)), (Rlt_dec s (4 / 25)); try tauto. }
  assert (Eo : forall Z, (s = 0 -> Z = 0) -> Z / sqrt s * gresho_speed (sqrt s) = Z * om s z).
  { intros Z HZ. unfold gresho_speed, om.
    destruct (Rlt_dec (sqrt s) (/ 5)), (Rlt_dec s (/ 25)); try tauto.
    - destruct (Req_dec s 0) as [E|E]; [rewrite (HZ E); unfold Rdiv; ring|].
      field. intros H. apply E. rewrite <- Hs2, H. ring.
    - destruct (Rlt_dec (sqrt s) (2 / 5)), (Rlt_dec s (4 / 25)); try tauto; [|ring]. field. lra. }
  rewrite Ep, !Eo; [reflexivity| |]; intros E; unfold s in E; nra.
Qed.

(** The defect of the radial balance. *)
Lemma gresho_derivs s z : s <> / 25 -> s <> 4 / 25 ->
  exists p' o', is_derive (fun s => pr s z) s p' /\ is_derive (fun s => om s z) s o' /\ 2 * p' = om s z * om s z.
Proof.
  intros H1 H2. unfold pr, om.
  destruct (Rlt_dec s (/ 25)) as [A|A]; [|destruct (Rlt_dec s (4 / 25)) as [B|B]].
  - exists (25 / 2), 0. split; [|split].
    + apply (is_derive_ext_loc (fun s => p0 + 25 / 2 * s)).
      * eapply filter_imp; [|apply (open_lt (/ 25) s A)]. intros u Hu. cbn beta. destruct (Rlt_dec u (/ 25)); [reflexivity|contradiction].
      * auto_derive; [exact I|ring].
    + apply (is_derive_ext_loc (fun s => 5)).
      * eapply filter_imp; [|apply (open_lt (/ 25) s A)]. intros u Hu. cbn beta. destruct (Rlt_dec u (/ 25)); [reflexivity|contradiction].
      * apply @is_derive_const.
    + lra.
  - assert (A' : / 25 < s) by lra. assert (Hq : 0 < sqrt s) by (apply sqrt_lt_R0; lra). assert (Hs2 : sqrt s * sqrt s = s) by (apply sqrt_sqrt; lra).
    assert (L : locally s (fun u => / 25 < u /\ u < 4 / 25)).
    { apply filter_and; [apply (open_gt (/ 25) s A')|apply (open_lt (4 / 25) s B)]. }
    exists (25 / 2 + 4 * (- 5 * / (2 * sqrt s) + / (2 * s))), (- / (s * sqrt s)). split; [|split].
    + apply (is_derive_ext_loc (fun s => p0 + 25 / 2 * s + 4 * (1 - 5 * sqrt s - ln (/ 5) + ln (sqrt s)))).
      * eapply filter_imp; [|exact L]. intros u [U1 U2]. cbn beta.
        destruct (Rlt_dec u (/ 25)); [lra|]. destruct (Rlt_dec u (4 / 25)); [reflexivity|contradiction].
      * auto_derive; [repeat split; lra|]. revert Hq Hs2. generalize (sqrt s). intros r Hq Hs2. rewrite <- Hs2. field. lra.
    + apply (is_derive_ext_loc (fun s => 2 / sqrt s - 5)).
      * eapply filter_imp; [|exact L]. intros u [U1 U2]. cbn beta.
        destruct (Rlt_dec u (/ 25)); [lra|]. destruct (Rlt_dec u (4 / 25)); [reflexivity|contradiction].
      * auto_derive; [repeat split; lra|]. revert Hq Hs2. generalize (sqrt s). intros r Hq Hs2. rewrite <- Hs2. field. lra.
    + revert Hq Hs2. generalize (sqrt s). intros r Hq Hs2. rewrite <- Hs2. field. lra.
  - assert (B' : 4 / 25 < s) by lra. exists 0, 0. split; [|split].
    + apply (is_derive_ext_loc (fun s => p0 - 2 + 4 * ln 2)).
      * eapply filter_imp; [|apply (open_gt (4 / 25) s B')]. intros u Hu. cbn beta in *.
        destruct (Rlt_dec u (/ 25)); [lra|]. destruct (Rlt_dec u (4 / 25)); [lra|reflexivity].
      * apply @is_derive_const.
    + apply (is_derive_ext_loc (fun s => 0)).
      * eapply filter_imp; [|apply (open_gt (4 / 25) s B')]. intros u Hu. cbn beta in *.
        destruct (Rlt_dec u (/ 25)); [lra|]. destruct (Rlt_dec u (4 / 25)); [lra|reflexivity].
      * apply @is_derive_const.
    + lra.
Qed.
Lemma gresho_solves t x y z : gr_rho0 q = 1 ->
  let r := radius (x - gr_u q * t) (y - gr_v q * t) in r <> / 5 -> r <> 2 / 5 ->
  solves gam no_gravity (fun t x y z => gresho_gas gam q (Point (x - gr_u q * t) (y - gr_v q * t) z)) t x y z.
Proof.
  intros H1 r Ha Hb.
  set (X := x - 0 - gr_u q * t). set (Y := y - 0 - gr_v q * t). set (s := X * X + Y * Y).
  assert (Hs : 0 <= s) by (unfold s; nra).
  assert (Er : r * r = s) by (unfold r; rewrite radius_sq; unfold s, X, Y; ring).
  assert (Hr : 0 <= r) by apply sqrt_pos.
  destruct (gresho_derivs s z) as (p' & o' & D1 & D2 & E); [intros E; apply Ha; nra|intros E; apply Hb; nra|].
  apply (solves_eq gam (0 * X, 0 * Y, 0) no_gravity (rot 0 0 (gr_u q) (gr_v q) (fun _ _ => gr_rho0 q) pr om)).
  - intros. symmetry. apply gresho_rot.
  - unfold no_gravity. rewrite !Rmult_0_l. reflexivity.
  - eapply rotation_solves; cbv zeta; fold X Y; fold s; [lra| | | | | |].
    + apply @is_derive_const.
    + exact D1.
    + exact D2.
    + unfold pr. apply @is_derive_const.
    + rewrite H1, E. ring.
    + rewrite Rmult_0_r. reflexivity.
Qed.

Lemma gresho_unbalanced t x y z : gr_rho0 q <> 1 ->
  let X := x - gr_u q * t in let Y := y - gr_v q * t in
  0 < radius X Y < / 5 \/ / 5 < radius X Y < 2 / 5 ->
  ~ solves gam no_gravity (fun t x y z => gresho_gas gam q (Point (x - gr_u q * t) (y - gr_v q * t) z)) t x y z.
Proof.
  intros H1 X0 Y0 Hr Hs.
  set (X := x - 0 - gr_u q * t). set (Y := y - 0 - gr_v q * t). set (s := X * X + Y * Y).
  assert (Hs0 : 0 <= s) by (unfold s; nra).
  assert (Er : radius X0 Y0 * radius X0 Y0 = s) by (rewrite radius_sq; unfold s, X, Y, X0, Y0; ring).
  destruct (gresho_derivs s z) as (p' & o' & D1 & D2 & E); [nra|nra|].
  assert (Hs' : solves gam (0, 0, 0) (rot 0 0 (gr_u q) (gr_v q) (fun _ _ => gr_rho0 q) pr om) t x y z).
  { revert Hs. apply solves_eq; [|reflexivity]. intros. apply gresho_rot. }
  assert (N := rotation_needs gam 0 0 (gr_u q) (gr_v q) (fun _ _ => gr_rho0 q) pr om t x y z 0 p' o' 0 0 0 0).
  cbv zeta in N. fold X Y in N. fold s in N. destruct N as (N1 & N2 & _); auto; [lra|apply @is_derive_const|unfold pr; apply @is_derive_const|].
  rewrite !Rmult_0_r, E in N1, N2. set (o := om s z) in *.
  assert (Ho : o <> 0).
  { unfold o, om. destruct (Rlt_dec s (/ 25)); [lra|]. destruct (Rlt_dec s (4 / 25)) as [B|B]; [|nra].
    assert (Hq : 0 < sqrt s) by (apply sqrt_lt_R0; lra). assert (Hq2 : sqrt s * sqrt s = s) by (apply sqrt_sqrt; lra).
    assert (Hq3 : sqrt s < 2 / 5) by nra. apply Rgt_not_eq. replace (2 / sqrt s - 5) with ((2 - 5 * sqrt s) / sqrt s) by (field; lra).
    apply Rdiv_lt_0_compat; lra. }
  assert (Hf : o * o - gr_rho0 q * (o * o) <> 0).
  { replace (o * o - gr_rho0 q * (o * o)) with (o * o * (1 - gr_rho0 q)) by ring.
    apply Rmult_integral_contrapositive_currified; [apply Rmult_integral_contrapositive_currified; auto|lra]. }
  assert (EX : X = 0) by (apply Rmult_integral in N1; tauto). assert (EY : Y = 0) by (apply Rmult_integral in N2; tauto).
  assert (s = 0) by (unfold s; rewrite EX, EY; ring). nra.
Qed.

(** The profiles are continuous. *)
Lemma gresho_speed_continuous r : continuity_pt gresho_speed r.
Proof.
  unfold gresho_speed. apply (glue (fun r => 5 * r) (fun r => if Rlt_dec r (2 / 5) then 2 - 5 * r else 0)).
  - apply cont_derive. auto_derive. exact I.
  - apply (glue (fun r => 2 - 5 * r) (fun _ => 0)).
    + apply cont_derive. auto_derive. exact I.
    + apply cont_derive. auto_derive. exact I.
    + intros ->. lra.
  - intros ->. destruct (Rlt_dec (/ 5) (2 / 5)); lra.
Qed.
Lemma gresho_pressure_continuous r : 0 < r -> continuity_pt (gresho_pressure gam q) r.
Proof.
  intros Hr. unfold gresho_pressure. cbv zeta. fold p0.
  apply (glue (fun r => p0 + 25 / 2 * r * r)
    (fun r => if Rlt_dec r (2 / 5) then p0 + 25 / 2 * r * r + 4 * (1 - 5 * r - ln (/ 5) + ln r) else p0 - 2 + 4 * ln 2)).
  - apply cont_derive. auto_derive. exact I.
  - apply (glue (fun r => p0 + 25 / 2 * r * r + 4 * (1 - 5 * r - ln (/ 5) + ln r)) (fun _ => p0 - 2 + 4 * ln 2)).
    + apply cont_derive. auto_derive. lra.
    + apply cont_derive. auto_derive. exact I.
    + intros ->. replace (ln (2 / 5)) with (ln 2 + ln (/ 5)) by (rewrite <- ln_mult by lra; f_equal; lra). lra.
  - intros ->. destruct (Rlt_dec (/ 5) (2 / 5)); lra.
Qed.
End Gresho.

(** ** Gas at rest in a uniform gravity field *)
Lemma static_solves gam (d gx gy gz : R) t x y z : solves gam (gx, gy, gz)
  (fun _ x y z => HS d (1 + d * (gx * x + gy * y + gz * z)) 0 0 0) t x y z.
Proof.
  intros c Hc. repeat destruct Hc as [<-|Hc]; [| | | | |contradiction];
  unfold conservative, flux_y, flux_z, swap_y, swap_z, euler_flux, total_energy, gravity_source; cbn [hD hP hU hV hW].
  - exists 0, 0, 0, 0. refine (conj _ (conj _ (conj _ (conj _ _)))); [auto_derive; [exact I|ring]..|ring].
  - exists 0, 0, 0, 0. refine (conj _ (conj _ (conj _ (conj _ _)))); [auto_derive; [exact I|unfold Rdiv; ring]..|ring].
  - exists 0, (d * gx), 0, 0. refine (conj _ (conj _ (conj _ (conj _ _)))); [auto_derive; [exact I|ring]..|ring].
  - exists 0, 0, (d * gy), 0. refine (conj _ (conj _ (conj _ (conj _ _)))); [auto_derive; [exact I|ring]..|ring].
  - exists 0, 0, 0, (d * gz). refine (conj _ (conj _ (conj _ (conj _ _)))); [auto_derive; [exact I|ring]..|ring].
Qed.
Lemma rayleigh_static b3 bx (q : rayleigh R) P d : rt_amplitude q = 0 ->
  rt_gas b3 bx q P d = HS d (1 + d * (rt_gx q * px P + rt_gy q * py P + (if b3 then rt_gz q else 0) * pz P)) 0 0 0.
Proof.
  intros Ha. unfold rt_gas. cbv zeta.
  assert (Ev : rt_velocity bx q P = 0) by (unfold rt_velocity; rewrite Ha; unfold Rdiv; ring).
  rewrite Ev. destruct b3; f_equal; ring.
Qed.
Lemma bubble_static b3 (q : bubble R) P d :
  bubble_gas b3 q P d = HS d (1 + d * (rb_gx q * px P + rb_gy q * py P + (if b3 then rb_gz q else 0) * pz P)) 0 0 0.
Proof. unfold bubble_gas. destruct b3; f_equal; ring. Qed.

(** A region and its complement, each with its density: balance away from the interface. *)
Lemma two_static gam (A : R -> R -> R -> Prop) (d1 d0 gx gy gz : R) (w : flow) t x y z :
  (forall t x y z, (A x y z /\ w t x y z = HS d1 (1 + d1 * (gx * x + gy * y + gz * z)) 0 0 0)
     \/ (~ A x y z /\ w t x y z = HS d0 (1 + d0 * (gx * x + gy * y + gz * z)) 0 0 0)) ->
  (locally x (fun x => A x y z) /\ locally y (fun y => A x y z) /\ locally z (fun z => A x y z)) \/
  (locally x (fun x => ~ A x y z) /\ locally y (fun y => ~ A x y z) /\ locally z (fun z => ~ A x y z)) ->
  solves gam (gx, gy, gz) w t x y z.
Proof.
  intros Hw [(Lx & Ly & Lz)|(Lx & Ly & Lz)].
  - assert (K : forall t x y z, A x y z -> HS d1 (1 + d1 * (gx * x + gy * y + gz * z)) 0 0 0 = w t x y z)
      by (intros; destruct (Hw t0 x0 y0 z0) as [[_ H']|[H' _]]; [auto|contradiction]).
    eapply solves_ext; [| | | |apply (static_solves gam d1 gx gy gz)].
    + apply filter_forall. intros u. apply K. apply (locally_singleton _ _ Lx).
    + eapply filter_imp; [|exact Lx]. intros u Hu. apply K. exact Hu.
    + eapply filter_imp; [|exact Ly]. intros u Hu. apply K. exact Hu.
    + eapply filter_imp; [|exact Lz]. intros u Hu. apply K. exact Hu.
  - assert (K : forall t x y z, ~ A x y z -> HS d0 (1 + d0 * (gx * x + gy * y + gz * z)) 0 0 0 = w t x y z)
      by (intros; destruct (Hw t0 x0 y0 z0) as [[H' _]|[_ H']]; [contradiction|auto]).
    eapply solves_ext; [| | | |apply (static_solves gam d0 gx gy gz)].
    + apply filter_forall. intros u. apply K. apply (locally_singleton _ _ Lx).
    + eapply filter_imp; [|exact Lx]. intros u Hu. apply K. exact Hu.
    + eapply filter_imp; [|exact Ly]. intros u Hu. apply K. exact Hu.
    + eapply filter_imp; [|exact Lz]. intros u Hu. apply K. exact Hu.
Qed.
Lemma rayleigh_solves gam b3 h bx (q : rayleigh R) (w : flow) t x y z : rt_amplitude q = 0 ->
  (forall t x y z, prescribed b3 h bx (HRayleigh q) (Point x y z) (w t x y z)) ->
  (if b3 then z <> (zmin bx + zmax bx) / 2 else y <> (ymin bx + ymax bx) / 2) ->
  solves gam (rt_gx q, rt_gy q, if b3 then rt_gz q else 0) w t x y z.
Proof.
  intros Ha Hw Hi. apply (two_static gam (fun x y z => rt_above b3 bx (Point x y z)) (rt_d1 q) (rt_d0 q)).
  - intros t' x' y' z'. assert (H := Hw t' x' y' z'). cbn in H. unfold either in H. rewrite !rayleigh_static in H by auto. exact H.
  - unfold rt_above. cbn [px py pz]. destruct b3.
    + destruct (Rlt_dec ((zmin bx + zmax bx) / 2) z) as [H|H]; [left|right]; (split; [apply filter_forall; auto|]; split; [apply filter_forall; auto|]).
      * apply (open_gt _ z H).
      * eapply filter_imp; [|apply (open_lt ((zmin bx + zmax bx) / 2) z)]; [cbn; intros; lra|lra].
    + destruct (Rlt_dec ((ymin bx + ymax bx) / 2) y) as [H|H]; [left|right]; (split; [apply filter_forall; auto|]; split; [|apply filter_forall; auto]).
      * apply (open_gt _ y H).
      * eapply filter_imp; [|apply (open_lt ((ymin bx + ymax bx) / 2) y)]; [cbn; intros; lra|lra].
Qed.
Lemma bubble_solves gam b3 h bx (q : bubble R) (w : flow) t x y z : 0 < rb_R q ->
  (forall t x y z, prescribed b3 h bx (HBubble q) (Point x y z) (w t x y z)) ->
  dist2 b3 (Point x y z) (rb_x0 q) (rb_y0 q) (rb_z0 q) <> rb_R q * rb_R q ->
  solves gam (rb_gx q, rb_gy q, if b3 then rb_gz q else 0) w t x y z.
Proof.
  intros HR Hw Hi. apply (two_static gam (fun x y z => bubble_inside b3 q (Point x y z)) (rb_din q) (rb_dout q)).
  - intros t' x' y' z'. assert (H := Hw t' x' y' z'). cbn in H. unfold either in H. rewrite !bubble_static in H by auto. exact H.
  - assert (Hd : forall x y z, 0 <= dist2 b3 (Point x y z) (rb_x0 q) (rb_y0 q) (rb_z0 q)).
    { intros. unfold dist2. destruct b3; repeat apply Rplus_le_le_0_compat; try apply Rle_0_sqr; lra. }
    assert (HA : forall x y z, bubble_inside b3 q (Point x y z) <-> dist2 b3 (Point x y z) (rb_x0 q) (rb_y0 q) (rb_z0 q) < rb_R q * rb_R q).
    { intros. apply sq_lt; auto. }
    assert (Dx : ex_derive (fun x => dist2 b3 (Point x y z) (rb_x0 q) (rb_y0 q) (rb_z0 q)) x) by (unfold dist2; cbn [px py pz]; destruct b3; auto_derive; exact I).
    assert (Dy : ex_derive (fun y => dist2 b3 (Point x y z) (rb_x0 q) (rb_y0 q) (rb_z0 q)) y) by (unfold dist2; cbn [px py pz]; destruct b3; auto_derive; exact I).
    assert (Dz : ex_derive (fun z => dist2 b3 (Point x y z) (rb_x0 q) (rb_y0 q) (rb_z0 q)) z) by (unfold dist2; cbn [px py pz]; destruct b3; auto_derive; exact I).
    destruct (Rlt_dec (dist2 b3 (Point x y z) (rb_x0 q) (rb_y0 q) (rb_z0 q)) (rb_R q * rb_R q)) as [H|H].
    + left. split; [|split]; (eapply filter_imp; [intros u Hu; apply HA; exact Hu|]); [apply (loc_lt _ _ _ Dx H)|apply (loc_lt _ _ _ Dy H)|apply (loc_lt _ _ _ Dz H)].
    + right. assert (H' : rb_R q * rb_R q < dist2 b3 (Point x y z) (rb_x0 q) (rb_y0 q) (rb_z0 q)) by lra.
      split; [|split]; (eapply filter_imp; [intros u Hu Hb; apply HA in Hb; cbn beta in Hu; apply (Rlt_irrefl _ (Rlt_trans _ _ _ Hb Hu))|]);
        [apply (loc_gt _ _ _ Dx H')|apply (loc_gt _ _ _ Dy H')|apply (loc_gt _ _ _ Dz H')].
Qed.
