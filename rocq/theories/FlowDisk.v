(** The rotating disk as a solution of the Euler equations with gravity. *)
From Coq Require Import List Bool Reals Lra ZArith Lia.
From Coquelicot Require Import Coquelicot.
From Verif Require Import Arith HydroState Physics MhdInit HydroInit HydroInitSpec HydroInitProofs FlowSpec FlowExact FlowProblems.
Import ListNotations.
Local Open Scope R_scope.

Lemma const_derive (a x : R) : is_derive (fun _ : R => a) x 0.
Proof. apply @is_derive_const. Qed.

Section Closed.
Variable b3 : bool.
Variables gam K Rd GM : R.
Variable c2 : R -> R.
Variable om2 : R -> R -> R.
Hypothesis Hg : gam - 1 <> 0.
Hypothesis HR : 0 < Rd.
Definition zz (z : R) : R := if b3 then z else 0.
Definition hgt (s z : R) : R := sqrt (s + zz z * zz z).
Definition rho_c (s z : R) : R := K * exp (- (5 / 2) * ln (sqrt s / Rd)) * exp (GM / c2 s * (/ hgt s z - / sqrt s)).
Definition flow_c : flow := rot 0 0 0 0 rho_c (fun s z => c2 s * rho_c s z) (fun s z => sqrt (om2 s z)).
Variables (s z c2' om' : R).
Hypothesis Hs : 0 < s.
Hypothesis Hc : 0 < c2 s.
Hypothesis Dc : is_derive c2 s c2'.
Hypothesis Do : is_derive (fun s => om2 s z) s om'.
Hypothesis Ho : 0 < om2 s z.
Local Notation r := (sqrt s).
Local Notation h := (hgt s z).
Lemma r_pos : 0 < r. Proof. apply sqrt_lt_R0. exact Hs. Qed.
Lemma h_pos : 0 < h. Proof. apply sqrt_lt_R0. assert (0 <= zz z * zz z) by apply Rle_0_sqr. lra. Qed.
Lemma rho_derive : is_derive (fun s => rho_c s z) s
  (rho_c s z * (- (5 / 2) / (2 * s) - GM * c2' / (c2 s * c2 s) * (/ h - / r)
                + GM / c2 s * (- / (2 * (h * h * h)) + / (2 * (r * r * r))))).
Proof.
  assert (Hr := r_pos). assert (Hh := h_pos). assert (H2 : r * r = s) by (apply sqrt_sqrt; lra).
  unfold rho_c, hgt in *. set (Z := zz z * zz z) in *.
  auto_derive.
  - repeat split; try lra; try (eexists; exact Dc).
    + apply Rdiv_lt_0_compat; lra.
    + assert (0 <= Z) by apply Rle_0_sqr. lra.
  - change (fun x => c2 x) with c2. rewrite (is_derive_unique _ _ _ Dc).
    set (E1 := exp _). set (E2 := exp _). clearbody E1 E2. revert Hr Hh H2.
    generalize (sqrt (s + Z)). generalize (sqrt s). intros r h Hr Hh H2. rewrite <- H2.
    field. repeat split; try lra. rewrite H2. lra.
Qed.
Lemma rho_z : exists dz, is_derive (fun z => c2 s * rho_c s z) z dz /\ dz = rho_c s z * (if b3 then - (GM * z / (h * h * h)) else 0).
Proof.
  assert (Hr := r_pos). assert (Hh := h_pos).
  eexists. split; [|reflexivity].
  unfold rho_c, hgt, zz in *. destruct b3.
  - auto_derive.
    + repeat split; try lra. assert (0 <= z * z) by apply Rle_0_sqr. lra.
    + set (E1 := exp _). set (E2 := exp _). clearbody E1 E2. revert Hr Hh.
      generalize (sqrt (s + z * z)). generalize (sqrt s). intros r h Hr Hh. field. lra.
  - apply (is_derive_ext (fun _ => c2 s * (K * exp (- (5 / 2) * ln (r / Rd)) * exp (GM / c2 s * (/ sqrt (s + 0 * 0) - / r))))); [reflexivity|].
    match goal with |- is_derive _ _ ?v => replace v with 0 by ring end. apply const_derive.
Qed.
Lemma closed_solves t x y :
  x * x + y * y = s ->
  2 * (c2' - 5 / 4 * c2 s / s) - 2 * GM * c2' / c2 s * (/ h - / r) + GM / (r * r * r) = om2 s z ->
  solves gam (- (GM * x / (h * h * h)), - (GM * y / (h * h * h)), if b3 then - (GM * z / (h * h * h)) else 0) flow_c t x y z.
Proof.
  intros Ex Eo. destruct rho_z as (dz & Dz & Ez). assert (Hr := r_pos). assert (Hh := h_pos).
  assert (H2 : r * r = s) by (apply sqrt_sqrt; lra).
  set (X := x - 0 - 0 * t). set (Y := y - 0 - 0 * t).
  assert (EX : X = x) by (unfold X; ring). assert (EY : Y = y) by (unfold Y; ring).
  set (k := - (GM / (h * h * h))).
  apply (solves_eq gam (k * X, k * Y, if b3 then - (GM * z / (h * h * h)) else 0) _ flow_c); [reflexivity| |].
  { rewrite EX, EY. unfold k. f_equal. f_equal; field; lra. }
  assert (Es : X * X + Y * Y = s) by (rewrite EX, EY; exact Ex).
  eapply rotation_solves; cbv zeta; fold X Y; rewrite ?Es; [exact Hg|exact rho_derive| | |exact Dz| |exact Ez].
  - assert (Hp : is_derive (fun s => c2 s * rho_c s z) s (c2' * rho_c s z + c2 s *
      (rho_c s z * (- (5 / 2) / (2 * s) - GM * c2' / (c2 s * c2 s) * (/ h - / r)
                + GM / c2 s * (- / (2 * (h * h * h)) + / (2 * (r * r * r))))))).
    { eapply derive_to; [exact (prod_derive 0 _ _ _ _ _ Dc rho_derive)| |]; [intros; cbn beta; ring|reflexivity]. }
    exact Hp.
  - apply (is_derive_comp sqrt (fun s => om2 s z) s); [apply is_derive_Reals, derivable_pt_lim_sqrt; exact Ho|exact Do].
  - rewrite (sqrt_sqrt (om2 s z)) by lra. rewrite <- Eo. unfold k. set (ro := rho_c s z). clearbody ro. revert Hr Hh H2. generalize h. generalize r.
    intros r h Hr Hh H2. rewrite <- H2. rewrite <- H2 in Hc. field. repeat split; lra.
Qed.
End Closed.

(** ** The disk without softening, centred with its source on the origin *)
Section Disk.
Variable b3 : bool.
Variable gam : R.
Variable q : disk R.
Variable so : source R.
Hypothesis Hg : 1 < gam.
Hypothesis Hq : dk_xc q = 0 /\ dk_yc q = 0 /\ dk_zc q = 0.
Hypothesis Hso : ps_eps so = 0.
Hypothesis HR : 0 < dk_radius q.
Hypothesis Hcs : dk_sound q <> 0.
Local Notation Rd := (dk_radius q).
Local Notation Ri := (dk_radius_inner q).
Local Notation GM := (ps_GM so).
Local Notation zc := (zz b3).

(** Square of the sound speed and of the angular velocity. *)
Definition c2_out (s : R) : R := dk_sound q * dk_sound q * Rd / sqrt s.
Definition c2_in (s : R) : R := dk_sound q * dk_sound q * Rd / Ri.
Definition om2_out (s z : R) : R := GM / (s * hgt b3 s z) - 7 / 2 * (c2_out s / s).
Definition om2_in (s z : R) : R := GM / (s * sqrt s) - 5 / 2 * (c2_in s / s).
Lemma pos_point x y z : dk_pos b3 q (Point x y z) = Point x y (zc z).
Proof. destruct Hq as (H1 & H2 & H3). unfold dk_pos, zz. cbn [px py pz]. rewrite H1, H2, H3, !Rminus_0_r. reflexivity. Qed.
Lemma soft_point x y z : dk_soft so (Point x y z) = sqrt (x * x + y * y).
Proof. unfold dk_soft. rewrite Hso. f_equal. cbn [px py]. ring. Qed.
Lemma sph_point x y z : dk_sph so (Point x y (zc z)) = hgt b3 (x * x + y * y) z.
Proof. unfold dk_sph, hgt. rewrite Hso. f_equal. cbn [px py pz]. ring. Qed.

(** The body of the disk. *)
Definition body (s z : R) : Prop := sqrt s < Rd /\ Rabs (zc z) < Rd / 2.
Lemma rho_body c2 x y z : let s := x * x + y * y in
  0 < s -> body s z -> dk_cs q (sqrt s) * dk_cs q (sqrt s) = c2 s ->
  / 1000000 < rho_c b3 (dk_density q) Rd GM c2 s z ->
  dk_rho q so (Point x y (zc z)) = rho_c b3 (dk_density q) Rd GM c2 s z.
Proof.
  intros s Hs [Hb Hz] Ec Hm. unfold dk_rho. cbv zeta.
  change (dk_r (Point x y (zc z))) with (sqrt s). rewrite soft_point, sph_point. fold s. rewrite Ec. cbn [pz].
  destruct (Rle_dec (Rmax (sqrt s - Rd) (Rabs (zc z) - Rd / 2)) 0) as [H|H].
  - unfold Rpower. fold (rho_c b3 (dk_density q) Rd GM c2 s z). rewrite Rmax_left by lra. reflexivity.
  - exfalso. apply H. apply Rmax_lub; lra.
Qed.
Lemma disk_flow_eq c2 om2 x y z : let s := x * x + y * y in
  0 < s -> body s z -> dk_cs q (sqrt s) * dk_cs q (sqrt s) = c2 s ->
  / 1000000 < rho_c b3 (dk_density q) Rd GM c2 s z ->
  dk_omega2 q so (Point x y (zc z)) = om2 s z -> 0 < om2 s z ->
  disk_gas b3 q so (Point x y z) = flow_c b3 (dk_density q) Rd GM c2 om2 0 x y z.
Proof.
  intros s Hs Hb Ec Hm Eo Ho. assert (Hr : 0 < sqrt s) by (apply sqrt_lt_R0; exact Hs).
  unfold disk_gas, flow_c, rot. cbv zeta. rewrite pos_point. cbn [px py].
  replace (x - 0 - 0 * 0) with x by ring. replace (y - 0 - 0 * 0) with y by ring. fold s.
  change (dk_r (Point x y (zc z))) with (sqrt s). rewrite (rho_body c2 x y z Hs Hb Ec Hm), Ec, Eo, soft_point. fold s.
  rewrite Rmax_left by lra. f_equal; field; lra.
Qed.
Lemma gravity_point x y z : ps_x so = 0 /\ ps_y so = 0 /\ ps_z so = 0 ->
  let h := hgt b3 (x * x + y * y) z in
  prescribed_gravity b3 (HDisk q so) (Point x y z)
    (- (GM * x / (h * h * h)), - (GM * y / (h * h * h)), if b3 then - (GM * z / (h * h * h)) else 0).
Proof.
  intros (H1 & H2 & H3) h. unfold prescribed_gravity. cbv zeta. cbn [px py pz]. rewrite H1, H2, H3, Hso, !Rminus_0_r.
  replace (sqrt (x * x + y * y + (if b3 then z else 0) * (if b3 then z else 0) + 0 * 0)) with h.
  - unfold Rdiv. f_equal; [f_equal; ring|destruct b3; ring].
  - unfold h, hgt, zz. f_equal. ring.
Qed.

(** Agreement near a point. *)
Lemma solves_from c2 om2 t x y z a : let s := x * x + y * y in
  0 < s ->
  locally s (fun s => body s z /\ dk_cs q (sqrt s) * dk_cs q (sqrt s) = c2 s /\
     / 1000000 < rho_c b3 (dk_density q) Rd GM c2 s z /\ 0 < om2 s z /\
     forall x y, x * x + y * y = s -> dk_omega2 q so (Point x y (zc z)) = om2 s z) ->
  locally z (fun z => body s z /\ / 1000000 < rho_c b3 (dk_density q) Rd GM c2 s z /\ 0 < om2 s z /\
     dk_omega2 q so (Point x y (zc z)) = om2 s z) ->
  solves gam a (flow_c b3 (dk_density q) Rd GM c2 om2) t x y z ->
  solves gam a (fun _ x y z => disk_gas b3 q so (Point x y z)) t x y z.
Proof.
  intros s Hs Ls Lz Hf.
  assert (Ft : forall t x y z, flow_c b3 (dk_density q) Rd GM c2 om2 t x y z = flow_c b3 (dk_density q) Rd GM c2 om2 0 x y z).
  { clear. intros. unfold flow_c, rot. rewrite !Rmult_0_l. reflexivity. }
  assert (Hpos : locally s (fun s => 0 < s)) by (apply (open_gt 0 s Hs)).
  assert (L2 := filter_and _ _ Hpos Ls).
  destruct (locally_singleton _ _ Ls) as (S1 & S2 & S3 & S4 & S5).
  assert (Cx : continuous (fun x => x * x + y * y) x) by (apply @ex_derive_continuous; auto_derive; exact I).
  assert (Cy : continuous (fun y => x * x + y * y) y) by (apply @ex_derive_continuous; auto_derive; exact I).
  eapply solves_ext; [| | | |exact Hf].
  - apply filter_forall. intros u. rewrite Ft. symmetry. apply disk_flow_eq; auto.
  - eapply filter_imp; [|exact (Cx _ L2)]. intros u (U0 & U1 & U2 & U3 & U4 & U5). rewrite Ft. symmetry. apply disk_flow_eq; auto.
  - eapply filter_imp; [|exact (Cy _ L2)]. intros u (U0 & U1 & U2 & U3 & U4 & U5). rewrite Ft. symmetry. apply disk_flow_eq; auto.
  - eapply filter_imp; [|exact Lz]. intros u (U1 & U2 & U3 & U4). rewrite Ft. symmetry. apply disk_flow_eq; auto.
Qed.

Lemma cs_out s : 0 < s -> Ri <= sqrt s -> dk_cs q (sqrt s) * dk_cs q (sqrt s) = c2_out s.
Proof.
  intros Hs Hi. assert (Hr : 0 < sqrt s) by (apply sqrt_lt_R0; exact Hs). unfold dk_cs, c2_out. rewrite Rmax_left by lra.
  assert (Hx : 0 < sqrt s / Rd) by (apply Rdiv_lt_0_compat; lra).
  assert (Hy := sqrt_lt_R0 _ Hx). assert (Hw : sqrt (sqrt s / Rd) * sqrt (sqrt s / Rd) = sqrt s / Rd) by (apply sqrt_sqrt; lra).
  set (w := sqrt (sqrt s / Rd)) in *.
  replace (dk_sound q / w * (dk_sound q / w)) with (dk_sound q * dk_sound q / (w * w)) by (field; lra). rewrite Hw. field. lra.
Qed.
Lemma cs_in s : 0 < s -> sqrt s <= Ri -> dk_cs q (sqrt s) * dk_cs q (sqrt s) = c2_in s.
Proof.
  intros Hs Hi. assert (Hr : 0 < sqrt s) by (apply sqrt_lt_R0; exact Hs). unfold dk_cs, c2_in. rewrite Rmax_right by lra.
  assert (Hx : 0 < Ri / Rd) by (apply Rdiv_lt_0_compat; lra).
  assert (Hy := sqrt_lt_R0 _ Hx). assert (Hw : sqrt (Ri / Rd) * sqrt (Ri / Rd) = Ri / Rd) by (apply sqrt_sqrt; lra).
  set (w := sqrt (Ri / Rd)) in *.
  replace (dk_sound q / w * (dk_sound q / w)) with (dk_sound q * dk_sound q / (w * w)) by (field; lra). rewrite Hw. field. lra.
Qed.
Lemma om_out x y z : let s := x * x + y * y in 0 < s -> Ri <= sqrt s -> dk_omega2 q so (Point x y (zc z)) = om2_out s z.
Proof.
  intros s Hs Hi. assert (Hr : 0 < sqrt s) by (apply sqrt_lt_R0; exact Hs). assert (Hh := h_pos b3 s z Hs).
  unfold dk_omega2. cbv zeta. rewrite soft_point, sph_point. fold s. change (dk_r (Point x y (zc z))) with (sqrt s).
  destruct (Rlt_dec (sqrt s) Ri); [lra|]. unfold om2_out. rewrite <- (cs_out s Hs Hi).
  assert (H2 : sqrt s * sqrt s = s) by (apply sqrt_sqrt; lra). revert Hh Hr H2. generalize (hgt b3 s z). generalize (dk_cs q (sqrt s)). generalize (sqrt s).
  intros r c h Hh Hr H2. rewrite <- H2. field. lra.
Qed.
Lemma om_in x y z : let s := x * x + y * y in 0 < s -> sqrt s < Ri -> dk_omega2 q so (Point x y (zc z)) = om2_in s z.
Proof.
  intros s Hs Hi. assert (Hr : 0 < sqrt s) by (apply sqrt_lt_R0; exact Hs).
  unfold dk_omega2. cbv zeta. rewrite soft_point. fold s. change (dk_r (Point x y (zc z))) with (sqrt s).
  destruct (Rlt_dec (sqrt s) Ri) as [_|Hn]; [|lra]. unfold om2_in. rewrite <- (cs_in s Hs) by lra.
  assert (H2 : sqrt s * sqrt s = s) by (apply sqrt_sqrt; lra). revert Hr H2. generalize (dk_cs q (sqrt s)). generalize (sqrt s).
  intros r c Hr H2. rewrite <- H2. field. lra.
Qed.
Lemma cs_pos : 0 < dk_sound q * dk_sound q. Proof. destruct (Rdichotomy _ _ Hcs); nra. Qed.
Lemma sqrt_near s (r : R) : 0 < s -> r < sqrt s -> locally s (fun s => r < sqrt s).
Proof. intros Hs Hr. apply (loc_gt sqrt); auto. auto_derive. exact Hs. Qed.
Lemma sqrt_near' s (r : R) : 0 < s -> sqrt s < r -> locally s (fun s => sqrt s < r).
Proof. intros Hs Hr. apply (loc_lt sqrt); auto. auto_derive. exact Hs. Qed.
Lemma z_near z : Rabs (zc z) < Rd / 2 -> locally z (fun z => Rabs (zc z) < Rd / 2).
Proof.
  intros H. unfold zz in *. destruct b3; [|apply filter_forall; auto].
  apply Rabs_def2 in H. destruct H as [H1 H2].
  eapply filter_imp; [|apply filter_and; [apply (open_lt (Rd / 2) z H1)|apply (open_gt (- (Rd / 2)) z H2)]].
  intros u [U1 U2]. apply Rabs_def1; auto.
Qed.
Lemma rho_near_z c2 s z : 0 < s -> ex_derive (fun z => rho_c b3 (dk_density q) Rd GM c2 s z) z.
Proof.
  intros Hs. unfold rho_c, hgt, zz. destruct b3; [|eexists; apply @is_derive_const].
  assert (0 <= z * z) by apply Rle_0_sqr. auto_derive. repeat split; try lra. apply Rgt_not_eq, sqrt_lt_R0. lra.
Qed.

Theorem disk_solves t x y z a : let s := x * x + y * y in let r := sqrt s in
  ps_x so = 0 /\ ps_y so = 0 /\ ps_z so = 0 ->
  0 < r < Rd -> r <> Ri -> Rabs (zc z) < Rd / 2 ->
  / 1000000 < dk_rho q so (Point x y (zc z)) -> 0 < dk_omega2 q so (Point x y (zc z)) ->
  prescribed_gravity b3 (HDisk q so) (Point x y z) a ->
  solves gam a (fun _ x y z => disk_gas b3 q so (Point x y z)) t x y z.
Proof.
  intros s r Hp [Hr Hrd] Hri Hz Hrho Hom Ha.
  assert (Hs : 0 < s).
  { destruct (Rle_lt_dec s 0) as [H|H]; auto. unfold r in Hr. rewrite sqrt_neg_0 in Hr; lra. }
  assert (H2 : r * r = s) by (apply sqrt_sqrt; lra).
  assert (Ea : a = (- (GM * x / (hgt b3 s z * hgt b3 s z * hgt b3 s z)), - (GM * y / (hgt b3 s z * hgt b3 s z * hgt b3 s z)),
     if b3 then - (GM * z / (hgt b3 s z * hgt b3 s z * hgt b3 s z)) else 0)).
  { assert (K := gravity_point x y z Hp). cbv zeta in K. unfold prescribed_gravity in Ha, K. cbv zeta in Ha, K. fold s in K.
    rewrite K. exact Ha. }
  rewrite Ea. clear Ea Ha. assert (Hc2 := cs_pos). assert (Hh := h_pos b3 s z Hs).
  (* where the capped density is the uncapped one *)
  assert (Hraw : forall c2, dk_cs q r * dk_cs q r = c2 s -> / 1000000 < rho_c b3 (dk_density q) Rd GM c2 s z).
  { intros c2 Ec. revert Hrho. unfold dk_rho. cbv zeta.
    change (dk_r (Point x y (zc z))) with r. rewrite soft_point, sph_point. fold s. fold r. rewrite Ec. cbn [pz].
    destruct (Rle_dec (Rmax (r - Rd) (Rabs (zc z) - Rd / 2)) 0) as [H|H]; [|exfalso; apply H; apply Rmax_lub; lra].
    unfold Rpower. unfold r at 1 2. fold (rho_c b3 (dk_density q) Rd GM c2 s z).
    unfold Rmax. destruct (Rle_dec (rho_c b3 (dk_density q) Rd GM c2 s z) (/ 1000000)); lra. }
  destruct (Rlt_dec r Ri) as [Hi|Hi].
  - (* inside the inner radius *)
    assert (Ho := om_in x y z Hs Hi). fold s in Ho. rewrite Ho in Hom.
    assert (Hraw' := Hraw c2_in (cs_in s Hs (Rlt_le _ _ Hi))).
    assert (Hc : 0 < c2_in s) by (unfold c2_in; apply Rdiv_lt_0_compat; [apply Rmult_lt_0_compat; lra|lra]).
    assert (Dc : is_derive c2_in s 0) by apply const_derive.
    assert (Do : exists o', is_derive (fun s => om2_in s z) s o').
    { unfold om2_in, c2_in.
      eexists. apply Derive_correct. auto_derive. fold r. repeat split; try lra. apply Rgt_not_eq, Rmult_lt_0_compat; lra. }
    destruct Do as [o' Do].
    assert (Dr := rho_derive b3 (dk_density q) Rd GM c2_in HR s z 0 Hs Hc Dc).
    apply (solves_from c2_in om2_in t x y z _ Hs).
    + eapply filter_imp; [|apply filter_and; [apply (sqrt_near' s Ri Hs Hi)|apply filter_and; [apply (sqrt_near' s Rd Hs Hrd)|
        apply filter_and; [apply (loc_gt _ _ _ (ex_intro _ _ Dr) Hraw')|apply filter_and; [apply (loc_gt _ _ _ (ex_intro _ _ Do) Hom)|apply (open_gt 0 s Hs)]]]]].
      intros u (U1 & U2 & U3 & U4 & U5). split; [split; auto|]. split; [apply cs_in; auto; lra|]. split; [exact U3|]. split; [exact U4|].
      intros x' y' E. rewrite <- E. apply om_in; rewrite E; auto.
    + eapply filter_imp; [|apply filter_and; [apply (z_near z Hz)|apply (loc_gt _ _ _ (rho_near_z c2_in s z Hs) Hraw')]].
      intros u (U1 & U2). split; [split; auto|]. split; [exact U2|]. split; [exact Hom|]. apply om_in; auto.
    + apply (closed_solves b3 gam (dk_density q) Rd GM c2_in om2_in ltac:(lra) HR s z 0 o' Hs Hc Dc Do Hom t x y eq_refl).
      unfold om2_in. fold r. revert Hc. generalize (c2_in s). intros c Hc. clearbody r. rewrite <- H2. rewrite <- H2 in Hh.
      revert Hh. generalize (hgt b3 (r * r) z). intros h Hh. field. repeat split; lra.
  - assert (Hi' : Ri < r) by lra.
    assert (Ho := om_out x y z Hs (Rlt_le _ _ Hi')). fold s in Ho. rewrite Ho in Hom.
    assert (Hraw' := Hraw c2_out (cs_out s Hs (Rlt_le _ _ Hi'))).
    assert (Hc : 0 < c2_out s) by (unfold c2_out; apply Rdiv_lt_0_compat; [apply Rmult_lt_0_compat; lra|fold r; lra]).
    assert (Dc : is_derive c2_out s (- (c2_out s / (2 * s)))).
    { unfold c2_out. auto_derive; [fold r; repeat split; lra|]. fold r. clear - Hr H2. clearbody r. rewrite <- H2. field. lra. }
    assert (Do : exists o', is_derive (fun s => om2_out s z) s o').
    { unfold om2_out, c2_out, hgt in *. eexists. apply Derive_correct.
      assert (0 <= zc z * zc z) by apply Rle_0_sqr.
      auto_derive. fold r. repeat split; try lra. apply Rgt_not_eq, Rmult_lt_0_compat; lra. }
    destruct Do as [o' Do].
    assert (Dr := rho_derive b3 (dk_density q) Rd GM c2_out HR s z _ Hs Hc Dc).
    apply (solves_from c2_out om2_out t x y z _ Hs).
    + eapply filter_imp; [|apply filter_and; [apply (sqrt_near s Ri Hs Hi')|apply filter_and; [apply (sqrt_near' s Rd Hs Hrd)|
        apply filter_and; [apply (loc_gt _ _ _ (ex_intro _ _ Dr) Hraw')|apply filter_and; [apply (loc_gt _ _ _ (ex_intro _ _ Do) Hom)|apply (open_gt 0 s Hs)]]]]].
      intros u (U1 & U2 & U3 & U4 & U5). split; [split; auto|]. split; [apply cs_out; auto; lra|]. split; [exact U3|]. split; [exact U4|].
      intros x' y' E. rewrite <- E. apply om_out; rewrite E; auto; lra.
    + assert (Dz : ex_derive (fun z => om2_out s z) z).
      { unfold om2_out, hgt, zz in *. destruct b3; [|eexists; apply @is_derive_const].
        assert (0 <= z * z) by apply Rle_0_sqr. auto_derive. repeat split; try lra. apply Rgt_not_eq, Rmult_lt_0_compat; lra. }
      eapply filter_imp; [|apply filter_and; [apply (z_near z Hz)|apply filter_and; [apply (loc_gt _ _ _ (rho_near_z c2_out s z Hs) Hraw')|apply (loc_gt _ _ _ Dz Hom)]]].
      intros u (U1 & U2 & U3). split; [split; auto|]. split; [exact U2|]. split; [exact U3|]. apply om_out; auto. apply Rlt_le. exact Hi'.
    + apply (closed_solves b3 gam (dk_density q) Rd GM c2_out om2_out ltac:(lra) HR s z _ o' Hs Hc Dc Do Hom t x y eq_refl).
      unfold om2_out. fold r. revert Hc. generalize (c2_out s). intros c Hc. clearbody r. rewrite <- H2. rewrite <- H2 in Hh.
      revert Hh. generalize (hgt b3 (r * r) z). intros h Hh. field. repeat split; lra.
Qed.
End Disk.
