(** The HLLD solver: order of the waves, supersonic flow, mirror image. *)
From Coq Require Import ZArith Bool Reals Lra Psatz List.
From Verif Require Import Arith HydroState MhdState MhdRiemann MhdPoint MhdSpec MhdPhysics MhdFlux HllcProofs RiemannProofs MhdFanSpec MhdFan MhdFan2.
Import ListNotations.
Open Scope R_scope.

Definition mreg (r : region) : region := Region (mhd_mirror (rU r)) (mhd_mirror_flux (rF r)).
Lemma mreg_hreg a r u v w b c pt et vb : mreg (hreg a r u v w b c pt et vb) = hreg (- a) r (- u) v w b c pt et vb.
Proof. unfold mreg, hreg, mhd_mirror, mhd_mirror_flux, hlld_flux. cbn. f_equal; f_equal; ring. Qed.

Lemma jump0 l r : jump 0 l r -> rF l = rF r.
Proof. intros (H1 & H2 & H3 & H4 & H5 & H6 & H7 & H8). apply ms_eq; lra. Qed.
Lemma fan5_mirror l r1 r2 r3 r4 r5 s1 s2 s3 s4 s5 :
  s1 <= s2 -> s2 <= s3 -> s3 <= s4 -> s4 <= s5 -> fan_ok l [(s1, r1); (s2, r2); (s3, r3); (s4, r4); (s5, r5)] ->
  fan_flux (mreg r5) [(- s5, mreg r4); (- s4, mreg r3); (- s3, mreg r2); (- s2, mreg r1); (- s1, mreg l)]
  = mhd_mirror_flux (fan_flux l [(s1, r1); (s2, r2); (s3, r3); (s4, r4); (s5, r5)]).
Proof.
  intros O1 O2 O3 O4 (J1 & J2 & J3 & J4 & J5 & _).
  assert (E1 : s1 = 0 -> rF l = rF r1) by (intros ->; apply jump0; auto).
  assert (E2 : s2 = 0 -> rF r1 = rF r2) by (intros ->; apply jump0; auto).
  assert (E3 : s3 = 0 -> rF r2 = rF r3) by (intros ->; apply jump0; auto).
  assert (E4 : s4 = 0 -> rF r3 = rF r4) by (intros ->; apply jump0; auto).
  assert (E5 : s5 = 0 -> rF r4 = rF r5) by (intros ->; apply jump0; auto).
  clear J1 J2 J3 J4 J5. unfold fan_flux.
  destruct (Rlt_dec 0 s1), (Rlt_dec 0 (- s1)); try lra;
  destruct (Rlt_dec 0 s2), (Rlt_dec 0 (- s2)); try lra;
  destruct (Rlt_dec 0 s3), (Rlt_dec 0 (- s3)); try lra;
  destruct (Rlt_dec 0 s4), (Rlt_dec 0 (- s4)); try lra;
  destruct (Rlt_dec 0 s5), (Rlt_dec 0 (- s5)); try lra;
  cbn [rF mreg]; f_equal;
  try (rewrite E1 by lra); try (rewrite E2 by lra); try (rewrite E3 by lra); try (rewrite E4 by lra); try (rewrite E5 by lra); reflexivity.
Qed.
Lemma fan5_right l r1 r2 r3 r4 r5 s1 s2 s3 s4 s5 :
  s1 <= s2 -> s2 <= s3 -> s3 <= s4 -> s4 <= s5 -> s5 <= 0 ->
  fan_flux l [(s1, r1); (s2, r2); (s3, r3); (s4, r4); (s5, r5)] = rF r5.
Proof. intros. unfold fan_flux. repeat (destruct Rlt_dec; [lra|]). reflexivity. Qed.

Lemma regular_mirror a s us r u : regular a s us r u -> regular (- a) (- s) (- us) r (- u).
Proof.
  unfold regular. replace (r * (- s - - u) * (- s - - us) - - a * - a) with (r * (s - u) * (s - us) - a * a) by ring.
  replace (- a * - a) with (a * a) by ring. auto.
Qed.
Lemma side_mirror a s us ps r u v w b c et pt vb : s - us <> 0 -> regular a s us r u ->
  hlld_side (- a) (- s) (- us) ps r (- u) v w b c et pt vb = hlld_side a s us ps r u v w b c et pt vb.
Proof.
  intros Hs Hr. rewrite !side_form; auto using regular_mirror. cbv zeta.
  replace (r * (- s - - u) * (- s - - us) - - a * - a) with (r * (s - u) * (s - us) - a * a) by ring.
  replace (r * (- s - - u) * (- s - - u) - - a * - a) with (r * (s - u) * (s - u) - a * a) by ring.
  replace (- a * b * (- us - - u)) with (a * b * (us - u)) by ring.
  replace (- a * c * (- us - - u)) with (a * c * (us - u)) by ring.
  set (E := r * (s - u) * (s - us) - a * a). set (e := r * (s - u) * (s - u) - a * a).
  set (vs := v - a * b * (us - u) / E). set (ws := w - a * c * (us - u) / E). set (bs := b * e / E). set (cs := c * e / E).
  replace (- us * - a) with (us * a) by ring. set (vbs := us * a + vs * bs + ws * cs).
  replace (r * (- s - - u) / (- s - - us)) with (r * (s - u) / (s - us)) by (field; lra).
  f_equal. field. lra.
Qed.

Section Core.
Variables a cf rl ul vl wl bl cl etl ptl vbl rr ur vr wr br cr etr ptr vbr : R.
Let sl := Rmin ul ur - cf.
Let sr := Rmax ul ur + cf.
Let rcl := rl * (ul - sl).
Let rcr := rr * (sr - ur).
Let us := (rcr * ur + rcl * ul + (ptl - ptr)) / (rcr + rcl).
Let ps := (rcr * ptl + rcl * ptr + rcl * rcr * (ul - ur)) / (rcr + rcl).
Hypothesis Hrl : 0 < rl.
Hypothesis Hrr : 0 < rr.
Hypothesis Hcl : 0 < ul - sl.
Hypothesis Hcr : 0 < sr - ur.
Hypothesis Hlo : sl < us.
Hypothesis Hhi : us < sr.
Hypothesis Hvl : vbl = ul * a + vl * bl + wl * cl.
Hypothesis Hvr : vbr = ur * a + vr * br + wr * cr.
Hypothesis HL : regular a sl us rl ul.
Hypothesis HR : regular a sr us rr ur.
Let dsl := rl * (ul - sl) / (us - sl).
Let dsr := rr * (sr - ur) / (sr - us).
Local Notation fan := (core_fan a cf rl ul vl wl bl cl etl ptl vbl rr ur vr wr br cr etr ptr vbr).
Let sideL := hlld_side a sl us ps rl ul vl wl bl cl etl ptl vbl.
Let sideR := hlld_side a sr us ps rr ur vr wr br cr etr ptr vbr.
Lemma ds_pos : 0 < dsl /\ 0 < dsr.
Proof. unfold dsl, dsr. split; (apply Rdiv_lt_0_compat; [apply Rmult_lt_0_compat|]; lra). Qed.
Lemma sq_L : xsq sideL = sqrt dsl.
Proof. unfold sideL. rewrite side_form by auto. cbv zeta. cbn [xsq]. f_equal. unfold dsl. field. lra. Qed.
Lemma sq_R : xsq sideR = sqrt dsr.
Proof. unfold sideR. rewrite side_form by auto. reflexivity. Qed.
Lemma core_speeds : map fst fan = [sl; us - Rabs a / sqrt dsl; us; us + Rabs a / sqrt dsr; sr].
Proof.
  unfold core_fan. cbn [map fst]. fold sl sr rcl rcr. fold us ps. fold sideL sideR.
  rewrite sq_L, sq_R. unfold dir. do 2 f_equal; [ring|]. do 2 f_equal. ring.
Qed.
Lemma root_le (x y m : R) : 0 < m -> 0 < y -> x * x < m * (y * y) -> Rabs x / sqrt m <= y.
Proof.
  intros Hm Hy H. assert (Q : 0 < sqrt m) by (apply sqrt_lt_R0; auto). pose proof (sqrt_sqrt m (Rlt_le _ _ Hm)) as QQ.
  apply Rmult_le_reg_r with (sqrt m); [auto|]. replace (Rabs x / sqrt m * sqrt m) with (Rabs x) by (field; lra).
  apply Rnot_lt_le. intros C. assert (X : Rabs x * Rabs x = x * x) by (rewrite <- Rabs_mult, Rabs_pos_eq; nra).
  assert (Y0 : 0 < y * sqrt m) by (apply Rmult_lt_0_compat; auto).
  assert (y * sqrt m * (y * sqrt m) < Rabs x * Rabs x) by (apply Rmult_le_0_lt_compat; lra).
  replace (y * sqrt m * (y * sqrt m)) with (sqrt m * sqrt m * (y * y)) in H0 by ring. rewrite QQ in H0. lra.
Qed.
Hypothesis InL : a * a < rl * (ul - sl) * (us - sl).
Hypothesis InR : a * a < rr * (sr - ur) * (sr - us).
Lemma inside_L : sl <= us - Rabs a / sqrt dsl.
Proof.
  destruct ds_pos as (D1 & D2). assert (Rabs a / sqrt dsl <= us - sl); [|lra]. apply root_le; [auto|lra|].
  unfold dsl. replace (rl * (ul - sl) / (us - sl) * ((us - sl) * (us - sl))) with (rl * (ul - sl) * (us - sl)) by (field; lra). auto.
Qed.
Lemma inside_R : us + Rabs a / sqrt dsr <= sr.
Proof.
  destruct ds_pos as (D1 & D2). assert (Rabs a / sqrt dsr <= sr - us); [|lra]. apply root_le; [auto|lra|].
  unfold dsr. replace (rr * (sr - ur) / (sr - us) * ((sr - us) * (sr - us))) with (rr * (sr - ur) * (sr - us)) by (field; lra). auto.
Qed.
Lemma middle_order : us - Rabs a / sqrt dsl <= us <= us + Rabs a / sqrt dsr.
Proof.
  destruct ds_pos as (D1 & D2). pose proof (sqrt_lt_R0 _ D1). pose proof (sqrt_lt_R0 _ D2). pose proof (Rabs_pos a).
  assert (0 <= Rabs a / sqrt dsl) by (apply Rmult_le_pos; [auto|]; left; apply Rinv_0_lt_compat; auto).
  assert (0 <= Rabs a / sqrt dsr) by (apply Rmult_le_pos; [auto|]; left; apply Rinv_0_lt_compat; auto). lra.
Qed.
Lemma core_right l : sr <= 0 -> fan_flux l fan = hlld_flux a rr ur vr wr br cr ptr etr vbr.
Proof.
  intros H. pose proof core_speeds as CS. pose proof inside_L. pose proof inside_R. pose proof middle_order as (M1 & M2).
  unfold core_fan in CS |- *. cbn [map fst] in CS. unfold fan_flux.
  fold sl sr rcl rcr in CS |- *. fold us ps in CS |- *. fold sideL sideR in CS |- *. assert (E1 := f_equal (fun l => nth 1 l 0) CS). assert (E2 := f_equal (fun l => nth 3 l 0) CS). cbn [nth] in E1, E2. rewrite E1, E2.
  repeat (destruct Rlt_dec; [lra|]). reflexivity.
Qed.

Let slm := Rmin (- ur) (- ul) - cf.
Let srm := Rmax (- ur) (- ul) + cf.
Let rclm := rr * (- ur - slm).
Let rcrm := rl * (srm - - ul).
Let usm := (rcrm * - ul + rclm * - ur + (ptr - ptl)) / (rcrm + rclm).
Let psm := (rcrm * ptr + rclm * ptl + rclm * rcrm * (- ur - - ul)) / (rcrm + rclm).
Lemma slm_eq : slm = - sr. Proof. unfold slm, sr. rewrite Rmin_opp, (Rmax_comm ur ul). ring. Qed.
Lemma srm_eq : srm = - sl. Proof. unfold srm, sl. rewrite Rmax_opp, (Rmin_comm ur ul). ring. Qed.
Lemma rclm_eq : rclm = rcr. Proof. unfold rclm, rcr. rewrite slm_eq. ring. Qed.
Lemma rcrm_eq : rcrm = rcl. Proof. unfold rcrm, rcl. rewrite srm_eq. ring. Qed.
Lemma usm_eq : usm = - us.
Proof. unfold usm, us. rewrite rclm_eq, rcrm_eq, (Rplus_comm rcl rcr). unfold Rdiv. ring. Qed.
Lemma psm_eq : psm = ps.
Proof. unfold psm, ps. rewrite rclm_eq, rcrm_eq, (Rplus_comm rcl rcr). unfold Rdiv. ring. Qed.

Lemma same_speeds_irrelevant l x1 x2 x3 x2' x3' r4 r5 s1 s s5 :
  fan_flux l [(s1, x1); (s, x2); (s, x3); (s, r4); (s5, r5)] = fan_flux l [(s1, x1); (s, x2'); (s, x3'); (s, r4); (s5, r5)].
Proof. unfold fan_flux. destruct (Rlt_dec 0 s1); [reflexivity|]. destruct (Rlt_dec 0 s); [reflexivity|]. reflexivity. Qed.

Lemma core_mirror : hlld_core (- a) cf rr (- ur) vr wr br cr etr ptr vbr rl (- ul) vl wl bl cl etl ptl vbl
  = mhd_mirror_flux (hlld_core a cf rl ul vl wl bl cl etl ptl vbl rr ur vr wr br cr etr ptr vbr).
Proof.
  rewrite !core_form.
  pose proof (core_fan_ok a cf rl ul vl wl bl cl etl ptl vbl rr ur vr wr br cr etr ptr vbr Hrl Hrr Hcl Hcr Hlo Hhi Hvl Hvr HL HR) as (OK & _).
  pose proof core_speeds as CS. pose proof inside_L as I1. pose proof inside_R as I2. pose proof middle_order as (M1 & M2).
  unfold core_fan in CS, OK |- *. cbn [map fst] in CS.
  fold sl sr rcl rcr in CS, OK |- *. fold us ps in CS, OK |- *. fold sideL sideR in CS, OK |- *. assert (E1 := f_equal (fun l => nth 1 l 0) CS). assert (E2 := f_equal (fun l => nth 3 l 0) CS). cbn [nth] in E1, E2. rewrite E1, E2 in OK |- *.
  fold slm srm rclm rcrm. fold usm psm. rewrite slm_eq, srm_eq, usm_eq, psm_eq. rewrite !Rabs_Ropp.
  rewrite (side_mirror a sr us ps rr ur) by (auto; lra). rewrite (side_mirror a sl us ps rl ul) by (auto; lra). fold sideL sideR.
  match type of OK with fan_ok _ [(_, ?r1); (_, ?r2); (_, ?r3); (_, ?r4); (_, ?r5)] =>
    pose proof (fan5_mirror _ r1 r2 r3 r4 r5 _ _ _ _ _ I1 M1 M2 I2 OK) as FM end.
  rewrite <- FM. clear FM. rewrite !mreg_hreg. rewrite sq_L, sq_R in OK |- *. set (ql := sqrt dsl). set (qr := sqrt dsr).
  assert (Q1 : 0 < ql) by (apply sqrt_lt_R0, ds_pos). assert (Q2 : 0 < qr) by (apply sqrt_lt_R0, ds_pos).
  replace (- us - dir true * (Rabs a / qr)) with (- (us + Rabs a / qr)) by (unfold dir; ring).
  replace (- us - dir false * (Rabs a / ql)) with (- (us - Rabs a / ql)) by (unfold dir; ring).
  destruct (Req_dec a 0) as [Z|Z].
  { rewrite Z, Rabs_R0. unfold Rdiv. rewrite !Rmult_0_l, Rplus_0_r, Rminus_0_r. apply same_speeds_irrelevant. }
  assert (SG : (if Rle_dec 0 (- a) then 1 else - (1)) = - (if Rle_dec 0 a then 1 else - (1))).
  { destruct (Rle_dec 0 (- a)), (Rle_dec 0 a); lra. }
  rewrite SG. set (sg := if Rle_dec 0 a then 1 else - (1)).
  assert (X1 : forall x y u v, (qr * x + ql * y + - sg * (u - v)) / (qr + ql) = (ql * y + qr * x + sg * (v - u)) / (ql + qr)) by (intros; field; lra).
  assert (X2 : forall x y u v, (qr * x + ql * y + - sg * qr * ql * (u - v)) / (qr + ql) = (ql * y + qr * x + sg * ql * qr * (v - u)) / (ql + qr)) by (intros; field; lra).
  rewrite !X1, !X2. clear X1 X2.
  set (vss := (ql * xv sideL + _ + _) / _). set (bss := (ql * xb sideR + _ + _) / _).
  set (wss := (ql * xw sideL + _ + _) / _). set (css := (ql * xc sideR + _ + _) / _).
  replace (- us * - a) with (us * a) by ring. set (vbss := us * a + vss * bss + wss * css).
  replace (xet sideR - dir true * (- sg * qr * (xvb sideR - vbss))) with (xet sideR - dir false * (sg * qr * (xvb sideR - vbss))) by (unfold dir; ring).
  replace (xet sideL - dir false * (- sg * ql * (xvb sideL - vbss))) with (xet sideL - dir true * (sg * ql * (xvb sideL - vbss))) by (unfold dir; ring).
  reflexivity.
Qed.
End Core.
