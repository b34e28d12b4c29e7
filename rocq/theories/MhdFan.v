(** The HLLD solver over the reals: jump conditions. *)
From Coq Require Import ZArith Bool Reals Lra Psatz List.
From Verif Require Import Arith HydroState MhdState MhdRiemann MhdPoint MhdSpec MhdPhysics MhdFlux HllcProofs MhdFanSpec.
Import ListNotations.
Open Scope R_scope.

(** Region with total pressure and energy given separately. *)
Definition hreg (a r u v w b c pt et vb : R) : region :=
  Region (MS r et (r * u) (r * v) (r * w) a b c) (hlld_flux a r u v w b c pt et vb).

Definition regular (a s us r u : R) : Prop :=
  r * (s - u) * (s - us) - a * a <> 0 /\
  (0 < a * a -> 1 / 100000000 < Rabs ((r * (s - u) * (s - us) - a * a) / (a * a) - 1)).
Lemma side_form a s us ps r u v w b c et pt vb : regular a s us r u ->
  let E := r * (s - u) * (s - us) - a * a in let e := r * (s - u) * (s - u) - a * a in
  let vs := v - a * b * (us - u) / E in let ws := w - a * c * (us - u) / E in
  let bs := b * e / E in let cs := c * e / E in let vbs := us * a + vs * bs + ws * cs in
  let rs := r * (s - u) / (s - us) in
  hlld_side a s us ps r u v w b c et pt vb
  = HStar rs vs ws bs cs vbs (((s - u) * et - pt * u + ps * us + a * (vb - vbs)) / (s - us)) (sqrt rs).
Proof.
  intros (H2 & H3). cbv zeta. unfold hlld_side. cbn [sub mul div ltb leb zero absv add sqr one lit RArith].
  assert (K : (if Rlt_dec 0 (a * a) then true else false) &&
     (if Rle_dec (Rabs ((r * (s - u) * (s - us) - a * a) / (a * a) - 1)) (IZR 1 / IZR 100000000) then true else false) = false).
  { destruct (Rlt_dec 0 (a * a)) as [P|]; [|reflexivity]. specialize (H3 P). destruct Rle_dec as [Q|]; [|reflexivity].
    exfalso. lra. }
  rewrite K. reflexivity.
Qed.
Lemma side_jump a s us ps r u v w b c et pt vb :
  s - us <> 0 -> ps = pt + r * (u - s) * (u - us) -> vb = u * a + v * b + w * c -> regular a s us r u ->
  let S := hlld_side a s us ps r u v w b c et pt vb in
  jump s (hreg a r u v w b c pt et vb) (hreg a (xr S) us (xv S) (xw S) (xb S) (xc S) ps (xet S) (xvb S)).
Proof.
  intros H1 Eps Evb HR S. unfold S. rewrite side_form by auto. clear S. destruct HR as (H2 & _). cbv zeta.
  set (vbs := us * a + _ + _). 
  unfold jump, hreg, hlld_flux. cbn [rU rF mD mP mU mV mW mA mB mC xr xv xw xb xc xet xvb]. cbn [add sub mul zero RArith].
  split; [field; auto|]. split; [field; auto|].
  split; [rewrite Eps; field; auto|].
  clear vbs. split; [|split; [|split; [ring|split]]]; field; auto.
Qed.

Lemma hreg_like a r u v w b c pt et vb : 0 < r -> vb = u * a + v * b + w * c -> mhd_like (hreg a r u v w b c pt et vb).
Proof.
  intros Hr Hv. split; [exact Hr|]. exists pt. unfold hreg, flux_with_pressure, hlld_flux. cbn [rU rF mD mP mU mV mW mA mB mC].
  cbn [add sub mul zero RArith]. rewrite Hv. f_equal; field; lra.
Qed.
Lemma jump_sym s l r : jump s l r -> jump s r l.
Proof. unfold jump. intros (H1 & H2 & H3 & H4 & H5 & H6 & H7 & H8). repeat split; lra. Qed.

(** Rotational waves: [sg] = +-1 is the sign of [a]. *)
Definition dir (left : bool) : R := if left then 1 else - 1.
Lemma alfven_jump a sg us ps r v w b c vs ws bs cs et vb vbs left :
  0 < r -> sg * Rabs a = a -> sg * sg = 1 ->
  sqrt r * (vs - v) = dir left * (sg * (bs - b)) -> sqrt r * (ws - w) = dir left * (sg * (cs - c)) ->
  jump (us - dir left * (Rabs a / sqrt r)) (hreg a r us v w b c ps et vb)
    (hreg a r us vs ws bs cs ps (et - dir left * (sg * sqrt r * (vb - vbs))) vbs).
Proof.
  intros Hr Ha Hs HV HW. set (d := dir left) in *.
  assert (Hd : d * d = 1) by (unfold d, dir; destruct left; ring). clearbody d.
  assert (Q : 0 < sqrt r) by (apply sqrt_lt_R0; auto). pose proof (sqrt_sqrt r (Rlt_le _ _ Hr)) as QQ.
  unfold jump, hreg, hlld_flux. cbn [rU rF mD mP mU mV mW mA mB mC]. cbn [add sub mul zero RArith].
  set (q := sqrt r) in *. set (al := Rabs a) in *. clearbody q al. subst r a.
  assert (V : vs = v + d * sg * (bs - b) / q) by (apply Rmult_eq_reg_l with q; [|lra]; replace (q * (v + d * sg * (bs - b) / q)) with (q * v + d * (sg * (bs - b))) by (field; lra); lra).
  assert (W : ws = w + d * sg * (cs - c) / q) by (apply Rmult_eq_reg_l with q; [|lra]; replace (q * (w + d * sg * (cs - c) / q)) with (q * w + d * (sg * (cs - c))) by (field; lra); lra).
  clear HV HW. subst vs ws.
  assert (D2 : d * (d * sg) = sg) by (rewrite <- Rmult_assoc, Hd; ring).
  assert (S2 : sg * (d * sg) = d) by (replace (sg * (d * sg)) with (d * (sg * sg)) by ring; rewrite Hs; ring).
  repeat split; try ring.
  - transitivity (us * (- (d * (sg * q * (vb - vbs)))) + sg * al * (vb - vbs)); [ring|].
    transitivity (us * (- (d * (sg * q * (vb - vbs)))) + d * (d * sg) * al * (vb - vbs)); [rewrite D2; ring|]. field. lra.
  - transitivity (q * us * (d * sg * (bs - b)) - sg * al * (bs - b)); [field; lra|].
    transitivity (q * us * (d * sg * (bs - b)) - d * (d * sg) * al * (bs - b)); [rewrite D2; ring|]. field; lra.
  - transitivity (q * us * (d * sg * (cs - c)) - sg * al * (cs - c)); [field; lra|].
    transitivity (q * us * (d * sg * (cs - c)) - d * (d * sg) * al * (cs - c)); [rewrite D2; ring|]. field; lra.
  - transitivity (us * (bs - b) - sg * (d * sg) * al * (bs - b) / q); [field; lra|]. rewrite S2. field; lra.
  - transitivity (us * (cs - c) - sg * (d * sg) * al * (cs - c) / q); [field; lra|]. rewrite S2. field; lra.
Qed.
Lemma contact_jump a us ps rl rr v w b c etl etr vb :
  jump us (hreg a rl us v w b c ps etl vb) (hreg a rr us v w b c ps etr vb).
Proof. unfold jump, hreg, hlld_flux. cbn. repeat split; ring. Qed.

(** Middle state. *)
Lemma middle_left sl sr vl vr bl br sg : sg * sg = 1 -> 0 < sl -> 0 < sr ->
  let vs := (sl * vl + sr * vr + sg * (br - bl)) / (sl + sr) in
  let bs := (sl * br + sr * bl + sg * sl * sr * (vr - vl)) / (sl + sr) in
  sl * (vs - vl) = dir true * (sg * (bs - bl)) /\ sr * (vs - vr) = dir false * (sg * (bs - br)).
Proof.
  intros Hs H1 H2 vs bs. unfold vs, bs, dir. split.
  - transitivity ((sl * (sr * (vr - vl) + sg * (br - bl))) / (sl + sr)); [field; lra|].
    transitivity ((sl * (sg * sg * sr * (vr - vl) + sg * (br - bl))) / (sl + sr)); [rewrite Hs; field; lra|]. field. lra.
  - transitivity ((sr * (sl * (vl - vr) + sg * (br - bl))) / (sl + sr)); [field; lra|].
    transitivity ((sr * (sg * sg * sl * (vl - vr) + sg * (br - bl))) / (sl + sr)); [rewrite Hs; field; lra|]. field. lra.
Qed.

(** riemann_hlld from the computation of the outer speeds on. *)
Definition hlld_core (a cf rl ul vl wl bl cl etl ptl vbl rr ur vr wr br cr etr ptr vbr : R) : ms R :=
  let sgnm := if leb 0 a then 1 else - (1) in
  let sl := Rmin ul ur - cf in
  let sr := Rmax ul ur + cf in
  let rcl := rl * (ul - sl) in
  let rcr := rr * (sr - ur) in
  let us := (rcr * ur + rcl * ul + (ptl - ptr)) / (rcr + rcl) in
  let ps := (rcr * ptl + rcl * ptr + rcl * rcr * (ul - ur)) / (rcr + rcl) in
  let L := hlld_side a sl us ps rl ul vl wl bl cl etl ptl vbl in
  let sal := us - Rabs a / xsq L in
  let R := hlld_side a sr us ps rr ur vr wr br cr etr ptr vbr in
  let sar := us + Rabs a / xsq R in
  let vss := (xsq L * xv L + xsq R * xv R + sgnm * (xb R - xb L)) / (xsq L + xsq R) in
  let wss := (xsq L * xw L + xsq R * xw R + sgnm * (xc R - xc L)) / (xsq L + xsq R) in
  let bss := (xsq L * xb R + xsq R * xb L + sgnm * xsq L * xsq R * (xv R - xv L)) / (xsq L + xsq R) in
  let css := (xsq L * xc R + xsq R * xc L + sgnm * xsq L * xsq R * (xw R - xw L)) / (xsq L + xsq R) in
  let vbss := us * a + vss * bss + wss * css in
  let etssl := xet L - sgnm * xsq L * (xvb L - vbss) in
  let etssr := xet R + sgnm * xsq R * (xvb R - vbss) in
  if ltb 0 sl then hlld_flux a rl ul vl wl bl cl ptl etl vbl
  else if ltb 0 sal then hlld_flux a (xr L) us (xv L) (xw L) (xb L) (xc L) ps (xet L) (xvb L)
  else if ltb 0 us then hlld_flux a (xr L) us vss wss bss css ps etssl vbss
  else if ltb 0 sar then hlld_flux a (xr R) us vss wss bss css ps etssr vbss
  else if ltb 0 sr then hlld_flux a (xr R) us (xv R) (xw R) (xb R) (xc R) ps (xet R) (xvb R)
  else hlld_flux a rr ur vr wr br cr ptr etr vbr.
Lemma hlld_is_core p (ql qr : ms R) :
  let a := / 2 * (mA ql + mA qr) in
  let L := with_P (with_A ql a) (iso_pressure p ql) in let Q := with_P (with_A qr a) (iso_pressure p qr) in
  let gam := gamma0 (mh p) in
  let en q := mP q * (1 / (gam - 1)) + / 2 * (mU q * mU q + mV q * mV q + mW q * mW q) * mD q + / 2 * (a * a + mB q * mB q + mC q * mC q) in
  let pt q := mP q + / 2 * (a * a + mB q * mB q + mC q * mC q) in
  let vb q := mU q * a + mV q * mB q + mW q * mC q in
  riemann_hlld p ql qr = hlld_core a (Rmax (find_speed_fast p CX L) (find_speed_fast p CX Q))
    (mD L) (mU L) (mV L) (mW L) (mB L) (mC L) (en L) (pt L) (vb L) (mD Q) (mU Q) (mV Q) (mW Q) (mB Q) (mC Q) (en Q) (pt Q) (vb Q).
Proof.
  cbv zeta. reflexivity.
Qed.

Section Core.
Variables a cf rl ul vl wl bl cl etl ptl vbl rr ur vr wr br cr etr ptr vbr : R.
Let sl := Rmin ul ur - cf.
Let sr := Rmax ul ur + cf.
Let rcl := rl * (ul - sl).
Let rcr := rr * (sr - ur).
Let us := (rcr * ur + rcl * ul + (ptl - ptr)) / (rcr + rcl).
Let ps := (rcr * ptl + rcl * ptr + rcl * rcr * (ul - ur)) / (rcr + rcl).
Let sideL := hlld_side a sl us ps rl ul vl wl bl cl etl ptl vbl.
Let sideR := hlld_side a sr us ps rr ur vr wr br cr etr ptr vbr.
Let sg := if Rle_dec 0 a then 1 else - (1).
Let ql_ := xsq sideL. Let qr_ := xsq sideR.
Let vss := (ql_ * xv sideL + qr_ * xv sideR + sg * (xb sideR - xb sideL)) / (ql_ + qr_).
Let wss := (ql_ * xw sideL + qr_ * xw sideR + sg * (xc sideR - xc sideL)) / (ql_ + qr_).
Let bss := (ql_ * xb sideR + qr_ * xb sideL + sg * ql_ * qr_ * (xv sideR - xv sideL)) / (ql_ + qr_).
Let css := (ql_ * xc sideR + qr_ * xc sideL + sg * ql_ * qr_ * (xw sideR - xw sideL)) / (ql_ + qr_).
Let vbss := us * a + vss * bss + wss * css.
Let outL := hreg a rl ul vl wl bl cl ptl etl vbl.
Let outR := hreg a rr ur vr wr br cr ptr etr vbr.
Let regL := hreg a (xr sideL) us (xv sideL) (xw sideL) (xb sideL) (xc sideL) ps (xet sideL) (xvb sideL).
Let regR := hreg a (xr sideR) us (xv sideR) (xw sideR) (xb sideR) (xc sideR) ps (xet sideR) (xvb sideR).
Let regLL := hreg a (xr sideL) us vss wss bss css ps (xet sideL - dir true * (sg * ql_ * (xvb sideL - vbss))) vbss.
Let regRR := hreg a (xr sideR) us vss wss bss css ps (xet sideR - dir false * (sg * qr_ * (xvb sideR - vbss))) vbss.
Definition core_fan := [(sl, regL); (us - dir true * (Rabs a / ql_), regLL); (us, regRR);
  (us - dir false * (Rabs a / qr_), regR); (sr, outR)].
Definition core_us := us.

Lemma core_form : hlld_core a cf rl ul vl wl bl cl etl ptl vbl rr ur vr wr br cr etr ptr vbr
  = fan_flux outL core_fan.
Proof.
  assert (Esg : (if leb 0 a then 1 else - (1)) = sg) by (unfold sg; cbn [leb RArith]; destruct (Rle_dec 0 a); reflexivity).
  unfold hlld_core. rewrite Esg. fold sl sr rcl rcr us ps sideL sideR ql_ qr_ vss wss bss css vbss.
  unfold core_fan, fan_flux.
  assert (EL : us - dir true * (Rabs a / ql_) = us - Rabs a / ql_) by (unfold dir; ring).
  assert (ER : us - dir false * (Rabs a / qr_) = us + Rabs a / qr_) by (unfold dir; ring).
  assert (EtL : xet sideL - dir true * (sg * ql_ * (xvb sideL - vbss)) = xet sideL - sg * ql_ * (xvb sideL - vbss)) by (unfold dir; ring).
  assert (EtR : xet sideR - dir false * (sg * qr_ * (xvb sideR - vbss)) = xet sideR + sg * qr_ * (xvb sideR - vbss)) by (unfold dir; ring).
  rewrite EL, ER. unfold regLL, regRR. rewrite EtL, EtR. cbn [ltb RArith].
  destruct (Rlt_dec 0 sl); [reflexivity|]. destruct (Rlt_dec 0 (us - _)); [reflexivity|]. destruct (Rlt_dec 0 us); [reflexivity|].
  destruct (Rlt_dec 0 (us + _)); [reflexivity|]. destruct (Rlt_dec 0 sr); reflexivity.
Qed.

Hypothesis Hrl : 0 < rl.
Hypothesis Hrr : 0 < rr.
Hypothesis Hcl : 0 < ul - sl.
Hypothesis Hcr : 0 < sr - ur.
Hypothesis Hlo : sl < us.
Hypothesis Hhi : us < sr.
Hypothesis Hvl : vbl = ul * a + vl * bl + wl * cl.
Hypothesis Hvr : vbr = ur * a + vr * br + wr * cr.
Hypothesis HL : regular a sl us rl ul.
Hypothesis HR : regular a sr us rr ur.

Lemma rcs : 0 < rcl /\ 0 < rcr.
Proof. unfold rcl, rcr. split; apply Rmult_lt_0_compat; auto. Qed.
Lemma psl : ps = ptl + rl * (ul - sl) * (ul - us).
Proof. destruct rcs. unfold ps, us. fold rcl. field. lra. Qed.
Lemma psr : ps = ptr + rr * (ur - sr) * (ur - us).
Proof. destruct rcs. unfold ps, us. replace (rr * (ur - sr)) with (- rcr) by (unfold rcr; ring). field. lra. Qed.
Lemma xr_pos : 0 < xr sideL /\ 0 < xr sideR /\ ql_ = sqrt (xr sideL) /\ qr_ = sqrt (xr sideR).
Proof.
  unfold ql_, qr_, sideL, sideR. rewrite !side_form by auto. cbv zeta. cbn [xr xsq]. repeat split; auto.
  - replace (rl * (sl - ul) / (sl - us)) with (rl * (ul - sl) / (us - sl)) by (field; lra). apply Rdiv_lt_0_compat; [apply Rmult_lt_0_compat|]; lra.
  - apply Rdiv_lt_0_compat; [apply Rmult_lt_0_compat|]; lra.
Qed.
Lemma sg_ok : sg * Rabs a = a /\ sg * sg = 1.
Proof. unfold sg. destruct (Rle_dec 0 a); split; try ring; [rewrite Rabs_pos_eq|rewrite Rabs_left]; lra. Qed.
Lemma core_fan_ok : fan_ok outL core_fan /\ last_region outL core_fan = outR.
Proof.
  destruct xr_pos as (Xl & Xr & El & Er). destruct sg_ok as (S1 & S2).
  assert (Ql : 0 < ql_) by (rewrite El; apply sqrt_lt_R0; auto). assert (Qr : 0 < qr_) by (rewrite Er; apply sqrt_lt_R0; auto).
  destruct (middle_left ql_ qr_ (xv sideL) (xv sideR) (xb sideL) (xb sideR) sg S2 Ql Qr) as (V1 & V2). fold vss bss in V1, V2.
  destruct (middle_left ql_ qr_ (xw sideL) (xw sideR) (xc sideL) (xc sideR) sg S2 Ql Qr) as (W1 & W2). fold wss css in W1, W2.
  assert (J1 : jump sl outL regL) by (apply side_jump; auto; [lra|apply psl]).
  assert (J5 : jump sr outR regR) by (apply side_jump; auto; [lra|apply psr]).
  unfold core_fan. cbn [fan_ok last_region]. split; [|reflexivity].
  split; [exact J1|]. split.
  { unfold regL, regLL. rewrite El in V1, W1 |- *. apply alfven_jump; auto. }
  split; [apply contact_jump|]. split.
  { apply jump_sym. unfold regR, regRR. rewrite Er in V2, W2 |- *. apply alfven_jump; auto. }
  split; [apply jump_sym; exact J5|exact I].
Qed.
Lemma core_like : Forall (fun w => mhd_like (snd w)) core_fan.
Proof.
  destruct xr_pos as (Xl & Xr & El & Er). unfold core_fan.
  assert (Vl : xvb sideL = us * a + xv sideL * xb sideL + xw sideL * xc sideL) by reflexivity.
  assert (Vr : xvb sideR = us * a + xv sideR * xb sideR + xw sideR * xc sideR) by reflexivity.
  repeat (constructor; [apply hreg_like; auto|]). constructor.
Qed.
(** Order of the inner waves. *)
Lemma core_inner : us - dir true * (Rabs a / ql_) <= us <= us - dir false * (Rabs a / qr_).
Proof.
  destruct xr_pos as (Xl & Xr & El & Er).
  assert (Ql : 0 < ql_) by (rewrite El; apply sqrt_lt_R0; auto). assert (Qr : 0 < qr_) by (rewrite Er; apply sqrt_lt_R0; auto).
  pose proof (Rabs_pos a). assert (0 <= Rabs a / ql_) by (apply Rmult_le_pos; [auto|]; left; apply Rinv_0_lt_compat; auto).
  assert (0 <= Rabs a / qr_) by (apply Rmult_le_pos; [auto|]; left; apply Rinv_0_lt_compat; auto). unfold dir. lra.
Qed.
End Core.

Section Hlld.
Variable p : mparams R.
Local Notation gam := (gamma0 (mh p)).
Hypothesis gam_pos : 1 < gam.
Lemma gas_hreg q : gas_region gam q = hreg (mA q) (mD q) (mU q) (mV q) (mW q) (mB q) (mC q) (total_pressure q) (mhd_energy gam q) (vdotB q).
Proof.
  unfold gas_region, hreg, hlld_flux, mhd_conservative, mhd_flux, total_pressure. cbn. f_equal; f_equal; ring.
Qed.
Lemma face_eq a q : with_P (with_A q a) (iso_pressure p q) = with_A (gas_state (cIso p) q) a.
Proof.
  unfold gas_state, iso_pressure. cbn [ltb zero RArith]. destruct (Rlt_dec 0 (cIso p)); destruct q; reflexivity.
Qed.

(** Fast speed against pressure and transverse field. *)
Lemma fast_strong q : 0 < mD q -> 0 < mP q -> let c := fast_speed gam q (mA q) in
  0 < c /\ mP q + (mB q * mB q + mC q * mC q) / 2 < mD q * (c * c).
Proof.
  intros Hd Hp. assert (Hg : 0 < gam * mP q) by (apply Rmult_lt_0_compat; lra).
  destruct (fast_speed_root p q (mA q) Hd Hg) as (C0 & Root & Ca & Cs); [unfold field2; nra|].
  cbv zeta. set (c := fast_speed gam q (mA q)) in *. split; [auto|].
  set (X := mD q * (c * c)). set (d := mD q) in *.
  assert (X0 : 0 < X) by (unfold X; apply Rmult_lt_0_compat; [auto|nra]).
  assert (R2 : (X - gam * mP q) * (X - mA q * mA q) = (mB q * mB q + mC q * mC q) * X).
  { assert (K : d * d * (c * c * (c * c) - (gam * mP q / d + field2 q / d) * (c * c) + gam * mP q / d * (mA q * mA q / d)) = 0) by (rewrite Root; ring).
    replace (d * d * (c * c * (c * c) - (gam * mP q / d + field2 q / d) * (c * c) + gam * mP q / d * (mA q * mA q / d)))
      with (X * X - (gam * mP q + field2 q) * X + gam * mP q * (mA q * mA q)) in K by (unfold X; field; lra).
    unfold field2 in K. lra. }
  assert (G1 : gam * mP q <= X).
  { unfold X. replace (gam * mP q) with (d * (gam * mP q / d)) by (field; lra). apply Rmult_le_compat_l; lra. }
  assert (G2 : mA q * mA q <= X).
  { unfold X. replace (mA q * mA q) with (d * (mA q * mA q / d)) by (field; lra). apply Rmult_le_compat_l; lra. }
  set (bt := mB q * mB q + mC q * mC q) in *. assert (B0 : 0 <= bt) by (unfold bt; nra).
  assert (GP : mP q < gam * mP q) by nra. set (aa := mA q * mA q) in *. assert (A0 : 0 <= aa) by (unfold aa; nra). set (gp := gam * mP q) in *.
  assert (bt <= X - gp); [|lra].
  destruct (Req_dec X aa) as [E|E].
  - rewrite E in R2 at 2. replace (aa - aa) with 0 in R2 by ring. rewrite Rmult_0_r in R2. assert (bt = 0) by (symmetry in R2; apply Rmult_integral in R2; lra). lra.
  - assert (0 < X - aa) by lra. assert (0 <= (X - gp - bt) * (X - aa)) by nra. nra.
Qed.

(** The contact lies strictly between the outer waves. *)
Lemma speeds_between L Q : 0 < mD L -> 0 < mD Q -> 0 < mP L -> 0 < mP Q -> mA L = mA Q ->
  0 < fastest_speed gam L Q /\ left_speed gam L Q < contact_speed_mhd gam L Q < right_speed gam L Q.
Proof.
  intros dL dQ pL pQ EA. destruct (fast_strong L dL pL) as (CL & SL). destruct (fast_strong Q dQ pQ) as (CQ & SQ). cbv zeta in *.
  set (C := fastest_speed gam L Q).
  assert (HL : fast_speed gam L (mA L) <= C) by apply Rmax_l. assert (HQ : fast_speed gam Q (mA Q) <= C) by apply Rmax_r.
  assert (C0 : 0 < C) by lra. split; [auto|].
  set (tl := mP L + (mB L * mB L + mC L * mC L) / 2) in *. set (tr := mP Q + (mB Q * mB Q + mC Q * mC Q) / 2) in *.
  assert (Tl : tl < mD L * (C * C)). { eapply Rlt_le_trans; [exact SL|]. apply Rmult_le_compat_l; [lra|]. nra. }
  assert (Tr : tr < mD Q * (C * C)). { eapply Rlt_le_trans; [exact SQ|]. apply Rmult_le_compat_l; [lra|]. nra. }
  assert (T0 : 0 < tl) by (unfold tl; nra). assert (T1 : 0 < tr) by (unfold tr; nra).
  assert (E : contact_speed_mhd gam L Q = cus (mD L) (mU L) tl (mD Q) (mU Q) tr C).
  { unfold contact_speed_mhd, cus, crl, crr, cSL, cSR, left_speed, right_speed. fold C. f_equal. unfold total_pressure, field2, tl, tr. rewrite EA. lra. }
  rewrite E. split; [apply cus_lo|apply cus_hi]; auto.
Qed.

Variables ql qr : ms R.
Let a := mean_field ql qr.
Let L := interface_state (cIso p) ql qr ql.
Let Q := interface_state (cIso p) ql qr qr.
Definition hlld_fan : list (R * region) := core_fan a (fastest_speed gam L Q) (mD L) (mU L) (mV L) (mW L) (mB L) (mC L)
  (mhd_energy gam L) (total_pressure L) (vdotB L) (mD Q) (mU Q) (mV Q) (mW Q) (mB Q) (mC Q) (mhd_energy gam Q) (total_pressure Q) (vdotB Q).

Hypothesis dl : 0 < mD ql.
Hypothesis dr : 0 < mD qr.
Hypothesis pl : 0 < mP (gas_state (cIso p) ql).
Hypothesis pr : 0 < mP (gas_state (cIso p) qr).

Lemma dL : 0 < mD L. Proof. unfold L, interface_state, gas_state. destruct Rlt_dec; cbn; auto. Qed.
Lemma dQ : 0 < mD Q. Proof. unfold Q, interface_state, gas_state. destruct Rlt_dec; cbn; auto. Qed.
Lemma pL : 0 < mP L. Proof. exact pl. Qed.
Lemma pQ : 0 < mP Q. Proof. exact pr. Qed.
Lemma aL : mA L = a. Proof. reflexivity. Qed.
Lemma aQ : mA Q = a. Proof. reflexivity. Qed.

Lemma form : riemann_hlld p ql qr = fan_flux (gas_region gam L) hlld_fan.
Proof.
  pose proof (hlld_is_core p ql qr) as H. cbv zeta in H. rewrite H. clear H.
  assert (EA : / 2 * (mA ql + mA qr) = a) by (unfold a, mean_field; lra). rewrite EA, !face_eq.
  change (with_A (gas_state (cIso p) ql) a) with L. change (with_A (gas_state (cIso p) qr) a) with Q.
  assert (EF : Rmax (find_speed_fast p CX L) (find_speed_fast p CX Q) = fastest_speed gam L Q).
  { rewrite !fast_speed_spec by (apply dL || apply dQ). reflexivity. }
  rewrite EF.
  assert (En : forall q, mA q = a -> mP q * (1 / (gam - 1)) + / 2 * (mU q * mU q + mV q * mV q + mW q * mW q) * mD q + / 2 * (a * a + mB q * mB q + mC q * mC q) = mhd_energy gam q).
  { intros q Eq. unfold mhd_energy, speed2, field2. rewrite Eq. field. lra. }
  assert (Pt : forall q, mA q = a -> mP q + / 2 * (a * a + mB q * mB q + mC q * mC q) = total_pressure q).
  { intros q Eq. unfold total_pressure, field2. rewrite Eq. field. }
  assert (Vb : forall q, mA q = a -> mU q * a + mV q * mB q + mW q * mC q = vdotB q).
  { intros q Eq. unfold vdotB. rewrite Eq. ring. }
  rewrite (En L), (En Q), (Pt L), (Pt Q), (Vb L), (Vb Q) by reflexivity.
  rewrite core_form, gas_hreg. reflexivity.
Qed.
Lemma outer_gap : 0 < mU L - left_speed gam L Q /\ 0 < right_speed gam L Q - mU Q.
Proof.
  destruct (speeds_between L Q dL dQ pL pQ eq_refl) as (C & _). unfold left_speed, right_speed.
  pose proof (Rmin_l (mU L) (mU Q)). pose proof (Rmax_r (mU L) (mU Q)). lra.
Qed.
Lemma reg_of s q us : regular a s us (mD q) (mU q) <-> 
  (mD q * (s - mU q) * (s - us) <> a * a /\ (0 < a * a -> 1 / 100000000 < Rabs ((mD q * (s - mU q) * (s - us) - a * a) / (a * a) - 1))).
Proof. unfold regular. split; intros (H & K); (split; [|exact K]); intros E; apply H; lra. Qed.
Hypothesis HR : regular_fan gam L Q.
Lemma hlld_fan_ok : Forall (fun w => mhd_like (snd w)) hlld_fan /\ fan_ok (gas_region gam L) hlld_fan /\ last_region (gas_region gam L) hlld_fan = gas_region gam Q.
Proof.
  rewrite !gas_hreg. destruct (speeds_between L Q dL dQ pL pQ eq_refl) as (C & S1 & S2). destruct outer_gap as (G1 & G2).
  destruct HR as (R1 & R2). unfold hlld_fan. rewrite aL, aQ. apply reg_of in R1, R2.
  split; [apply core_like|apply core_fan_ok]; auto; try exact dL; try exact dQ; try reflexivity.
Qed.
End Hlld.
