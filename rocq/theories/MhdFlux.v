(** Consistency of the MHD Riemann solvers, of the electromotive force and of the
    conversion to primitive variables, in exact arithmetic. *)
From Coq Require Import ZArith Bool Reals Lra Psatz List.
From Verif Require Import Arith HydroState MhdState MhdRiemann MhdPoint MhdSpec MhdPhysics.
Import ListNotations.
Open Scope R_scope.

Section F.
Variable p : mparams R.
Local Notation gam := (gamma0 (mh p)).

Lemma disc_pos d2 c2 x d b2 : d2 = / 2 * (b2 / d + c2) -> 0 < d -> x * x <= b2 -> 0 <= c2 ->
  0 <= d2 * d2 - c2 * x * x / d.
Proof.
  intros -> Hd Hx Hc. set (al := x * x / d). set (be := b2 / d).
  assert (H : al <= be). { unfold al, be, Rdiv. apply Rmult_le_compat_r; auto. left. apply Rinv_0_lt_compat; auto. }
  assert (Ha : 0 <= al). { unfold al, Rdiv. apply Rmult_le_pos; [apply Rle_0_sqr|]. left. apply Rinv_0_lt_compat; auto. }
  replace (c2 * x * x / d) with (c2 * al) by (unfold al; field; lra).
  pose proof (Rmult_le_pos c2 (be - al) Hc ltac:(lra)). pose proof (Rle_0_sqr (be - c2)). unfold Rsqr in *. lra.
Qed.

Lemma bcomp_le dir (q : ms R) : bcomp dir q * bcomp dir q <= field2 q.
Proof. unfold field2. destruct dir; cbn; nra. Qed.

Lemma fast_speed_spec dir q : 0 < mD q -> find_speed_fast p dir q = fast_speed gam q (bcomp dir q).
Proof.
  intros Hd. unfold find_speed_fast, fast_speed. cbn [sqr add mul div sub half RArith].
  set (x := bcomp dir q). f_equal. unfold field2. set (b2 := mA q * mA q + mB q * mB q + mC q * mC q).
  set (c2 := gam * mP q / mD q).
  replace ((c2 + b2 / mD q) * (c2 + b2 / mD q) - 4 * c2 * (x * x / mD q)) with
    ((2 * 2) * (/ 2 * (b2 / mD q + c2) * (/ 2 * (b2 / mD q + c2)) - c2 * x * x / mD q)) by (field; lra).
  rewrite R_sqrt.sqrt_mult_alt by lra. rewrite R_sqrt.sqrt_square by lra. field. lra.
Qed.

(** cf^2 is a root of the dispersion relation and no smaller than the Alfven and
    sound speeds. *)
Lemma fast_speed_root q x : 0 < mD q -> 0 < gam * mP q -> x * x <= field2 q ->
  let c := fast_speed gam q x in
  let cs2 := gam * mP q / mD q in
  0 < c /\ (c * c) * (c * c) - (cs2 + field2 q / mD q) * (c * c) + cs2 * (x * x / mD q) = 0 /\
  x * x / mD q <= c * c /\ cs2 <= c * c.
Proof.
  intros Hd Hp Hx c cs2. unfold c, fast_speed. fold cs2. set (ca2 := field2 q / mD q). set (al := x * x / mD q).
  assert (Hcs : 0 < cs2) by (apply Rdiv_lt_0_compat; auto).
  assert (Hi : 0 < / mD q) by (apply Rinv_0_lt_compat; auto).
  assert (H : al <= ca2) by (unfold al, ca2, Rdiv; apply Rmult_le_compat_r; lra).
  assert (Ha : 0 <= al) by (unfold al, Rdiv; apply Rmult_le_pos; [apply Rle_0_sqr|lra]).
  set (D := (cs2 + ca2) * (cs2 + ca2) - 4 * cs2 * al).
  pose proof (Rmult_le_pos cs2 (ca2 - al) ltac:(lra) ltac:(lra)) as Hm. pose proof (Rle_0_sqr (cs2 - ca2)) as Hq. unfold Rsqr in Hq.
  assert (HD : 0 <= D) by (unfold D; lra). pose proof (R_sqrt.sqrt_pos D) as Hs. pose proof (R_sqrt.sqrt_sqrt D HD) as E.
  set (r := R_sqrt.sqrt D) in *. set (X := (cs2 + ca2 + r) / 2).
  assert (HX : 0 < X) by (unfold X; lra).
  rewrite R_sqrt.sqrt_sqrt by lra. split; [apply R_sqrt.sqrt_lt_R0; auto|].
  assert (Root : X * X - (cs2 + ca2) * X + cs2 * al = 0) by (unfold X; replace ((cs2 + ca2 + r) / 2 * ((cs2 + ca2 + r) / 2) - (cs2 + ca2) * ((cs2 + ca2 + r) / 2) + cs2 * al) with ((r * r - D) / 4) by (unfold D; field); lra).
  split; auto. split.
  - assert (F : (al - X) * (al - (cs2 + ca2 - X)) = al * (al - ca2)).
    { replace ((al - X) * (al - (cs2 + ca2 - X))) with (al * (al - ca2) - (X * X - (cs2 + ca2) * X + cs2 * al)) by ring. rewrite Root. ring. }
    assert (N : al * (al - ca2) <= 0). { pose proof (Rmult_le_pos al (ca2 - al) Ha ltac:(lra)). lra. }
    destruct (Rle_dec al X); auto. exfalso.
    assert (0 < al - (cs2 + ca2 - X)) by (unfold X in *; lra).
    pose proof (Rmult_lt_0_compat (al - X) _ ltac:(lra) H0). lra.
  - assert (F : (cs2 - X) * (cs2 - (cs2 + ca2 - X)) = cs2 * (al - ca2)).
    { replace ((cs2 - X) * (cs2 - (cs2 + ca2 - X))) with (cs2 * (al - ca2) - (X * X - (cs2 + ca2) * X + cs2 * al)) by ring. rewrite Root. ring. }
    destruct (Rle_dec cs2 X); auto. exfalso.
    assert (0 < cs2 - (cs2 + ca2 - X)) by (unfold X in *; lra).
    pose proof (Rmult_lt_0_compat (cs2 - X) _ ltac:(lra) H0). lra.
Qed.

Lemma fast_pos dir q : 0 < mD q -> 0 < gam * mP q -> 0 < find_speed_fast p dir q.
Proof.
  intros Hd Hp. rewrite fast_speed_spec by auto. apply (fast_speed_root q (bcomp dir q) Hd Hp (bcomp_le dir q)).
Qed.

(** Strictly above the Alfven speed unless the field is normal and strong. *)
Lemma fast_alfven dir q : 0 < mD q -> 0 < gam * mP q ->
  bcomp dir q * bcomp dir q < field2 q \/ bcomp dir q * bcomp dir q < gam * mP q ->
  let c := find_speed_fast p dir q in bcomp dir q * bcomp dir q < mD q * (c * c).
Proof.
  intros Hd Hp Hor c. unfold c. rewrite fast_speed_spec by auto. set (x := bcomp dir q) in *.
  destruct (fast_speed_root q x Hd Hp (bcomp_le dir q)) as (C0 & Root & Ca & Cs). set (X := fast_speed gam q x * fast_speed gam q x) in *.
  set (cs2 := gam * mP q / mD q) in *. set (ca2 := field2 q / mD q) in *. set (al := x * x / mD q) in *.
  assert (Hcs : 0 < cs2) by (apply Rdiv_lt_0_compat; auto).
  assert (Hal : x * x = mD q * al) by (unfold al; field; lra).
  assert (Hca : field2 q = mD q * ca2) by (unfold ca2; field; lra).
  assert (Hcp : gam * mP q = mD q * cs2) by (unfold cs2; field; lra).
  assert (H0 : 0 <= al) by (unfold al; apply Rmult_le_pos; [apply Rle_0_sqr|left; apply Rinv_0_lt_compat; auto]).
  rewrite Hal in *. apply Rmult_lt_compat_l; auto.
  destruct (Req_dec al X) as [E|]; [exfalso|lra]. 
  rewrite <- E in Root. assert (R1 : al * (al - ca2) = 0) by (rewrite <- Root; ring).
  destruct Hor as [H|H].
  - rewrite Hca in H. apply Rmult_lt_reg_l in H; auto. apply Rmult_integral in R1. destruct R1; lra.
  - rewrite Hcp in H. apply Rmult_lt_reg_l in H; auto. lra.
Qed.

Lemma half_double x : / 2 * (x + x) = x. Proof. lra. Qed.

Lemma find_mhd_flux_spec q : 
  find_mhd_flux p q = (mhd_conservative gam (gas_state (cIso p) q), mhd_flux gam (gas_state (cIso p) q)).
Proof.
  unfold find_mhd_flux, mhd_conservative, mhd_flux, mhd_energy, gas_state, iso_pressure, vdotB, speed2, field2.
  cbn [ltb zero RArith add sub mul div one half].
  destruct (Rlt_dec 0 (cIso p)); cbn [with_P mD mP mU mV mW mA mB mC]; f_equal; f_equal; unfold Rdiv; ring.
Qed.

Lemma with_A_same q : with_A q (/ 2 * (mA q + mA q)) = q.
Proof. rewrite half_double. destruct q; reflexivity. Qed.

Lemma llf_equal q : riemann_llf_mhd p q q = mhd_flux gam (gas_state (cIso p) q).
Proof.
  unfold riemann_llf_mhd. cbn [half mul add RArith]. rewrite with_A_same, find_mhd_flux_spec.
  set (f := mhd_flux _ _). set (u := mhd_conservative _ _). cbn [sub div two RArith mul add].
  transitivity (MS (mD f) (mP f) (mU f) (mV f) (mW f) (mA f) (mB f) (mC f)); [|destruct f; reflexivity].
  f_equal; field.
Qed.

Lemma hll_equal q : 0 < mD q -> 0 < gam * mP q -> riemann_hll_mhd p q q = mhd_flux gam (gas_state (cIso p) q).
Proof.
  intros Hd Hp. unfold riemann_hll_mhd. cbn [half mul add RArith]. rewrite with_A_same, find_mhd_flux_spec.
  set (f := mhd_flux _ _). set (u := mhd_conservative _ _). pose proof (fast_pos CX q Hd Hp) as Hc.
  set (c := find_speed_fast p CX q) in *. cbn [sub div two RArith mul add minv maxv zero].
  replace (Rmin (mU q) (mU q)) with (mU q) by (unfold Rmin; destruct Rle_dec; auto).
  replace (Rmax (mU q) (mU q)) with (mU q) by (unfold Rmax; destruct Rle_dec; auto).
  replace (Rmax c c) with c by (unfold Rmax; destruct Rle_dec; auto).
  assert (H : 0 < Rmax (mU q + c) 0 - Rmin (mU q - c) 0).
  { pose proof (Rmax_l (mU q + c) 0). pose proof (Rmin_l (mU q - c) 0). lra. }
  set (sr := Rmax _ _) in *. set (sl := Rmin _ _) in *.
  transitivity (MS (mD f) (mP f) (mU f) (mV f) (mW f) (mA f) (mB f) (mC f)); [|destruct f; reflexivity].
  f_equal; field; lra.
Qed.

(** HLLD: the star state of equal states is the state itself. *)
Lemma hlld_side_equal a c u r v w b cc et pt vb : 0 < c -> (r * (c * c) <> a * a) -> vb = u * a + v * b + w * cc ->
  forall s, s = u - c \/ s = u + c ->
  hlld_side a s u pt r u v w b cc et pt vb = HStar r v w b cc vb et (R_sqrt.sqrt r).
Proof.
  intros Hc Hn -> s Hs. unfold hlld_side. cbn [sub mul div ltb leb zero absv add sqr one RArith].
  assert (Hsu : s - u <> 0) by (destruct Hs as [-> | ->]; lra).
  assert (He : r * (s - u) * (s - u) - a * a <> 0) by (destruct Hs as [-> | ->]; intros E; apply Hn; nra).
  set (e := r * (s - u) * (s - u) - a * a) in *.
  match goal with |- context [if ?k then v else _] => set (keep := k) end.
  assert (E1 : forall x y, (if keep then x else x - a * y * (u - u) / e) = x) by (intros; destruct keep; [reflexivity|field; auto]).
  assert (E2 : forall x, (if keep then x else x * e / e) = x) by (intros; destruct keep; [reflexivity|field; auto]).
  rewrite !E1, !E2.
  replace (r * (s - u) / (s - u)) with r by (field; auto).
  f_equal; field; auto.
Qed.

Lemma hlld_equal q : 0 < mD q -> 0 < gam -> 0 < mP (gas_state (cIso p) q) ->
  (mB q <> 0 \/ mC q <> 0 \/ mA q * mA q < gam * mP (gas_state (cIso p) q)) ->
  riemann_hlld p q q = mhd_flux gam (gas_state (cIso p) q).
Proof.
  intros Hd Hg Hp Hor. unfold riemann_hlld. cbn [half mul add RArith].
  assert (Eq : with_P (with_A q (/ 2 * (mA q + mA q))) (iso_pressure p q) = gas_state (cIso p) q).
  { rewrite with_A_same. unfold gas_state, iso_pressure. cbn [ltb zero mul RArith]. destruct q, (Rlt_dec 0 (cIso p)); reflexivity. }
  rewrite Eq. rewrite half_double.
  assert (E1 : mA (gas_state (cIso p) q) = mA q) by (unfold gas_state; destruct Rlt_dec; reflexivity).
  assert (E2 : mB (gas_state (cIso p) q) = mB q) by (unfold gas_state; destruct Rlt_dec; reflexivity).
  assert (E3 : mC (gas_state (cIso p) q) = mC q) by (unfold gas_state; destruct Rlt_dec; reflexivity).
  assert (E4 : mD (gas_state (cIso p) q) = mD q) by (unfold gas_state; destruct Rlt_dec; reflexivity).
  rewrite <- E1, <- E2, <- E3 in Hor. rewrite <- E4 in Hd. rewrite <- E1. clear Eq E1 E2 E3 E4.
  generalize dependent (gas_state (cIso p) q). intros z Hd Hp Hor. clear q.
  assert (Hgp : 0 < gam * mP z) by nra.
  pose proof (fast_pos CX z Hd Hgp) as Hc.
  assert (Hal : mA z * mA z < mD z * (find_speed_fast p CX z * find_speed_fast p CX z)).
  { apply (fast_alfven CX z Hd Hgp). unfold field2. cbn [bcomp]. destruct Hor as [H|[H|H]]; [left|left|right]; try lra; nra. }
  set (c := find_speed_fast p CX z) in *. cbv zeta. clearbody c.
  assert (EMax : forall x, Rmax x x = x) by (intros; unfold Rmax; destruct Rle_dec; auto).
  assert (EMin : forall x, Rmin x x = x) by (intros; unfold Rmin; destruct Rle_dec; auto).
  cbn [sub div mul add minv maxv zero one opp RArith]. rewrite EMax, EMin, EMax.
  destruct z as [r pr u v w a b cc]. cbn [mD mP mU mV mW mA mB mC] in *.
  assert (Hrc : 0 < r * c) by nra.
  set (et := pr * (1 / (gam - 1)) + / 2 * (u * u + v * v + w * w) * r + / 2 * (a * a + b * b + cc * cc)).
  set (pt := pr + / 2 * (a * a + b * b + cc * cc)).
  set (vb := u * a + v * b + w * cc).
  replace ((r * (u + c - u) * u + r * (u - (u - c)) * u + (pt - pt)) / (r * (u + c - u) + r * (u - (u - c)))) with u by (field; nra).
  replace ((r * (u + c - u) * pt + r * (u - (u - c)) * pt + r * (u - (u - c)) * (r * (u + c - u)) * (u - u)) / (r * (u + c - u) + r * (u - (u - c)))) with pt by (field; nra).
  rewrite (hlld_side_equal a c u r v w b cc et pt vb Hc) by (auto; lra).
  rewrite (hlld_side_equal a c u r v w b cc et pt vb Hc) by (auto; lra).
  cbn [xr xv xw xb xc xvb xet xsq]. pose proof (R_sqrt.sqrt_lt_R0 r Hd) as Hr. set (sr := R_sqrt.sqrt r) in *. clearbody sr.
  set (sg := if leb 0 a then 1 else - (1)).
  assert (M1 : forall x y, (sr * x + sr * x + sg * (y - y)) / (sr + sr) = x) by (intros; field; lra).
  assert (M2 : forall x y, (sr * x + sr * x + sg * sr * sr * (y - y)) / (sr + sr) = x) by (intros; field; lra).
  rewrite !M1, !M2.
  replace (et - sg * sr * (vb - (u * a + v * b + w * cc))) with et by (unfold vb; ring).
  replace (et + sg * sr * (vb - (u * a + v * b + w * cc))) with et by (unfold vb; ring).
  assert (G : hlld_flux a r u v w b cc pt et vb = mhd_flux gam (MS r pr u v w a b cc)).
  { unfold hlld_flux, mhd_flux, mhd_energy, vdotB, speed2, field2, pt, et, vb. cbn [sub div mul add zero RArith mD mP mU mV mW mA mB mC].
    unfold Rdiv. f_equal; ring. }
  fold vb. rewrite G.
  repeat match goal with |- (if ?b then _ else _) = _ => destruct b; auto end.
Qed.

Theorem mhd_consistent q junk : mriemann_ok p -> 0 < mD q -> 0 < gam -> 0 < mP q -> 0 < mP (gas_state (cIso p) q) ->
  (riemann_type (mh p) = RIEMANN_HLLD -> mB q <> 0 \/ mC q <> 0 \/ mA q * mA q < gam * mP (gas_state (cIso p) q)) ->
  riemann_mhd p q q junk = mhd_flux gam (gas_state (cIso p) q).
Proof.
  intros Hr Hd Hg Hp Hp' Hx. unfold riemann_mhd. destruct Hr as [<-|[<-|[E|[]]]]; cbn [Z.eqb Pos.eqb RIEMANN_HLLD RIEMANN_HLL RIEMANN_LLF].
  - apply hll_equal; auto. nra.
  - apply llf_equal.
  - rewrite <- E in *. cbn. apply hlld_equal; auto.
Qed.

(** Electromotive force of four equal states. *)
Lemma FMAX4_same (x : R) : FMAX4 x x x x = x.
Proof. unfold FMAX4, pickmax. cbn [ltb RArith]. repeat match goal with |- context [Rlt_dec ?y ?z] => destruct (Rlt_dec y z) end; auto. Qed.
Lemma FMIN4_same (x : R) : FMIN4 x x x x = x.
Proof. unfold FMIN4, pickmin. cbn [ltb RArith]. repeat match goal with |- context [Rlt_dec ?y ?z] => destruct (Rlt_dec y z) end; auto. Qed.
Lemma FMAX5_ge (a b c d e : R) : e <= FMAX5 a b c d e.
Proof. unfold FMAX5. set (m := pickmax (pickmax (pickmax a b) c) d). unfold pickmax. cbn [ltb RArith]. destruct (Rlt_dec m e); lra. Qed.

Lemma emf_equal d q : 0 < mD q -> 0 < gam -> 0 < mP (gas_state (cIso p) q) -> 0 < smallc (mh p) ->
  compute_emf p d q q q q = minus_vxB (rot_emf d q).
Proof.
  intros Hd Hg Hp Hs. unfold compute_emf. set (z := rot_emf d q).
  assert (Z1 : mD z = mD q) by (destruct d; reflexivity).
  assert (Z2 : iso_pressure p z = mP (gas_state (cIso p) q)).
  { unfold iso_pressure, gas_state, z. cbn [ltb zero mul RArith]. destruct (Rlt_dec 0 (cIso p)); destruct d; reflexivity. }
  rewrite <- Z1 in Hd. rewrite <- Z2 in Hp. clearbody z. clear Z1 Z2 q.
  cbn [half mul add RArith]. rewrite !half_double. set (y := with_P (with_B (with_A z (mA z)) (mB z)) (iso_pressure p z)).
  assert (Y : y = with_P z (iso_pressure p z)) by (unfold y; destruct z; reflexivity).
  cbv zeta. rewrite Y. assert (Hy : 0 < mP (with_P z (iso_pressure p z))) by (cbn; auto).
  assert (Hyd : 0 < mD (with_P z (iso_pressure p z))) by (cbn; auto).
  replace (minus_vxB z) with (minus_vxB (with_P z (iso_pressure p z))) by reflexivity.
  clear Y y. generalize dependent (with_P z (iso_pressure p z)). intros x Hx Hxd. clear z Hd Hp.
  unfold mag_riemann2d_hlld. cbv zeta.
  assert (Hgp : 0 < gam * mP x) by nra.
  pose proof (fast_pos CX x Hxd Hgp) as Hcx. pose proof (fast_pos CY x Hxd Hgp) as Hcy.
  set (m := mag_middle p x x x x).
  assert (HM : exists SL SR SB ST SAL SAR SAB SAT, m = MagMid SL SR SB ST SAL SAR SAB SAT
    (minus_vxB x) (minus_vxB x) (minus_vxB x) (minus_vxB x) (minus_vxB x) (minus_vxB x)
    (minus_vxB x) (minus_vxB x) (minus_vxB x) (minus_vxB x) (minus_vxB x) (minus_vxB x) (mA x) (mA x) (mB x) (mB x)
    /\ 0 < SAR - SAL /\ 0 < SAT - SAB).
  { unfold m, mag_middle. cbv zeta. rewrite !FMAX4_same, !FMIN4_same.
    set (cx := find_speed_fast p CX x) in *. set (cy := find_speed_fast p CY x) in *. clearbody cx cy.
    destruct x as [r pr u v w a b cc]. cbn [mD mP mU mV mW mA mB mC] in *. unfold minus_vxB. cbn [mD mP mU mV mW mA mB mC] in *.
    cbn [sub div mul add minv maxv zero one opp half RArith].
    set (pt := pr + / 2 * (a * a + b * b + cc * cc)).
    assert (U1 : (r * (u - (u - cx)) * u + r * (u - (u - cx)) * u + r * (u + cx - u) * u + r * (u + cx - u) * u + (pt - pt + pt - pt))
       / (r * (u - (u - cx)) + r * (u - (u - cx)) + r * (u + cx - u) + r * (u + cx - u)) = u) by (field; nra).
    assert (V1 : (r * (v - (v - cy)) * v + r * (v + cy - v) * v + r * (v - (v - cy)) * v + r * (v + cy - v) * v + (pt - pt + pt - pt))
       / (r * (v - (v - cy)) + r * (v + cy - v) + r * (v - (v - cy)) + r * (v + cy - v)) = v) by (field; nra).
    rewrite U1, V1.
    assert (W1 : forall y, y * (u - cx - u) / (u - cx - u) = y) by (intros; field; lra).
    assert (W2 : forall y, y * (u + cx - u) / (u + cx - u) = y) by (intros; field; lra).
    assert (W3 : forall y, y * (v - cy - v) / (v - cy - v) = y) by (intros; field; lra).
    assert (W4 : forall y, y * (v + cy - v) / (v + cy - v) = y) by (intros; field; lra).
    rewrite !W1, !W2, !W3, !W4.
    match goal with |- context [Rmin (u - ?x) 0] => set (fL := x); assert (HfL : smallc (mh p) <= fL) by apply FMAX5_ge end.
    match goal with |- context [Rmin (v - ?x) 0] => set (fB := x); assert (HfB : smallc (mh p) <= fB) by apply FMAX5_ge end.
    pose proof (Rmin_l (u - fL) 0). pose proof (Rmax_l (u + fL) 0). pose proof (Rmin_l (v - fB) 0). pose proof (Rmax_l (v + fB) 0).
    set (SAL := Rmin (u - fL) 0) in *. set (SAR := Rmax (u + fL) 0) in *. set (SAB := Rmin (v - fB) 0) in *. set (SAT := Rmax (v + fB) 0) in *.
    assert (N1 : 0 < SAR - SAL) by lra. assert (N2 : 0 < SAT - SAB) by lra.
    do 8 eexists. split; [|split; [exact N1|exact N2]].
    clearbody SAL SAR SAB SAT.
    replace ((SAR * a - SAL * a) / (SAR - SAL)) with a by (field; lra).
    replace ((SAT * b - SAB * b) / (SAT - SAB)) with b by (field; lra). reflexivity. }
  destruct HM as (SL & SR & SB & ST & SAL & SAR & SAB & SAT & HM & N1 & N2). rewrite HM. clear HM m.
  cbn [wSL wSR wSB wST].
  assert (E0 : mag_center (MagMid SL SR SB ST SAL SAR SAB SAT (minus_vxB x) (minus_vxB x) (minus_vxB x) (minus_vxB x) (minus_vxB x) (minus_vxB x)
    (minus_vxB x) (minus_vxB x) (minus_vxB x) (minus_vxB x) (minus_vxB x) (minus_vxB x) (mA x) (mA x) (mB x) (mB x)) = minus_vxB x).
  { unfold mag_center. cbn [wSAL wSAR wSAB wSAT wERR wERL wELR wELL wAT wAB wBR wBL]. cbn [sub div mul add RArith]. field. lra. }
  unfold mag_bottom, mag_top, mag_left, mag_right. cbn [wSAL wSAR wSAB wSAT wELLx wERLx wELRx wERRx wELLy wERLy wELRy wERRy].
  rewrite E0. clear E0. fold (minus_vxB x). cbn [sub div mul add RArith zero].
  change (mU x * mB x - mV x * mA x) with (minus_vxB x).
  set (e := minus_vxB x).
  assert (D1 : forall y, (SAR * e - SAL * e + SAR * SAL * (y - y)) / (SAR - SAL) = e) by (intros; field; lra).
  assert (D2 : forall y, (SAT * e - SAB * e - SAT * SAB * (y - y)) / (SAT - SAB) = e) by (intros; field; lra).
  rewrite !D1, !D2. unfold b2t. cbn [zero one RArith].
  destruct (posb SB), (posb ST), (posb SL), (posb SR); cbn [negb andb]; lra.
Qed.

(** ** Conversion to primitive variables *)
Lemma constoprim_equal q : 0 < mD q -> gam <> 1 -> mhd_admissible p q -> cIso p <= 0 ->
  let u := mhd_conservative gam q in constoprim_mhd p u (mA u) (mB u) (mC u) = q.
Proof.
  intros Hd Hg [Ha1 Ha2] Hc u. unfold constoprim_mhd, u. cbn [mD mP mU mV mW mA mB mC mhd_conservative].
  cbn [ltb zero sub div mul add maxv one half RArith].
  rewrite (Rmax_left (mD q)) by auto. destruct (Rlt_dec 0 (cIso p)) as [|_]; [lra|].
  rewrite !half_double.
  replace (mD q * mU q / mD q) with (mU q) by (field; lra). replace (mD q * mV q / mD q) with (mV q) by (field; lra).
  replace (mD q * mW q / mD q) with (mW q) by (field; lra).
  unfold mhd_energy, speed2, field2.
  match goal with |- context [Rmax ?x _] => replace x with (mP q) by (field; lra) end.
  rewrite Rmax_left by auto. destruct q; reflexivity.
Qed.
Lemma constoprim_floors u nA nB nC : 0 < smallr (mh p) -> 0 < smallp (mh p) -> 
  let q := constoprim_mhd p u nA nB nC in 0 < mD q /\ 0 < mP q /\ smallr (mh p) <= mD q.
Proof.
  intros Hr Hp q. unfold q, constoprim_mhd. cbn [mD mP]. cbn [ltb zero sub div mul add maxv one half RArith].
  pose proof (Rmax_r (mD u) (smallr (mh p))). set (d := Rmax _ _) in *. split; [lra|]. split; auto.
  destruct (Rlt_dec 0 (cIso p)).
  - apply Rmult_lt_0_compat; auto. apply Rmult_lt_0_compat; lra.
  - eapply Rlt_le_trans; [|apply Rmax_r]. apply Rmult_lt_0_compat; lra.
Qed.
End F.

(** The electromotive force selected by the signs of the outer wave speeds, from the nine
    candidate values (four corners, four sides, centre). *)
Lemma emf_select (p : mparams R) qLL qRL qLR qRR ELL ERL ELR ERR :
  let m := mag_middle p qLL qRL qLR qRR in
  wSB m <> 0 -> wSL m <> 0 ->
  mag_riemann2d_hlld p qLL qRL qLR qRR ELL ERL ELR ERR =
  if Rlt_dec 0 (wSB m) then
    if Rlt_dec 0 (wSL m) then ELL else if Rlt_dec (wSR m) 0 then ERL else mag_bottom m (mB qLL) (mB qRL)
  else if Rlt_dec (wST m) 0 then
    if Rlt_dec 0 (wSL m) then ELR else if Rlt_dec (wSR m) 0 then ERR else mag_top m (mB qLR) (mB qRR)
  else if Rlt_dec 0 (wSL m) then mag_left m (mA qLL) (mA qLR)
  else if Rlt_dec (wSR m) 0 then mag_right m (mA qRL) (mA qRR)
  else mag_center m.
Proof.
  intros m HB HL. unfold mag_riemann2d_hlld. cbv zeta. fold m.
  assert (P : forall x : R, posb x = if Rlt_dec x 0 then false else true).
  { intros x. unfold posb. cbn [ltb copysign1 zero RArith]. destruct (Rlt_dec x 0); destruct Rlt_dec; auto; lra. }
  rewrite !P.
  assert (NB : (if Rlt_dec (wSB m) 0 then false else true) = if Rlt_dec 0 (wSB m) then true else false).
  { destruct (Rlt_dec (wSB m) 0), (Rlt_dec 0 (wSB m)); auto; lra. }
  assert (NL : (if Rlt_dec (wSL m) 0 then false else true) = if Rlt_dec 0 (wSL m) then true else false).
  { destruct (Rlt_dec (wSL m) 0), (Rlt_dec 0 (wSL m)); auto; lra. }
  rewrite NB, NL. clear NB NL. unfold b2t. cbn [zero one add mul RArith].
  generalize (mag_center m) (mag_bottom m (mB qLL) (mB qRL)) (mag_top m (mB qLR) (mB qRR)) (mag_left m (mA qLL) (mA qLR)) (mag_right m (mA qRL) (mA qRR)).
  intros e1 e2 e3 e4 e5.
  destruct (Rlt_dec 0 (wSB m)), (Rlt_dec (wST m) 0), (Rlt_dec 0 (wSL m)), (Rlt_dec (wSR m) 0); cbn [negb andb]; lra.
Qed.
