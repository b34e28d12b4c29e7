(** The Newton Riemann solver as a two-shock solver: proofs. *)
From Coq Require Import ZArith Reals Lra Psatz.
From Verif Require Import Arith HydroState RiemannModel HydroPoint Physics PointProofs RiemannProofs ApproxProofs ShockSpec.
Local Open Scope R_scope.

Section F.
Variable p : hparams R.
Hypothesis Hp : params_ok p.
Hypothesis G6 : gamma6 p = (gamma0 p + 1) / (2 * gamma0 p).
Local Notation gam := (gamma0 p).

(** The mass flux through the wave. *)
Definition wsq (r pp ps : R) : R := gam * pp * r * (1 + gamma6 p * (ps - pp) / pp).
Lemma wsq_poly r pp ps : 0 < pp -> wsq r pp ps = r * ((gam - 1) / 2 * pp + (gam + 1) / 2 * ps).
Proof. intros H. destruct Hp as (G & _). unfold wsq. rewrite G6. field. lra. Qed.
Lemma wsq_pos r pp ps : 0 < r -> 0 < pp -> 0 <= ps -> 0 < wsq r pp ps.
Proof. intros Hr H Hs. destruct Hp as (G & _). rewrite wsq_poly by exact H. apply Rmult_lt_0_compat; [exact Hr|]. nra. Qed.
Lemma approx_w_sq r pp ps : 0 < r -> 0 < pp -> 0 <= ps ->
  0 < approx_w p r pp ps /\ approx_w p r pp ps * approx_w p r pp ps = wsq r pp ps.
Proof.
  intros Hr H Hs. assert (W := wsq_pos r pp ps Hr H Hs). unfold approx_w. ar. fold (wsq r pp ps).
  split; [apply sqrt_lt_R0; exact W|apply sqrt_sqrt; lra].
Qed.

(** The state behind. *)
Definition back (sg : R) (o : hs R) (ps : R) : hs R :=
  let w := approx_w p (hD o) (hP o) ps in
  HS (hD o / (1 + hD o * (hP o - ps) / (w * w))) ps (hU o - sg * ((ps - hP o) / w)) (hV o) (hW o).
Definition front (sg : R) (o : hs R) (ps : R) : R := hU o - sg * (approx_w p (hD o) (hP o) ps / hD o).

Lemma back_density o ps : 0 < hD o -> 0 < hP o -> 0 <= ps -> let w2 := wsq (hD o) (hP o) ps in
  1 + hD o * (hP o - ps) / w2 = hD o * ((gam + 1) / 2 * hP o + (gam - 1) / 2 * ps) / w2 /\
  0 < 1 + hD o * (hP o - ps) / w2.
Proof.
  intros Hr H Hs w2. destruct Hp as (G & _). assert (W := wsq_pos _ _ _ Hr H Hs). fold w2 in W.
  assert (E : 1 + hD o * (hP o - ps) / w2 = hD o * ((gam + 1) / 2 * hP o + (gam - 1) / 2 * ps) / w2).
  { assert (P := wsq_poly (hD o) (hP o) ps H). fold w2 in P.
    apply (Rmult_eq_reg_r w2); [|lra].
    replace ((1 + hD o * (hP o - ps) / w2) * w2) with (w2 + hD o * (hP o - ps)) by (field; lra).
    replace (hD o * ((gam + 1) / 2 * hP o + (gam - 1) / 2 * ps) / w2 * w2) with (hD o * ((gam + 1) / 2 * hP o + (gam - 1) / 2 * ps)) by (field; lra).
    rewrite P. field. }
  split; [exact E|]. rewrite E. apply Rdiv_lt_0_compat; [|exact W]. apply Rmult_lt_0_compat; [exact Hr|]. nra.
Qed.

Lemma back_behind sg o ps : sg * sg = 1 -> 0 < hD o -> 0 < hP o -> 0 <= ps ->
  behind gam sg o (back sg o ps) (front sg o ps).
Proof.
  intros Hsg Hr H Hs. destruct (back_density o ps Hr H Hs) as [E1 E2]. assert (Hp' := Hp). destruct Hp' as (G & _).
  destruct (approx_w_sq _ _ _ Hr H Hs) as [W1 W2]. assert (WP := wsq_poly (hD o) (hP o) ps H).
  assert (A : 0 < (gam + 1) / 2 * hP o + (gam - 1) / 2 * ps) by nra.
  assert (DB : hD (back sg o ps) = approx_w p (hD o) (hP o) ps * approx_w p (hD o) (hP o) ps / ((gam + 1) / 2 * hP o + (gam - 1) / 2 * ps)).
  { unfold back. cbn [hD]. rewrite W2, E1. assert (0 < wsq (hD o) (hP o) ps) by (apply wsq_pos; assumption). set (B := (gam + 1) / 2 * hP o + (gam - 1) / 2 * ps) in *. field. repeat split; lra. }
  split; [|split].
  - set (w := approx_w p (hD o) (hP o) ps) in *. rewrite WP in W2.
    assert (UB : hU (back sg o ps) = hU o - sg * ((ps - hP o) / w)) by reflexivity.
    assert (PB : hP (back sg o ps) = ps) by reflexivity. assert (VB : hV (back sg o ps) = hV o) by reflexivity.
    assert (WB : hW (back sg o ps) = hW o) by reflexivity.
    assert (FR : front sg o ps = hU o - sg * (w / hD o)) by reflexivity.
    unfold jump, conservative, euler_flux, total_energy. cbn [hD hP hU hV hW]. rewrite DB, UB, PB, VB, WB, FR.
    destruct o as [r po u v z]. cbn [hD hP hU hV hW] in *. set (B := (gam + 1) / 2 * po + (gam - 1) / 2 * ps) in *.
    clear DB UB PB VB WB FR E1 E2 WP.
    assert (K : sg = 1 \/ sg = -1) by (assert ((sg - 1) * (sg + 1) = 0) by lra; apply Rmult_integral in H0; lra).
    assert (R1 : r = w * w / ((gam - 1) / 2 * po + (gam + 1) / 2 * ps)) by (rewrite W2; field; nra).
    assert (A2 : 0 < (gam - 1) / 2 * po + (gam + 1) / 2 * ps) by nra.
    assert (M : w * w / B * (u - sg * ((ps - po) / w) - (u - sg * (w / r))) = sg * w).
    { replace (w / r) with (((gam - 1) / 2 * po + (gam + 1) / 2 * ps) / w) by (rewrite R1; field; split; lra).
      replace ((gam - 1) / 2 * po + (gam + 1) / 2 * ps) with (B + ps - po) by (unfold B; field). field. split; lra. }
    set (db := w * w / B) in *. set (ub := u - sg * ((ps - po) / w)) in *. set (s := u - sg * (w / r)) in *.
    assert (M1 : r * (u - s) = sg * w) by (unfold s; field; lra).
    assert (PU : sg * w * (u - ub) = ps - po) by (unfold ub; replace (sg * w * (u - (u - sg * ((ps - po) / w)))) with (sg * sg * (ps - po)) by (field; lra); rewrite Hsg; ring).
    assert (EN : sg * w * ((u - s) * (u - s) / 2 + gam / (gam - 1) * po / r) = sg * w * ((ub - s) * (ub - s) / 2 + gam / (gam - 1) * ps / db)).
    { f_equal. assert (U1 : u - s = sg * w / r) by (rewrite <- M1; field; lra).
      assert (Db0 : 0 < db) by (unfold db; apply Rdiv_lt_0_compat; [nra|exact A]).
      assert (U2 : ub - s = sg * w / db) by (rewrite <- M; field; lra). rewrite U1, U2.
      replace (sg * w / r * (sg * w / r)) with (sg * sg * (w * w / r / r)) by (field; lra).
      replace (sg * w / db * (sg * w / db)) with (sg * sg * (w * w / db / db)) by (field; lra). rewrite Hsg.
      assert (IR : / r = ((gam - 1) / 2 * po + (gam + 1) / 2 * ps) / (w * w)) by (rewrite R1; field; split; lra).
      assert (ID : / db = B / (w * w)) by (unfold db; field; split; lra).
      assert (D1 : forall x, x / r = x * / r) by reflexivity. assert (D2 : forall x, x / db = x * / db) by reflexivity.
      rewrite !D1, !D2, IR, ID. unfold B. field. split; lra. }
    assert (Db0 : 0 < db) by (unfold db; apply Rdiv_lt_0_compat; [nra|exact A]).
    assert (EN2 : sg * w * (u * u / 2 - ub * ub / 2) + (r * u - db * ub) * 0 + gam / (gam - 1) * (sg * w * (po / r) - sg * w * (ps / db)) = s * (ps - po)).
    { rewrite <- PU. assert (X : gam / (gam - 1) * (sg * w * (po / r) - sg * w * (ps / db)) = sg * w * ((ub - s) * (ub - s) / 2 - (u - s) * (u - s) / 2)).
      { transitivity (sg * w * (gam / (gam - 1) * po / r) - sg * w * (gam / (gam - 1) * ps / db)); [field; repeat split; lra|]. lra. }
      rewrite X. field. }
    assert (MB : r * (u - s) = db * (ub - s)) by lra.
    assert (MR : sg * w * (po / r) = po * (u - s)) by (rewrite <- M1; field; lra).
    assert (MD : sg * w * (ps / db) = ps * (ub - s)) by (rewrite <- M; field; lra).
    rewrite MR, MD in EN2.
    assert (Ga : 0 < gam - 1) by lra.
    assert (Z1 : r * (u - s) * u = sg * w * u) by (rewrite M1; ring).
    assert (Z2 : db * (ub - s) * ub = sg * w * ub) by (rewrite M; ring).
    assert (Z3 : r * (u - s) * v = db * (ub - s) * v) by (rewrite MB; ring).
    assert (Z4 : r * (u - s) * z = db * (ub - s) * z) by (rewrite MB; ring).
    split; [lra|]. split; [|split; [lra|split; lra]].
    + (* energy *)
      replace (s * (ps / (gam - 1) + db * (ub * ub + v * v + z * z) / 2 - (po / (gam - 1) + r * (u * u + v * v + z * z) / 2)))
        with (s * (ps - po) / (gam - 1) + (s * db) * (ub * ub + v * v + z * z) / 2 - (s * r) * (u * u + v * v + z * z) / 2) by (field; lra).
      replace (s * db) with (db * ub - sg * w) by lra. replace (s * r) with (r * u - sg * w) by lra.
      apply Rminus_diag_uniq.
      transitivity (s * (ps - po) / (gam - 1) - sg * w * (ub * ub - u * u) / 2 - ub * (ps / (gam - 1)) - ub * ps + u * (po / (gam - 1)) + u * po); [field; lra|].
      replace (gam / (gam - 1)) with (1 + 1 / (gam - 1)) in EN2 by (field; lra).
      replace (s * (ps - po) / (gam - 1)) with (s * (ps - po) + s * (ps - po) * (1 / (gam - 1)) - s * (ps - po)) by (field; lra).
      set (k := 1 / (gam - 1)) in *. replace (ps / (gam - 1)) with (ps * k) by (unfold k; field; lra).
      replace (po / (gam - 1)) with (po * k) by (unfold k; field; lra).
      replace (s * (ps - po) + s * (ps - po) * k - s * (ps - po)) with (s * (ps - po) * k) by ring.
      lra.
  - rewrite DB. apply Rdiv_lt_0_compat; [nra|exact A].
  - unfold front. replace (sg * (hU o - (hU o - sg * (approx_w p (hD o) (hP o) ps / hD o)))) with (sg * sg * (approx_w p (hD o) (hP o) ps / hD o)) by ring.
    rewrite Hsg, Rmult_1_l. apply Rdiv_lt_0_compat; assumption.
Qed.

(** ** The change of velocity across a wave, as a function of the pressure behind *)
Definition phi (r pp ps : R) : R := (ps - pp) / approx_w p r pp ps.
Definition slope (r pp ps : R) : R :=
  let w := approx_w p r pp ps in (w * w + gam * pp * r) / (2 * w * w * w).
Lemma curve_facts r pp x : 0 < r -> 0 < pp -> 0 <= x -> let w := approx_w p r pp x in let c := gam * pp * r in
  0 < w /\ x - pp = (w * w - c) / (r * ((gam + 1) / 2)) /\ 0 < r * ((gam + 1) / 2) /\ 0 < c.
Proof.
  intros Hr H Hx w c. destruct (approx_w_sq r pp x Hr H Hx) as [W1 W2]. destruct Hp as (G & _).
  fold w in W1, W2. rewrite wsq_poly in W2 by exact H. unfold c.
  assert (0 < r * ((gam + 1) / 2)) by (apply Rmult_lt_0_compat; lra).
  split; [exact W1|]. split; [rewrite W2; field; lra|]. split; [assumption|].
  apply Rmult_lt_0_compat; [apply Rmult_lt_0_compat; lra|exact Hr].
Qed.
Lemma phi_concave r pp x y : 0 < r -> 0 < pp -> 0 <= x -> 0 <= y -> phi r pp y <= phi r pp x + slope r pp x * (y - x).
Proof.
  intros Hr H Hx Hy. destruct (curve_facts r pp x Hr H Hx) as (Sx & Ex & K & C).
  destruct (curve_facts r pp y Hr H Hy) as (Sy & Ey & _ & _).
  assert (Hp2 := Hp). destruct Hp2 as (G & _). unfold phi, slope. replace (y - x) with ((y - pp) - (x - pp)) by ring. rewrite Ex, Ey.
  set (s := approx_w p r pp x) in *. set (t := approx_w p r pp y) in *. set (c := gam * pp * r) in *. set (k := r * ((gam + 1) / 2)) in *.
  apply Rminus_le. 
  match goal with |- ?a <= 0 => replace a with (- ((t - s) * (t - s) * (s * s * t + c * (t + 2 * s)) / (2 * s * s * s * t * k))) end.
  - apply Ropp_le_cancel. rewrite Ropp_0, Ropp_involutive. apply Rmult_le_pos.
    + apply Rmult_le_pos; [apply Rle_0_sqr|]. apply Rplus_le_le_0_compat; repeat apply Rmult_le_pos; destruct Hp; lra.
    + left. apply Rinv_0_lt_compat. repeat apply Rmult_lt_0_compat; lra.
  - field. repeat split; lra.
Qed.
Lemma phi_increasing r pp x y : 0 < r -> 0 < pp -> 0 <= x -> x < y -> phi r pp x < phi r pp y.
Proof.
  intros Hr H Hx Hxy. destruct (curve_facts r pp x Hr H Hx) as (Sx & Ex & K & C).
  destruct (curve_facts r pp y Hr H ltac:(lra)) as (Sy & Ey & _ & _).
  unfold phi. assert (L : (y - pp) - (x - pp) > 0) by lra. rewrite Ex, Ey in L |- *.
  set (s := approx_w p r pp x) in *. set (t := approx_w p r pp y) in *. set (c := gam * pp * r) in *. set (k := r * ((gam + 1) / 2)) in *.
  assert (T : s < t).
  { assert (0 < t * t - s * s).
    { replace (t * t - s * s) with (((t * t - c) / k - (s * s - c) / k) * k) by (field; lra). apply Rmult_lt_0_compat; lra. }
    nra. }
  apply Rminus_lt. match goal with |- ?a < 0 => replace a with (- ((t - s) * (s * t + c) / (s * t * k))) end.
  - apply Ropp_lt_cancel. rewrite Ropp_0, Ropp_involutive. apply Rdiv_lt_0_compat; [apply Rmult_lt_0_compat; [lra|]; apply Rplus_lt_0_compat; [apply Rmult_lt_0_compat; lra|lra]|apply Rmult_lt_0_compat; [apply Rmult_lt_0_compat; lra|lra]].
  - field. repeat split; lra.
Qed.
Lemma slope_pos r pp x : 0 < r -> 0 < pp -> 0 <= x -> 0 < slope r pp x.
Proof.
  intros Hr H Hx. destruct (curve_facts r pp x Hr H Hx) as (Sx & Ex & K & C). unfold slope.
  apply Rdiv_lt_0_compat; [nra|repeat apply Rmult_lt_0_compat; lra].
Qed.

(** ** The Newton iteration approaches the pressure from below *)
Definition gap (rl ul pl rr ur pr x : R) : R := (ul - phi rl pl x) - (ur + phi rr pr x).
Definition below (rl ul pl rr ur pr x : R) : Prop := 0 <= x /\ (0 <= gap rl ul pl rr ur pr x \/ x = 0).
Lemma newton_below n : forall rl ul pl rr ur pr x conv, 0 < rl -> 0 < pl -> 0 < rr -> 0 < pr -> 0 <= x ->
  (below rl ul pl rr ur pr x \/ (n <> O /\ conv = 1)) ->
  below rl ul pl rr ur pr (newton p n pl pr ul ur (gam * pl * rl) (gam * pr * rr) x conv).
Proof.
  induction n as [|n IH]; intros rl ul pl rr ur pr x conv Hrl Hpl Hrr Hpr Hx H.
  - cbn [newton]. destruct H as [H|[H _]]; [exact H|congruence].
  - cbn [newton]. ar. destruct Rlt_dec as [Hc|Hc].
    2: { destruct H as [H|[_ H]]; [exact H|exfalso; lra]. }
    apply IH; try assumption.
    + match goal with |- 0 <= x + Rmax ?a ?b => assert (X := Rmax_r a b) end. lra.
    + left. fold (wsq rl pl x) (wsq rr pr x).
      change (sqrt (wsq rl pl x)) with (approx_w p rl pl x). change (sqrt (wsq rr pr x)) with (approx_w p rr pr x).
      assert (Sl := slope_pos rl pl x Hrl Hpl Hx). assert (Sr := slope_pos rr pr x Hrr Hpr Hx).
      fold (phi rl pl x) (phi rr pr x). fold (gap rl ul pl rr ur pr x).
      set (l := gap rl ul pl rr ur pr x).
      assert (QL : 2 * approx_w p rl pl x * approx_w p rl pl x * approx_w p rl pl x / (approx_w p rl pl x * approx_w p rl pl x + gam * pl * rl) = / slope rl pl x).
      { destruct (curve_facts rl pl x Hrl Hpl Hx) as (W & _ & _ & C). unfold slope. field. split; [lra|nra]. }
      assert (QR : 2 * approx_w p rr pr x * approx_w p rr pr x * approx_w p rr pr x / (approx_w p rr pr x * approx_w p rr pr x + gam * pr * rr) = / slope rr pr x).
      { destruct (curve_facts rr pr x Hrr Hpr Hx) as (W & _ & _ & C). unfold slope. field. split; [lra|nra]. }
      rewrite QL, QR. set (a := slope rl pl x) in *. set (b := slope rr pr x) in *.
      replace (/ b * / a / (/ b + / a) * l) with (l / (a + b)) by (field; repeat split; lra).
      destruct (Rle_dec (- x) (l / (a + b))) as [D|D].
      * rewrite Rmax_left by exact D. split; [lra|]. left. unfold gap.
        assert (L := phi_concave rl pl x (x + l / (a + b)) Hrl Hpl Hx ltac:(lra)).
        assert (R := phi_concave rr pr x (x + l / (a + b)) Hrr Hpr Hx ltac:(lra)).
        fold a in L. fold b in R. replace (x + l / (a + b) - x) with (l / (a + b)) in L, R by ring.
        assert (E : a * (l / (a + b)) + b * (l / (a + b)) = l) by (field; lra).
        assert (E0 : l = ul - phi rl pl x - (ur + phi rr pr x)) by reflexivity. lra.
      * rewrite Rmax_right by lra. split; [lra|]. right. lra.
Qed.
Lemma pstar_below rl ul pl rr ur pr : 0 < rl -> 0 < pl -> 0 < rr -> 0 < pr ->
  below rl ul pl rr ur pr (approx_pstar p rl ul pl rr ur pr).
Proof.
  intros. unfold approx_pstar. cbv zeta. ar. apply newton_below; try assumption; [apply Rmax_r|]. right. split; [discriminate|reflexivity].
Qed.

(** ** Jump conditions determine the velocity behind *)
Lemma behind_velocity sg a b s : sg * sg = 1 -> 0 < hD a -> 0 < hP a -> 0 <= hP b -> behind gam sg a b s ->
  hU b = hU a - sg * phi (hD a) (hP a) (hP b).
Proof.
  intros Hsg Hd Hpa Hpb ((J1 & J2 & J3 & J4 & J5) & Db & Dir).
  destruct (approx_w_sq _ _ _ Hd Hpa Hpb) as [W1 W2]. rewrite wsq_poly in W2 by exact Hpa. assert (Hp' := Hp). destruct Hp' as (G & _).
  unfold phi. set (w := approx_w p (hD a) (hP a) (hP b)) in *.
  unfold conservative, euler_flux, total_energy in J1, J2, J3, J4, J5. cbn [hD hP hU hV hW] in J1, J2, J3, J4, J5.
  destruct a as [ra pa ua va za], b as [rb pb ub vb zb]. cbn [hD hP hU hV hW] in *.
  set (M := ra * (ua - s)). assert (MA : ra * (ua - s) = M) by reflexivity.
  assert (MB : rb * (ub - s) = M) by (unfold M; lra).
  assert (M0 : 0 < sg * M) by (unfold M; replace (sg * (ra * (ua - s))) with (ra * (sg * (ua - s))) by ring; apply Rmult_lt_0_compat; assumption).
  assert (Mn : M <> 0) by (intros X; rewrite X in M0; lra).
  assert (Z1 : ra * (ua - s) * ua = M * ua) by (rewrite MA; ring). assert (Z2 : rb * (ub - s) * ub = M * ub) by (rewrite MB; ring).
  assert (PU : M * (ua - ub) = pb - pa) by lra.
  assert (VV : va = vb).
  { assert (Y1 : ra * (ua - s) * va = M * va) by (rewrite MA; ring). assert (Y2 : rb * (ub - s) * vb = M * vb) by (rewrite MB; ring).
    apply (Rmult_eq_reg_l M); [lra|exact Mn]. }
  assert (ZZ : za = zb).
  { assert (Y1 : ra * (ua - s) * za = M * za) by (rewrite MA; ring). assert (Y2 : rb * (ub - s) * zb = M * zb) by (rewrite MB; ring).
    apply (Rmult_eq_reg_l M); [lra|exact Mn]. }
  subst vb zb.
  destruct (Req_dec pb pa) as [E|E].
  - subst pb. assert (X : M * (ua - ub) = 0) by lra. apply Rmult_integral in X. destruct X as [X|X]; [contradiction|].
    replace (pa - pa) with 0 by ring. unfold Rdiv. rewrite Rmult_0_l, Rmult_0_r. lra.
  - assert (UA : ua = s + M / ra) by (rewrite <- MA; field; lra). assert (UB : ub = s + M / rb) by (rewrite <- MB; field; lra).
    assert (P1 : pb - pa = M * M * (/ ra - / rb)) by (rewrite <- PU, UA, UB; field; split; lra).
    assert (EN : M * M * (/ ra * / ra - / rb * / rb) / 2 = gam / (gam - 1) * (pb / rb - pa / ra)).
    { assert (K1 : ra * (ua - s) * (ua * ua + va * va + za * za) = M * (ua * ua + va * va + za * za)) by (rewrite MA; ring).
      assert (K2 : rb * (ub - s) * (ub * ub + va * va + za * za) = M * (ub * ub + va * va + za * za)) by (rewrite MB; ring).
      assert (E1 : (ub - s) * (pb / (gam - 1)) + M * (ub * ub) / 2 + ub * pb = (ua - s) * (pa / (gam - 1)) + M * (ua * ua) / 2 + ua * pa) by lra.
      assert (E2 : M * (ub * ub - ua * ua) / 2 = M * ((ub - s) * (ub - s) - (ua - s) * (ua - s)) / 2 - s * (pb - pa)) by (rewrite <- PU; field).
      assert (E3 : (ub - s) * (gam / (gam - 1) * pb) + M * ((ub - s) * (ub - s)) / 2 = (ua - s) * (gam / (gam - 1) * pa) + M * ((ua - s) * (ua - s)) / 2).
      { replace (gam / (gam - 1) * pb) with (pb / (gam - 1) + pb) by (field; lra). replace (gam / (gam - 1) * pa) with (pa / (gam - 1) + pa) by (field; lra). lra. }
      replace (ub - s) with (M / rb) in E3 by (rewrite UB; field; lra). replace (ua - s) with (M / ra) in E3 by (rewrite UA; field; lra).
      apply (Rmult_eq_reg_l M); [|exact Mn]. unfold Rdiv in *. lra. }
    assert (HU : (pb - pa) * (/ ra + / rb) / 2 = gam / (gam - 1) * (pb * / rb - pa * / ra)).
    { rewrite P1. transitivity (M * M * (/ ra * / ra - / rb * / rb) / 2); [field; split; lra|exact EN]. }
    assert (HU2 : / rb * ((gam + 1) * pb + (gam - 1) * pa) = / ra * ((gam + 1) * pa + (gam - 1) * pb)).
    { assert (HU3 : (gam - 1) * ((pb - pa) * (/ ra + / rb) / 2) = (gam - 1) * (gam / (gam - 1) * (pb * / rb - pa * / ra))) by (rewrite HU; reflexivity).
      replace ((gam - 1) * (gam / (gam - 1) * (pb * / rb - pa * / ra))) with (gam * (pb * / rb - pa * / ra)) in HU3 by (field; repeat split; lra). lra. }
    set (B := (gam - 1) / 2 * pa + (gam + 1) / 2 * pb) in *. assert (B0 : 0 < B) by (unfold B; nra).
    assert (RB : / rb = / ra * (B - (pb - pa)) / B).
    { apply (Rmult_eq_reg_r (2 * B)); [|lra]. transitivity (/ rb * ((gam + 1) * pb + (gam - 1) * pa)); [unfold B; field; lra|].
      rewrite HU2. replace (/ ra * (B - (pb - pa)) / B * (2 * B)) with (/ ra * (2 * (B - (pb - pa)))) by (field; split; lra). unfold B. field. lra. }
    assert (M2 : M * M = ra * B).
    { apply (Rmult_eq_reg_r ((pb - pa) / (ra * B))).
      - rewrite RB in P1. transitivity (pb - pa); [|field; split; lra]. set (d := pb - pa) in *.
        transitivity (M * M * (/ ra - / ra * (B - d) / B)); [field; split; lra|symmetry; exact P1].
      - unfold Rdiv. apply Rmult_integral_contrapositive_currified; [lra|]. apply Rinv_neq_0_compat. nra. }
    assert (WM : w = sg * M).
    { apply (Rsqr_inj w (sg * M)); [lra|lra|]. unfold Rsqr. rewrite W2. replace (sg * M * (sg * M)) with (sg * sg * (M * M)) by ring. rewrite Hsg, M2. ring. }
    rewrite <- PU, WM. apply (Rmult_eq_reg_l (sg * M)); [|lra]. 
    replace (sg * M * (ua - sg * (M * (ua - ub) / (sg * M)))) with (sg * M * ua - sg * M * (sg * (ua - ub) * / sg)).
    + assert (sg <> 0) by (intros X; rewrite X in Hsg; lra). replace (sg * (ua - ub) * / sg) with (ua - ub) by (field; assumption). ring.
    + field. split; [exact Mn|]. intros X; rewrite X in Hsg; lra.
Qed.

(** ** The state taken from the fan *)
Lemma sample_found sg o ps us gD gU gP : sg * sg = 1 -> 0 < hD o -> 0 < hP o -> 0 <= ps -> 
  approx_sample p sg (hD o) (hU o) (hP o) (approx_w p (hD o) (hP o) ps) ps us = (gD, gU, gP) ->
  found_at_rest gam (smallr p) (smallc p) sg o (back sg o ps) (front sg o ps) us (HS gD gP gU (hV o) (hW o)).
Proof.
  intros Hsg Hd Ho Hs. assert (Hp' := Hp). destruct Hp' as (G & R0 & P0 & C0).
  unfold approx_sample, found_at_rest. cbv zeta. ar.
  set (w := approx_w p (hD o) (hP o) ps).
  set (db := Rmax (hD o / (1 + hD o * (hP o - ps) / (w * w))) (smallr p)).
  assert (DB : Rmax (hD (back sg o ps)) (smallr p) = db) by reflexivity. rewrite DB.
  assert (D0 : 0 < db) by (assert (X := Rmax_r (hD o / (1 + hD o * (hP o - ps) / (w * w))) (smallr p)); unfold db; lra).
  change (hP (back sg o ps)) with ps. unfold sound_speed.
  rewrite (Rabs_right (gam * hP o / hD o)) by (apply Rle_ge, Rlt_le, Rdiv_lt_0_compat; [nra|exact Hd]).
  rewrite (Rabs_right (gam * ps / db)) by (apply Rle_ge, Rmult_le_pos; [nra|left; apply Rinv_0_lt_compat; exact D0]).
  set (co := Rmax (smallc p) (sqrt (gam * hP o / hD o))). set (cb := Rmax (smallc p) (sqrt (gam * ps / db))).
  assert (FS : w / hD o - sg * hU o = - (sg * front sg o ps)).
  { unfold front. fold w. replace (- (sg * (hU o - sg * (w / hD o)))) with (sg * sg * (w / hD o) - sg * hU o) by ring. rewrite Hsg. ring. }
  rewrite FS. set (x := sg * front sg o ps) in *. unfold core. cbn [hD hP hU hV hW].
  assert (XZ : front sg o ps = 0 -> x = 0) by (intros E; unfold x; rewrite E; ring). clearbody x. clear FS DB.
  intros Hsam. split; [reflexivity|]. split; [reflexivity|].
  destruct (Rle_dec (hP o) ps) as [Hc|Hc].
  - split; [intros _|intros; exfalso; lra].
    split; [|split].
    + intros Hx. destruct (Rlt_dec 0 (- x)) as [_|X]; [|exfalso; lra]. injection Hsam as <- <- <-. auto.
    + intros Hx. destruct (Rlt_dec 0 (- x)) as [X|_]; [exfalso; lra|]. destruct (Rlt_dec (- x) 0) as [_|X]; [|exfalso; lra].
      injection Hsam as <- <- <-. auto.
    + intros E. specialize (XZ E). rewrite XZ in Hsam.
      destruct (Rlt_dec 0 (- 0)) as [X|_]; [exfalso; lra|]. destruct (Rlt_dec (- 0) 0) as [X|_]; [exfalso; lra|].
      set (scr := Rmax (- 0 - - 0) (smallc p + Rabs (- 0 + - 0))) in Hsam.
      assert (S0 : 0 < scr). { unfold scr. assert (Y := Rmax_r (- 0 - - 0) (smallc p + Rabs (- 0 + - 0))). assert (Y2 := Rabs_pos (- 0 + - 0)). lra. }
      replace (/ 2 * (1 + (- 0 + - 0) / scr)) with (/ 2) in Hsam by (field; lra).
      destruct (Req_EM_T (/ 2) (/ 2)) as [_|X]; [|exfalso; apply X; reflexivity]. cbn [negb] in Hsam.
      destruct (Rle_dec 1 (/ 2)) as [X|_]; [exfalso; lra|]. destruct (Rle_dec (/ 2) 0) as [X|_]; [exfalso; lra|].
      injection Hsam as <- <- <-. unfold mixed. auto.
  - split; [intros; exfalso; lra|intros _].
    split; [|split].
    + intros Ht. destruct (Rlt_dec 0 (cb - sg * us)) as [_|X]; [|exfalso; lra]. injection Hsam as <- <- <-. auto.
    + intros Ht Hh. destruct (Rlt_dec 0 (cb - sg * us)) as [X|_]; [exfalso; lra|]. destruct (Rlt_dec (co - sg * hU o) 0) as [_|X]; [|exfalso; lra].
      injection Hsam as <- <- <-. auto.
    + intros Hh Ht. destruct (Rlt_dec 0 (cb - sg * us)) as [X|_]; [exfalso; lra|]. destruct (Rlt_dec (co - sg * hU o) 0) as [X|_]; [exfalso; lra|].
      set (spo := co - sg * hU o) in *. set (spi := cb - sg * us) in *.
      set (scr := Rmax (spo - spi) (smallc p + Rabs (spo + spi))) in Hsam.
      set (f := / 2 * (1 + (spo + spi) / scr)) in Hsam.
      destruct (Req_EM_T f f) as [_|X]; [|exfalso; apply X; reflexivity]. cbn [negb] in Hsam.
      set (f' := if (if Rle_dec 1 f then true else false) then 1 else if (if Rle_dec f 0 then true else false) then 0 else f) in Hsam.
      assert (F01 : 0 <= f' <= 1) by (unfold f'; destruct Rle_dec; [lra|]; destruct Rle_dec; lra).
      exists f'. split; [exact F01|]. split; [injection Hsam as <- <- <-; unfold mixed; auto|].
      intros HA. replace (sg * hU o - co) with (- spo) in * by (unfold spo; ring). replace (sg * us - cb) with (- spi) in * by (unfold spi; ring).
      replace (- spo + - spi) with (- (spo + spi)) in HA by ring. rewrite Rabs_Ropp in HA.
      assert (SC : scr = spo - spi) by (unfold scr; apply Rmax_left; lra).
      assert (S0 : 0 < spo - spi) by (assert (Y := Rabs_pos (spo + spi)); lra).
      assert (FE : f = spo / (spo - spi)) by (unfold f; rewrite SC; field; lra).
      assert (F2 : f * (spo - spi) = spo) by (rewrite FE; field; lra).
      assert (F3 : f' = f).
      { unfold f'. destruct Rle_dec; [nra|]. destruct Rle_dec; [nra|reflexivity]. }
      rewrite F3. lra.
Qed.
End F.
