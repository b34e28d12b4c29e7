(** The approximate (Newton) Riemann solver over the reals. *)
From Coq Require Import ZArith Reals Lra Psatz.
From Verif Require Import Arith HydroState RiemannModel HydroPoint Physics PointProofs RiemannProofs.
Open Scope R_scope.

Section A.
Variable p : hparams R.
Variable d3 : bool.
Hypothesis Hp : params_ok p.

(** Newton loop started on an exact solution. *)
Lemma newton_stop f pl pr ul ur cl cr pold conv : conv <= IZR 1 / IZR 1000000 ->
  newton p f pl pr ul ur cl cr pold conv = pold.
Proof. intros H. destruct f; cbn [newton]; [reflexivity|]. ar. destruct Rlt_dec; [lra|reflexivity]. Qed.

Lemma newton_fix n pp u cl cr : 0 < pp -> newton p (S n) pp pp u u cl cr pp 1 = pp.
Proof.
  intros H. cbn [newton]. ar. destruct Rlt_dec as [_|X]; [|exfalso; apply X; lra].
  match goal with |- context [Rmax (?a * (?b - ?c)) (- pp)] => replace (a * (b - c)) with 0 end.
  - rewrite (Rmax_left 0 (- pp)) by lra. rewrite Rplus_0_r. apply newton_stop.
    replace (0 / (pp + smallpp p)) with 0 by (unfold Rdiv; ring). rewrite Rabs_R0. lra.
  - rewrite !Rminus_diag_eq with (r1 := pp) (r2 := pp) by auto. unfold Rdiv. ring.
Qed.
Lemma pstar_equal rl rr u pp : 0 < rl -> 0 < rr -> 0 < pp ->
  approx_pstar p rl u pp rr u pp = pp.
Proof.
  intros H1 H2 H3. destruct Hp as (G & _). unfold approx_pstar. generalize (newton_fix 9). generalize (newton p 10).
  intros F HF. ar.
  set (cl := gamma0 p * pp * rl). set (cr := gamma0 p * pp * rr).
  assert (0 < gamma0 p * pp) by nra. assert (0 < cl) by (unfold cl; nra). assert (0 < cr) by (unfold cr; nra).
  pose proof (sqrt_lt_R0 cl ltac:(auto)). pose proof (sqrt_lt_R0 cr ltac:(auto)).
  assert (E : Rmax ((sqrt cr * pp + sqrt cl * pp + sqrt cl * sqrt cr * (u - u)) / (sqrt cl + sqrt cr)) 0 = pp).
  { replace ((sqrt cr * pp + sqrt cl * pp + sqrt cl * sqrt cr * (u - u)) / (sqrt cl + sqrt cr)) with pp by (field; lra).
    apply Rmax_left. lra. }
  rewrite E. apply HF; auto.
Qed.

Lemma sample_same sg ro uo po wo : smallr p <= ro -> 
  approx_sample p sg ro uo po wo po uo = (ro, uo, po).
Proof.
  intros Hr. unfold approx_sample. ar.
  assert (D0 : po - po = 0) by ring.
  assert (E : Rmax (ro / (1 + ro * (po - po) / (wo * wo))) (smallr p) = ro).
  { replace (ro / (1 + ro * (po - po) / (wo * wo))) with ro.
    - apply Rmax_left; auto.
    - rewrite D0. unfold Rdiv. rewrite Rmult_0_r, Rmult_0_l, Rplus_0_r, Rinv_1. ring. }
  rewrite E. destruct (Rle_dec po po) as [_|X]; [|exfalso; apply X; lra].
  match goal with |- context [(?f * ro + (1 - ?f) * ro, _, _)] => generalize f end. intros f.
  replace (f * ro + (1 - f) * ro) with ro by ring.
  replace (f * uo + (1 - f) * uo) with uo by ring.
  replace (f * po + (1 - f) * po) with po by ring.
  repeat destruct Rlt_dec; reflexivity.
Qed.

Lemma euler_rest (a b : hs R) : hU a = 0 -> hU b = 0 -> hP a = hP b -> euler_flux (gamma0 p) a = euler_flux (gamma0 p) b.
Proof. intros Ha Hb Hc. unfold euler_flux. rewrite Ha, Hb, Hc. apply HS_eq; ring. Qed.

Lemma approx_contact ql qr : admissible p ql -> admissible p qr -> dim_ok d3 ql -> dim_ok d3 qr ->
  hU ql = hU qr -> hP ql = hP qr ->
  riemann_approx p d3 ql qr = euler_flux (gamma0 p) (if Rlt_dec 0 (hU ql) then ql else qr).
Proof.
  intros A1 A2 D1 D2 Eu Ep. destruct (adm_pos p Hp ql A1). destruct (adm_pos p Hp qr A2).
  unfold riemann_approx. ar. rewrite !floor_d, !floor_p by auto.
  rewrite <- Eu, <- Ep. rewrite pstar_equal by auto.
  assert (Us : approx_ustar p (hD ql) (hU ql) (hP ql) (hD qr) (hU ql) (hP ql) (hP ql) = hU ql).
  { unfold approx_ustar. ar. replace (hP ql - hP ql) with 0 by ring. unfold Rdiv. rewrite !Rmult_0_l. field. }
  rewrite Us. assert (Z : d3 = false -> hW ql = 0 /\ hW qr = 0).
  { intros E. destruct D1 as [D1|D1]; [congruence|]. destruct D2 as [D2|D2]; [congruence|]. auto. }
  destruct (Rlt_dec (hU ql) 0) as [N|N].
  - destruct (Rlt_dec 0 (-1)); [lra|]. destruct (Rlt_dec 0 (hU ql)); [lra|].
    rewrite sample_same by (destruct A2; auto). rewrite Eu, Ep.
    rewrite <- (cmpflx_euler p d3 Hp qr D2). f_equal. rewrite (hs_eta qr) at 6. f_equal.
    destruct d3; auto. symmetry. apply Z; auto.
  - destruct (Rlt_dec 0 1) as [_|X]; [|exfalso; apply X; lra].
    rewrite sample_same by (destruct A1; auto).
    assert (F : cmpflx p d3 (HS (hD ql) (hP ql) (hU ql) (hV ql) (if d3 then hW ql else 0)) = euler_flux (gamma0 p) ql).
    { rewrite <- (cmpflx_euler p d3 Hp ql D1). f_equal. rewrite (hs_eta ql) at 6. f_equal.
      destruct d3; auto. symmetry. apply Z; auto. }
    rewrite F. destruct Rlt_dec; auto. apply euler_rest; lra.
Qed.
Lemma approx_consistent q : admissible p q -> dim_ok d3 q -> riemann_approx p d3 q q = euler_flux (gamma0 p) q.
Proof. intros A1 D1. rewrite approx_contact by auto. destruct Rlt_dec; reflexivity. Qed.

(** Mirror symmetry. *)
Lemma newton_mir f : forall pl pr ul ur cl cr pold conv,
  newton p f pr pl (- ur) (- ul) cr cl pold conv = newton p f pl pr ul ur cl cr pold conv.
Proof.
  induction f; intros; cbn [newton]; [reflexivity|]. ar. destruct Rlt_dec; [|reflexivity].
  rewrite IHf.
  set (wl := sqrt (cl * (1 + gamma6 p * (pold - pl) / pl))). set (wr := sqrt (cr * (1 + gamma6 p * (pold - pr) / pr))).
  set (ql := 2 * wl * wl * wl / (wl * wl + cl)). set (qr := 2 * wr * wr * wr / (wr * wr + cr)).
  replace (ql * qr / (ql + qr) * (- ur - (pold - pr) / wr - (- ul + (pold - pl) / wl)))
    with (qr * ql / (qr + ql) * (ul - (pold - pl) / wl - (ur + (pold - pr) / wr))); [reflexivity|].
  rewrite (Rmult_comm ql), (Rplus_comm ql). f_equal. ring.
Qed.
Lemma pstar_mir rl ul pl rr ur pr : approx_pstar p rr (- ur) pr rl (- ul) pl = approx_pstar p rl ul pl rr ur pr.
Proof.
  unfold approx_pstar. ar. rewrite newton_mir. f_equal. f_equal.
  set (wl := sqrt (gamma0 p * pl * rl)). set (wr := sqrt (gamma0 p * pr * rr)).
  rewrite (Rplus_comm wr wl). f_equal. ring.
Qed.
Lemma ustar_mir rl ul pl rr ur pr ps :
  approx_ustar p rr (- ur) pr rl (- ul) pl ps = - approx_ustar p rl ul pl rr ur pr ps.
Proof. unfold approx_ustar. ar. unfold Rdiv. ring. Qed.
Lemma sample_mir sg ro uo po wo ps us :
  approx_sample p (- sg) ro (- uo) po wo ps (- us) =
  let '(a, b, c) := approx_sample p sg ro uo po wo ps us in (a, - b, c).
Proof.
  unfold approx_sample. ar.
  replace (- sg * - uo) with (sg * uo) by ring. replace (- sg * - us) with (sg * us) by ring.
  destruct (Rle_dec po ps).
  - match goal with |- context [(?f * _ + (1 - ?f) * ro, _, _)] => generalize f end. intros f.
    repeat destruct Rlt_dec; try reflexivity. f_equal. f_equal. ring.
  - match goal with |- context [(?f * _ + (1 - ?f) * ro, _, _)] => generalize f end. intros f.
    repeat destruct Rlt_dec; try reflexivity. f_equal. f_equal. ring.
Qed.
Lemma cmpflx_mir a b c v w : cmpflx p d3 (HS a c (- b) v w) = mirror_flux (cmpflx p d3 (HS a c b v w)).
Proof.
  unfold cmpflx, mirror_flux. cbn [hD hP hU hV hW]. ar.
  destruct d3; apply HS_eq; try ring; f_equal; ring.
Qed.

(** Speed of the contact found by the solver. *)
Definition contact_speed (ql qr : hs R) : R :=
  approx_ustar p (hD ql) (hU ql) (hP ql) (hD qr) (hU qr) (hP qr)
    (approx_pstar p (hD ql) (hU ql) (hP ql) (hD qr) (hU qr) (hP qr)).

Lemma approx_mirror ql qr : admissible p ql -> admissible p qr -> dim_ok d3 ql -> dim_ok d3 qr ->
  contact_speed ql qr <> 0 ->
  riemann_approx p d3 (mirror qr) (mirror ql) = mirror_flux (riemann_approx p d3 ql qr).
Proof.
  intros A1 A2 D1 D2 Hc. unfold contact_speed in Hc. unfold riemann_approx. ar.
  rewrite !floor_d, !floor_p by (auto using mirror_adm).
  unfold mirror. cbn [hD hP hU hV hW]. rewrite pstar_mir, ustar_mir.
  set (ps := approx_pstar _ _ _ _ _ _ _) in *. set (us := approx_ustar _ _ _ _ _ _ _ _) in *.
  destruct (Rlt_dec us 0) as [N|N].
  - destruct (Rlt_dec (- us) 0); [lra|]. destruct (Rlt_dec 0 (-1)); [lra|].
    destruct (Rlt_dec 0 1) as [_|X]; [|exfalso; apply X; lra].
    replace 1 with (- (-1)) at 1 by ring. rewrite sample_mir. destruct (approx_sample _ _ _ _ _ _ _ _) as [[a b] c].
    apply cmpflx_mir.
  - destruct (Rlt_dec (- us) 0); [|lra]. destruct (Rlt_dec 0 (-1)); [lra|].
    destruct (Rlt_dec 0 1) as [_|X]; [|exfalso; apply X; lra].
    replace (-1) with (- (1)) at 1 by ring. rewrite sample_mir. destruct (approx_sample _ _ _ _ _ _ _ _) as [[a b] c].
    apply cmpflx_mir.
Qed.

(** Tangential momentum. *)
Lemma approx_tangential ql qr : dim_ok d3 ql -> dim_ok d3 qr ->
  let f := riemann_approx p d3 ql qr in
  exists q, (q = ql \/ q = qr) /\ hV f = hD f * hV q /\ hW f = hD f * hW q.
Proof.
  intros D1 D2. cbv zeta. unfold riemann_approx. ar.
  assert (Z : d3 = false -> hW ql = 0 /\ hW qr = 0).
  { intros E. destruct D1 as [D1|D1]; [congruence|]. destruct D2 as [D2|D2]; [congruence|]. auto. }
  match goal with |- context [if Rlt_dec ?a 0 then _ else _] => set (us := a); clearbody us end.
  destruct (Rlt_dec 0 (if Rlt_dec us 0 then -1 else 1)).
  - destruct (approx_sample _ _ _ _ _ _ _ _) as [[a b] c]. exists ql. unfold cmpflx. cbn [hD hP hU hV hW]. ar.
    repeat split; auto. destruct d3; auto. destruct (Z eq_refl) as [-> _]. ring.
  - destruct (approx_sample _ _ _ _ _ _ _ _) as [[a b] c]. exists qr. unfold cmpflx. cbn [hD hP hU hV hW]. ar.
    repeat split; auto. destruct d3; auto. destruct (Z eq_refl) as [_ ->]. ring.
Qed.
End A.
