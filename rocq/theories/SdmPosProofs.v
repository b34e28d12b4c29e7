From Coq Require Import ZArith List Bool Reals Lia Lra.
From Coquelicot Require Import Coquelicot.
From Verif Require Import Arith Par ParProofs GridModel HydroState HydroKernels CellKernels BoundaryProofs PointProofs MoodKernels MoodProofs
  TaskModel TaskKernels SdmGeom SdmSpec SdmLagrange SdmExact SdmKernels SdmDofs SdmProofs SdmRunSpec
  SdmConsSpec SdmUniform SdmConserve EulerSpec SdmPos SdmPosSpec.
Import ListNotations.
Open Scope R_scope.

(** ** Quadratics *)
Lemma quad_solve (a b c t1 t2 t D tol : R) : a <> 0 -> 0 <= c -> 0 < tol ->
  let b' := b / a in let c' := c / a in
  D = R_sqrt.sqrt (Rabs (b' * b' - 4 * c')) -> t1 = / 2 * (- b' - D) -> t2 = / 2 * (- b' + D) ->
  (t = t1 \/ (t = t2 /\ ~ (- tol < t1 < 1 + tol) /\ t2 < 1 + tol) \/ t = 0) ->
  forall s, 0 <= s -> s <= t \/ s = 0 -> 0 <= a * s * s + b * s + c.
Proof.
  intros Ha Hc Htol b' c' HD H1 H2 Ht s Hs Hst.
  assert (Eb : b = a * b') by (unfold b'; field; auto).
  assert (Ec : c = a * c') by (unfold c'; field; auto).
  clearbody b' c'. subst b c.
  assert (D0 : 0 <= D) by (subst D; apply sqrt_pos).
  assert (DD : D * D = Rabs (b' * b' - 4 * c')) by (subst D; apply sqrt_sqrt; apply Rabs_pos).
  destruct Hst as [Hst| ->]; [|nra].
  destruct (Rle_dec 0 (b' * b' - 4 * c')) as [Hd|Hd].
  - rewrite Rabs_right in DD by lra.
    assert (F : forall x, a * x * x + a * b' * x + a * c' = a * ((x - t1) * (x - t2))) by (intros; subst t1 t2; nra).
    rewrite F. assert (F0 : 0 <= a * (t1 * t2)) by (specialize (F 0); nra).
    assert (L : t1 <= t2) by (subst; lra).
    destruct (Rlt_dec 0 a) as [Pa|Na].
    + apply Rmult_le_pos; [lra|]. assert (P0 : 0 <= t1 * t2) by nra.
      destruct Ht as [->|[(-> & Hn & Hl)| ->]].
      * nra.
      * assert (t1 <= - tol) by (destruct (Rlt_dec (- tol) t1); [exfalso; apply Hn; split; lra|lra]).
        assert (t2 <= 0) by nra. assert (s = 0) by lra. subst s. nra.
      * assert (s = 0) by lra. subst s. nra.
    + assert (a < 0) by (destruct (Rtotal_order a 0) as [|[|]]; [auto|contradiction|lra]).
      assert (P0 : t1 * t2 <= 0) by nra.
      enough ((s - t1) * (s - t2) <= 0) by nra.
      assert (t1 <= 0 <= t2) by nra.
      assert (s <= t2) by (destruct Ht as [E|[(E & _)|E]]; lra).
      assert (G : 0 <= (s - t1) * (t2 - s)) by (apply Rmult_le_pos; lra). lra.
  - assert (Hc' : 0 < c') by (pose proof (Rle_0_sqr b'); unfold Rsqr in *; lra).
    assert (0 < a) by (destruct (Rtotal_order a 0) as [|[|]]; [nra|contradiction|lra]).
    assert (0 < s * s + b' * s + c').
    { pose proof (Rle_0_sqr (s + b' / 2)) as Q. unfold Rsqr in Q. lra. }
    replace (a * s * s + a * b' * s + a * c') with (a * (s * s + b' * s + c')) by ring. nra.
Qed.

Section Pos.
Variable b3 : bool.
Variable P : points R.
Variable p : hparams R.
Variable big : R.
Hypothesis HN : (1 <= npts P)%Z.
Hypothesis HP : distinct (npts P) (solp P).
Notation N := (npts P).
Notation local := (cell -> Z -> R).

Lemma In_fpoints dir q n : In (dir, q, n) (fpoints b3 P) <-> flux_point b3 P dir q n.
Proof.
  unfold fpoints, flux_point. rewrite in_flat_map. split.
  - intros (d & Hd & H). apply in_map_iff in H. destruct H as ([q' n'] & E & H). cbn in E. injection E as -> -> ->.
    apply in_prod_iff in H. destruct H as [H1 H2]. apply In_zrange in H2. split; [auto|split; [auto|lia]].
  - intros (H1 & H2 & H3). exists dir. split; auto. apply in_map_iff. exists (q, n). split; auto.
    apply in_prod_iff. split; auto. apply In_zrange. lia.
Qed.
Lemma at_fpoint_value V dir q n v : at_fpoint P V (dir, q, n) v = value_at P V dir q n v.
Proof.
  unfold at_fpoint, value_at, sol2flux. rewrite dot_suml, lsum_suml. apply suml_ext. intros k _. reflexivity.
Qed.
Lemma value_at_const k dir q n v : value_at P (fun _ _ => k) dir q n v = k.
Proof.
  rewrite <- at_fpoint_value. unfold at_fpoint.
  pose proof (exact_sol2flux P [k] n HP) as E. cbn [length peval] in E.
  transitivity (k + flxp P n * 0); [|ring]. rewrite <- E by lia.
  unfold sol2flux. rewrite !dot_suml. apply suml_ext. intros j _. ring.
Qed.
Lemma value_at_ext U U' dir q n v : In dir (dirs b3) -> In q (lines b3 P dir) ->
  (forall x, In x (dofs b3 P) -> U x v = U' x v) -> value_at P U dir q n v = value_at P U' dir q n v.
Proof.
  intros Hd Hq H. unfold value_at. apply lsum_ext. intros i Hi. apply In_zrange in Hi. rewrite H; auto.
  apply In_dofs. apply line_sol; auto.
Qed.
Lemma value_at_squeeze U U' th a dir q n v : (forall x, U' x v = squeeze th (U x v) a) ->
  value_at P U' dir q n v = squeeze th (value_at P U dir q n v) a.
Proof.
  intros H. pose proof (value_at_const 1 dir q n v) as K. unfold value_at in *. unfold squeeze in *. ar.
  rewrite (lsum_ext _ (fun i => th * (U (setc dir i q) v * lagrange N (solp P) i (flxp P n)) +
     (a * (1 - th)) * (1 * lagrange N (solp P) i (flxp P n)))).
  - rewrite lsum_add, (lsum_scal th), (lsum_scal (a * (1 - th))), K. ring.
  - intros i _. rewrite H. ring.
Qed.

(** ** The density stage *)
Lemma rho_min_fold V l m0 :
  let m := fold_left (fun m k => let r := at_fpoint P V k ID in if ltb m r then m else r) l m0 in
  m <= m0 /\ (forall k, In k l -> m <= at_fpoint P V k ID) /\
  (forall x, x <= m0 -> (forall k, In k l -> x <= at_fpoint P V k ID) -> x <= m).
Proof.
  revert m0. induction l as [|k l IH]; intros m0; cbn [fold_left].
  - cbv zeta. split; [lra|]. split; [intros k []|intros; auto].
  - cbv zeta. set (r := at_fpoint P V k ID). set (m1 := if ltb m0 r then m0 else r).
    assert (E1 : m1 <= m0 /\ m1 <= r /\ (m1 = m0 \/ m1 = r)).
    { unfold m1. ar. destruct (Rlt_dec m0 r); lra. }
    destruct (IH m1) as (A & B & C). cbv zeta in *. split; [lra|]. split.
    + intros k' [<-|Hk]; [fold r; lra|apply B; auto].
    + intros x H1 H2. apply C; [destruct E1 as (_ & _ & [->| ->]); [auto|apply H2; left; auto]|intros; apply H2; right; auto].
Qed.
Lemma rho_min_le V dir q n : flux_point b3 P dir q n -> rho_min b3 P big V <= value_at P V dir q n ID.
Proof. intros H. rewrite <- at_fpoint_value. apply (rho_min_fold V (fpoints b3 P) big). apply In_fpoints; auto. Qed.
Lemma rho_min_ge V x : x <= big -> (forall dir q n, flux_point b3 P dir q n -> x <= value_at P V dir q n ID) -> x <= rho_min b3 P big V.
Proof.
  intros H1 H2. apply (rho_min_fold V (fpoints b3 P) big); auto. intros [[dir q] n] Hk. rewrite at_fpoint_value.
  apply H2. apply In_fpoints; auto.
Qed.

Definition mu : R := 1 / 10000000000000.
Lemma mu_pos : 0 < mu. Proof. unfold mu. lra. Qed.
(** Where some flux density is below the average, the factor lies in [0,1], keeps
    the densities above the floor minus the slack, and is 1 when nothing is wrong. *)
Lemma theta1_range V ave : smallr p <= ave ID -> rho_min b3 P big V < ave ID ->
  0 <= theta1 b3 P p big V ave <= 1.
Proof.
  intros H1 H2. unfold theta1. ar. fold mu. pose proof mu_pos.
  assert (0 <= (ave ID - smallr p) / (ave ID - rho_min b3 P big V)).
  { apply Rmult_le_pos; [lra|]. apply Rlt_le, Rinv_0_lt_compat. lra. }
  destruct (Rlt_dec _ _); lra.
Qed.
Lemma theta1_bound V ave : rho_min b3 P big V < ave ID -> smallr p <= ave ID ->
  smallr p - mu * (ave ID - rho_min b3 P big V) <= squeeze (theta1 b3 P p big V ave) (rho_min b3 P big V) (ave ID).
Proof.
  intros H1 H2. unfold theta1, squeeze. ar. fold mu. pose proof mu_pos.
  set (m := rho_min b3 P big V) in *. set (a := ave ID) in *.
  destruct (Rlt_dec _ _) as [L|L].
  - apply Req_le. field. lra.
  - set (r := (a - smallr p) / (a - m)) in *. assert (E : a - smallr p = r * (a - m)) by (unfold r; field; lra). nra.
Qed.
Lemma theta1_one V ave : rho_min b3 P big V < ave ID -> smallr p <= rho_min b3 P big V -> theta1 b3 P p big V ave = 1.
Proof.
  intros H1 H2. unfold theta1. ar. fold mu. pose proof mu_pos.
  set (m := rho_min b3 P big V) in *. set (a := ave ID) in *.
  destruct (Rlt_dec _ _) as [L|L]; [|reflexivity]. exfalso.
  set (r := (a - smallr p) / (a - m)) in *. assert (E : a - smallr p = r * (a - m)) by (unfold r; field; lra). nra.
Qed.
(** Exact value at the lowest density. *)
Lemma theta1_exact V ave : rho_min b3 P big V < ave ID ->
  ave ID - smallr p < (1 - mu) * (ave ID - rho_min b3 P big V) ->
  theta1 b3 P p big V ave < 1 /\
  squeeze (theta1 b3 P p big V ave) (rho_min b3 P big V) (ave ID) = smallr p - mu * (ave ID - rho_min b3 P big V).
Proof.
  intros H1 H2. unfold theta1, squeeze. ar. fold mu. pose proof mu_pos.
  set (m := rho_min b3 P big V) in *. set (a := ave ID) in *.
  set (r := (a - smallr p) / (a - m)) in *. assert (E : a - smallr p = r * (a - m)) by (unfold r; field; lra).
  assert (r + mu < 1) by nra. destruct (Rlt_dec _ _) as [L|L]; [|lra]. split; [lra|]. rewrite <- (Rplus_0_r (smallr p)). nra.
Qed.
Lemma density_stage_at V ave q v : density_stage b3 P p big V ave q v =
  if (v =? ID)%Z then squeeze (theta1 b3 P p big V ave) (V q v) (ave v) else V q v.
Proof.
  unfold density_stage. cbv zeta. assert (L : theta1 b3 P p big V ave <= 1).
  { unfold theta1. ar. destruct (Rlt_dec _ _); lra. }
  set (th := theta1 b3 P p big V ave) in *. unfold ltb, RArith, one. destruct (Rlt_dec th 1); [reflexivity|].
  assert (E : th = 1) by lra. rewrite E. unfold squeeze. ar. destruct (v =? ID)%Z eqn:Ev; [ring|reflexivity].
Qed.
Lemma density_stage_value V ave dir q n v : value_at P (density_stage b3 P p big V ave) dir q n v =
  if (v =? ID)%Z then squeeze (theta1 b3 P p big V ave) (value_at P V dir q n v) (ave v) else value_at P V dir q n v.
Proof.
  destruct (v =? ID)%Z eqn:Ev.
  - apply value_at_squeeze. intros x. rewrite density_stage_at, Ev. reflexivity.
  - unfold value_at. apply lsum_ext. intros i _. rewrite density_stage_at, Ev. reflexivity.
Qed.

(** ** The pressure stage *)
Definition m2 (x : Z -> R) : R := x IU * x IU + x IV * x IV + (if b3 then x IW * x IW else 0).
(** Twice the density times (internal energy minus the one of pressure 1e-13). *)
Definition excess (x : Z -> R) : R := 2 * x ID * (x IE - mu / (gamma0 p - 1)) - m2 x.
Definition mix (t : R) (x y : Z -> R) : Z -> R := fun v => squeeze t (x v) (y v).

(** The choice of the root, from the normalised coefficients. *)
Definition near (t : R) : bool :=
  (if Rlt_dec (- (1 / 1000000000000)) t then true else false) && (if Rlt_dec t (1 + 1 / 1000000000000) then true else false).
Definition clip (t : R) : R :=
  let t := if ltb t 1 then t else 1 in
  let t := if ltb 0 t then t else 0 in
  if ltb (Rabs (1 - t)) (1 / 100000000000000) then 0 else t.
Definition pick (b1 c1 : R) : R :=
  let D := R_sqrt.sqrt (Rabs (b1 * b1 - 4 / 1 * c1)) in
  let t1 := / 2 * (- b1 - D) in
  let t2 := / 2 * (- b1 + D) in
  clip (if near t1 then t1 else if near t2 then t2 else 0).
Lemma near_iff t : near t = true <-> - (1 / 1000000000000) < t < 1 + 1 / 1000000000000.
Proof.
  unfold near. destruct (Rlt_dec _ t), (Rlt_dec t _); cbn; split; intros; auto; try discriminate; lra.
Qed.
Lemma clip_cases t : clip t = 0 \/ (clip t = t /\ 0 < t < 1).
Proof.
  unfold clip. cbv zeta. unfold ltb, RArith. destruct (Rlt_dec t 1) as [L|L].
  - destruct (Rlt_dec 0 t) as [L'|L']; destruct (Rlt_dec (Rabs _) _); auto.
  - destruct (Rlt_dec 0 1); [|lra]. destruct (Rlt_dec (Rabs (1 - 1)) _) as [Q|Q]; [auto|]. exfalso. apply Q.
    replace (1 - 1) with 0 by ring. rewrite Rabs_R0. lra.
Qed.
Lemma pick_cases b1 c1 : exists D t1 t2 t', D = R_sqrt.sqrt (Rabs (b1 * b1 - 4 * c1)) /\
    t1 = / 2 * (- b1 - D) /\ t2 = / 2 * (- b1 + D) /\
    (t' = t1 \/ (t' = t2 /\ ~ (- (1 / 1000000000000) < t1 < 1 + 1 / 1000000000000) /\ t2 < 1 + 1 / 1000000000000) \/ t' = 0) /\
    (pick b1 c1 = 0 \/ (pick b1 c1 = t' /\ 0 < t' < 1)).
Proof.
  unfold pick. cbv zeta. replace (4 / 1) with 4 by field.
  set (D := R_sqrt.sqrt _). set (t1 := / 2 * (- b1 - D)). set (t2 := / 2 * (- b1 + D)).
  set (t' := if near t1 then t1 else if near t2 then t2 else 0).
  exists D, t1, t2, t'. split; [reflexivity|]. split; [reflexivity|]. split; [reflexivity|]. split; [|apply clip_cases].
  unfold t'. destruct (near t1) eqn:E1; [left; reflexivity|]. destruct (near t2) eqn:E2; [|right; right; reflexivity].
  right; left. split; [reflexivity|]. split; [rewrite <- near_iff, E1; discriminate|]. apply near_iff in E2. lra.
Qed.
Lemma solve_ok x ave : 1 < gamma0 p -> 0 <= excess ave ->
  let t := solve_t b3 p x ave in 0 <= t < 1 /\ forall s, 0 <= s <= t -> 0 <= excess (mix s x ave).
Proof.
  intros Hg He t.
  set (d := fun v => x v - ave v).
  set (a := 2 * d ID * d IE - m2 d).
  set (b := 2 * d ID * (ave IE - mu / (gamma0 p - 1)) + 2 * ave ID * d IE - 2 * (ave IU * d IU + ave IV * d IV + (if b3 then ave IW * d IW else 0))).
  set (c := excess ave).
  assert (EX : forall s, excess (mix s x ave) = a * s * s + b * s + c).
  { intros s. unfold excess, mix, squeeze, a, b, c, excess, m2, d. ar. destruct b3; ring. }
  assert (Et : t = pick (b / a) (c / a)).
  { transitivity (pick ((2 * d ID * (ave IE - mu / (gamma0 p - 1)) + 2 * ave ID * d IE - 2 * mdot b3 ave d) / (2 * d ID * d IE - mdot b3 d d))
      ((2 * ave ID * ave IE - mdot b3 ave ave - 2 * mu * ave ID / (gamma0 p - 1)) / (2 * d ID * d IE - mdot b3 d d))).
    - reflexivity.
    - f_equal; f_equal; try f_equal; unfold a, b, c, excess, m2, mdot, d; ar; destruct b3; field; lra. }
  destruct (pick_cases (b / a) (c / a)) as (D & t1 & t2 & t' & HD & H1 & H2 & H3 & H4). rewrite <- Et in H4. clear Et.
  destruct (Req_dec a 0) as [Ea|Ea].
  - assert (Eb : forall r, r / a = 0) by (intros; rewrite Ea; unfold Rdiv; rewrite Rinv_0; ring).
    rewrite !Eb in *. replace (0 * 0 - 4 * 0) with 0 in HD by ring. rewrite Rabs_R0, sqrt_0 in HD.
    assert (t = 0) by lra. split; [lra|]. intros s Hs. rewrite EX. replace s with 0 by lra. fold c in He. lra.
  - split; [lra|]. intros s Hs. rewrite EX.
    apply (quad_solve a b c t1 t2 t' D (1 / 1000000000000)); auto; try lra.
Qed.
Lemma excess_convex s x y : 0 < x ID -> 0 < y ID -> 0 <= excess x -> 0 <= excess y -> 0 <= s <= 1 -> 0 <= excess (mix s x y).
Proof.
  intros Hx Hy Ex Ey Hs.
  set (e1 := x IE - mu / (gamma0 p - 1)). set (e0 := y IE - mu / (gamma0 p - 1)).
  set (w1 := if b3 then x IW else 0). set (w0 := if b3 then y IW else 0).
  assert (E1 : excess x = 2 * x ID * e1 - (x IU * x IU + x IV * x IV + w1 * w1)) by (unfold excess, m2, e1, w1; destruct b3; ring).
  assert (E0 : excess y = 2 * y ID * e0 - (y IU * y IU + y IV * y IV + w0 * w0)) by (unfold excess, m2, e0, w0; destruct b3; ring).
  assert (E : excess (mix s x y) = s * s * excess x + (1 - s) * (1 - s) * excess y +
     2 * (s * (1 - s)) * (x ID * e0 + y ID * e1 - (x IU * y IU + x IV * y IV + w1 * w0))).
  { rewrite E1, E0. unfold excess, mix, squeeze, m2, e1, e0, w1, w0. ar. destruct b3; ring. }
  rewrite E. clear E.
  assert (K : 0 <= x ID * e0 + y ID * e1 - (x IU * y IU + x IV * y IV + w1 * w0)).
  { apply (Rmult_le_reg_l (2 * x ID * y ID)); [nra|]. rewrite Rmult_0_r.
    replace (2 * x ID * y ID * (x ID * e0 + y ID * e1 - (x IU * y IU + x IV * y IV + w1 * w0))) with
      (x ID * x ID * excess y + y ID * y ID * excess x +
       ((x ID * y IU - y ID * x IU) * (x ID * y IU - y ID * x IU) + (x ID * y IV - y ID * x IV) * (x ID * y IV - y ID * x IV) +
        (x ID * w0 - y ID * w1) * (x ID * w0 - y ID * w1))) by (rewrite E0, E1; ring).
    clear E0 E1. clearbody e1 e0 w1 w0.
    assert (SQ : forall r : R, 0 <= r * r) by (intros; apply Rle_0_sqr).
    repeat apply Rplus_le_le_0_compat; try apply SQ; apply Rmult_le_pos; auto. }
  assert (SQ : forall r : R, 0 <= r * r) by (intros; apply Rle_0_sqr).
  repeat apply Rplus_le_le_0_compat; apply Rmult_le_pos; auto.
  apply Rmult_le_pos; [lra|]. apply Rmult_le_pos; lra.
Qed.
Lemma fpressure_cons (x : Z -> R) : fpressure b3 p x = cons_pressure (gamma0 p) (state_of b3 x).
Proof.
  unfold fpressure, cons_pressure, state_of, mdot. cbn [hD hP hU hV hW]. ar. change IE with IP.
  unfold Rdiv. rewrite Rinv_mult. destruct b3; ring.
Qed.
Lemma excess_pressure x : 1 < gamma0 p -> 0 < x ID -> (0 <= excess x <-> mu <= cons_pressure (gamma0 p) (state_of b3 x)).
Proof.
  intros Hg Hx. unfold cons_pressure, state_of, excess. cbn [hD hP hU hV hW]. change IE with IP.
  assert (EM : m2 x = x IU * x IU + x IV * x IV + (if b3 then x IW else 0) * (if b3 then x IW else 0)) by (unfold m2; destruct b3; ring).
  rewrite <- EM. set (k := m2 x) in *. clearbody k. clear EM.
  set (pr := (gamma0 p - 1) * (x IP - k / (2 * x ID))).
  assert (E : 2 * x ID * (x IP - mu / (gamma0 p - 1)) - k = 2 * x ID / (gamma0 p - 1) * (pr - mu)).
  { unfold pr. field. split; lra. }
  rewrite E. assert (0 < 2 * x ID / (gamma0 p - 1)) by (apply Rdiv_lt_0_compat; lra). split; intros; nra.
Qed.

Definition low (x : Z -> R) : Prop := fpressure b3 p x < 1 / 1000000000000.
Definition step2 (V : local) (ave : Z -> R) (th : R) (k : Z * cell * Z) : R :=
  let x := at_fpoint P V k in
  if ltb (fpressure b3 p x) (lit 1 1000000000000)
  then let t := solve_t b3 p x ave in if ltb th t then th else t else th.
Lemma solve_range x ave : 0 <= solve_t b3 p x ave < 1.
Proof.
  set (d := fun v => x v - ave v).
  assert (E : solve_t b3 p x ave = pick ((2 * d ID * (ave IE - mu / (gamma0 p - 1)) + 2 * ave ID * d IE - 2 * mdot b3 ave d) / (2 * d ID * d IE - mdot b3 d d))
      ((2 * ave ID * ave IE - mdot b3 ave ave - 2 * mu * ave ID / (gamma0 p - 1)) / (2 * d ID * d IE - mdot b3 d d))) by reflexivity.
  rewrite E. unfold pick. cbv zeta. match goal with |- context [clip ?t] => destruct (clip_cases t) as [->|[-> H]]; lra end.
Qed.
Lemma step2_cases V ave th k : 0 <= th ->
  let t := solve_t b3 p (at_fpoint P V k) ave in
  (low (at_fpoint P V k) /\ 0 <= step2 V ave th k <= th /\ step2 V ave th k <= t) \/
  (~ low (at_fpoint P V k) /\ step2 V ave th k = th).
Proof.
  intros Hth t. unfold step2, low. cbv zeta. fold t. pose proof (solve_range (at_fpoint P V k) ave) as Ht.
  fold t in Ht. clearbody t. set (pr := fpressure b3 p (at_fpoint P V k)). clearbody pr. unfold ltb, lit, RArith.
  destruct (Rlt_dec pr (1 / 1000000000000)) as [L|L]; [left|right; split; [exact L|reflexivity]].
  split; [exact L|]. destruct (Rlt_dec th t); lra.
Qed.
Lemma theta2_fold V ave l th0 : 0 <= th0 <= 1 ->
  let th := fold_left (step2 V ave) l th0 in
  0 <= th <= th0 /\ (forall k, In k l -> low (at_fpoint P V k) -> th <= solve_t b3 p (at_fpoint P V k) ave) /\
  ((forall k, In k l -> ~ low (at_fpoint P V k)) -> th = th0).
Proof.
  revert th0. induction l as [|k l IH]; intros th0 H0; cbn [fold_left]; cbv zeta.
  - split; [lra|]. split; [intros k []|reflexivity].
  - pose proof (step2_cases V ave th0 k (proj1 H0)) as S. cbv zeta in S. set (th1 := step2 V ave th0 k) in *. clearbody th1.
    destruct (IH th1) as (A & B & C); [destruct S as [S|S]; lra|]. cbv zeta in *. destruct S as [(L & S1 & S2)|(L & S)].
    + split; [lra|]. split.
      * intros k' [<-|Hk] Hl; [lra|apply B; auto].
      * intros Hn. exfalso. apply (Hn k); [left; auto|exact L].
    + subst th1. split; [lra|]. split.
      * intros k' [<-|Hk] Hl; [contradiction|apply B; auto].
      * intros Hn. apply C. intros; apply Hn; right; auto.
Qed.
Lemma theta2_range V ave : 0 <= theta2 b3 P p V ave <= 1.
Proof. destruct (theta2_fold V ave (fpoints b3 P) 1) as (A & _); [lra|]. exact A. Qed.
Lemma pressure_stage_at V ave q v :
  pressure_stage b3 P p V ave q v = squeeze (theta2 b3 P p V ave) (V q v) (ave v).
Proof.
  pose proof (proj2 (theta2_range V ave)) as L. unfold pressure_stage. cbv zeta. set (th := theta2 b3 P p V ave) in *. unfold ltb, RArith, one.
  destruct (Rlt_dec th 1); [reflexivity|]. assert (E : th = 1) by lra. rewrite E. unfold squeeze. ar. ring.
Qed.
Lemma pressure_stage_value V ave dir q n v :
  value_at P (pressure_stage b3 P p V ave) dir q n v = squeeze (theta2 b3 P p V ave) (value_at P V dir q n v) (ave v).
Proof. apply value_at_squeeze. intros x. apply pressure_stage_at. Qed.
Lemma excess_ext x y : (forall v, x v = y v) -> excess x = excess y.
Proof. intros H. unfold excess, m2. rewrite !H. reflexivity. Qed.
Lemma vars_in v : (0 <= v < 4)%Z \/ (b3 = true /\ v = IW) -> In v (vars b3).
Proof. intros H. apply In_vars. unfold nbv, IW in *. destruct H as [H|[-> ->]]; [destruct b3; lia|lia]. Qed.
Lemma fpressure_ext x y : (forall v, In v (vars b3) -> x v = y v) -> fpressure b3 p x = fpressure b3 p y.
Proof.
  intros H. unfold fpressure, mdot. rewrite !(H ID), !(H IE), !(H IU), !(H IV) by (apply vars_in; unfold ID, IE, IU, IV; lia).
  destruct b3 eqn:Eb; [|reflexivity]. rewrite (H IW); [reflexivity|]. rewrite <- Eb. apply vars_in. auto.
Qed.
Lemma low_ext x y : (forall v, In v (vars b3) -> x v = y v) -> low x <-> low y.
Proof. intros H. unfold low. rewrite (fpressure_ext x y H). reflexivity. Qed.
Lemma solve_ext x y ave : (forall v, x v = y v) -> solve_t b3 p x ave = solve_t b3 p y ave.
Proof. intros H. unfold solve_t, mdot. rewrite !H. reflexivity. Qed.

(** Densities above [r] before the stage: above [r] after it, and pressures above 1e-13. *)
Lemma pressure_stage_ok V ave r dir q n : 1 < gamma0 p -> 0 < r -> r <= ave ID -> 0 <= excess ave ->
  (forall dir q n, flux_point b3 P dir q n -> r <= value_at P V dir q n ID) -> flux_point b3 P dir q n ->
  let y := value_at P (pressure_stage b3 P p V ave) dir q n in r <= y ID /\ 0 <= excess y.
Proof.
  intros Hg Hr Ha He Hd Hf y. pose proof (theta2_range V ave) as Hth.
  set (th := theta2 b3 P p V ave) in *. set (x := value_at P V dir q n).
  assert (Ey : forall v, y v = mix th x ave v) by (intros v; unfold y; rewrite pressure_stage_value; reflexivity).
  pose proof (Hd dir q n Hf) as Hx. fold (x ID) in Hx. change (r <= x ID) in Hx.
  split.
  - rewrite Ey. unfold mix, squeeze. ar. nra.
  - rewrite (excess_ext _ _ Ey).
    destruct (Rlt_dec (fpressure b3 p x) (1 / 1000000000000)) as [L|L].
    + apply (proj2 (solve_ok x ave Hg He)). split; [lra|].
      destruct (theta2_fold V ave (fpoints b3 P) 1) as (_ & B & _); [lra|].
      specialize (B (dir, q, n) (proj2 (In_fpoints dir q n) Hf)).
      rewrite (low_ext _ x) in B by (intros; apply at_fpoint_value).
      rewrite (solve_ext _ x) in B by (intros; apply at_fpoint_value). apply B. exact L.
    + apply excess_convex; auto; try lra. apply excess_pressure; auto; [lra|].
      rewrite fpressure_cons in L. unfold mu. lra.
Qed.

(** ** Both stages *)
Notation cellF := (positivity_cell b3 P p big).
Lemma cell_at V ave q v : cellF V ave q v =
  squeeze (theta2 b3 P p (density_stage b3 P p big V ave) ave)
    (if (v =? ID)%Z then squeeze (theta1 b3 P p big V ave) (V q v) (ave v) else V q v) (ave v).
Proof. unfold positivity_cell. rewrite pressure_stage_at, density_stage_at. reflexivity. Qed.
Lemma squeeze_squeeze a b x m : squeeze a (squeeze b x m) m = squeeze (a * b) x m.
Proof. unfold squeeze. ar. ring. Qed.
Lemma cell_between V ave : smallr p <= ave ID -> rho_min b3 P big V < ave ID ->
  exists td t, 0 <= td <= t /\ t <= 1 /\
    forall q v, cellF V ave q v = ave v + (if (v =? ID)%Z then td else t) * (V q v - ave v).
Proof.
  intros H1 H2. pose proof (theta1_range V ave H1 H2) as R1. pose proof (theta2_range (density_stage b3 P p big V ave) ave) as R2.
  eexists; eexists; split; [|split; [apply R2|]].
  2:{ intros q v. rewrite cell_at. set (t1 := theta1 b3 P p big V ave). set (t2 := theta2 _ _ _ _ _).
      instantiate (1 := theta2 b3 P p (density_stage b3 P p big V ave) ave * theta1 b3 P p big V ave). fold t1 t2.
      destruct (v =? ID)%Z; [rewrite squeeze_squeeze|]; unfold squeeze; ar; ring. }
  set (t1 := theta1 b3 P p big V ave) in *. set (t2 := theta2 _ _ _ _ _) in *. nra.
Qed.
Lemma cell_ok V ave m : 1 < gamma0 p -> smallr p <= ave ID -> 0 <= excess ave -> rho_min b3 P big V < ave ID ->
  m <= big -> (forall dir q n, flux_point b3 P dir q n -> m <= value_at P V dir q n ID) ->
  let r := smallr p - mu * (ave ID - m) in 0 < r ->
  forall dir q n, flux_point b3 P dir q n ->
  let y := value_at P (cellF V ave) dir q n in r <= y ID /\ 0 <= excess y.
Proof.
  intros Hg Ha He Hlt Hb Hm r Hr. pose proof (rho_min_ge V m Hb Hm) as Hge. pose proof mu_pos as Hmu.
  pose proof (theta1_range V ave Ha Hlt) as R1. pose proof (theta1_bound V ave Hlt Ha) as B1.
  unfold positivity_cell. intros dir q n Hf. apply pressure_stage_ok; auto.
  - unfold r. assert (m < ave ID) by lra. nra.
  - intros dir' q' n' Hf'. rewrite density_stage_value. rewrite Z.eqb_refl. pose proof (rho_min_le V dir' q' n' Hf') as L.
    unfold r. unfold squeeze in *. ar. set (x := value_at P V dir' q' n' ID) in *. set (rm := rho_min b3 P big V) in *.
    set (t1 := theta1 b3 P p big V ave) in *. assert (0 <= mu * (rm - m)) by (apply Rmult_le_pos; lra).
    assert (0 <= t1 * (x - rm)) by (apply Rmult_le_pos; lra). lra.
Qed.
Lemma cell_unchanged V ave : rho_min b3 P big V < ave ID -> smallr p <= big ->
  (forall dir q n, flux_point b3 P dir q n -> smallr p <= value_at P V dir q n ID /\
     1 / 1000000000000 <= cons_pressure (gamma0 p) (state_of b3 (value_at P V dir q n))) ->
  forall q v, cellF V ave q v = V q v.
Proof.
  intros Hlt Hb H q v. assert (T1 : theta1 b3 P p big V ave = 1).
  { apply theta1_one; auto. apply rho_min_ge; auto. intros; apply H; auto. }
  assert (E : forall dir q n v, value_at P (density_stage b3 P p big V ave) dir q n v = value_at P V dir q n v).
  { intros. rewrite density_stage_value, T1. destruct (_ =? _)%Z; [unfold squeeze; ar; ring|reflexivity]. }
  assert (T2 : theta2 b3 P p (density_stage b3 P p big V ave) ave = 1).
  { apply (proj2 (proj2 (theta2_fold (density_stage b3 P p big V ave) ave (fpoints b3 P) 1 ltac:(lra)))).
    intros [[dir q'] n] Hk. rewrite (low_ext _ (value_at P V dir q' n)).
    - unfold low. rewrite fpressure_cons. apply In_fpoints in Hk. destruct (H dir q' n Hk) as [_ L]. lra.
    - intros v' _. rewrite at_fpoint_value. apply E. }
  rewrite cell_at, T1, T2. destruct (v =? ID)%Z; unfold squeeze; ar; ring.
Qed.
(** A uniform cell whose stored averages are its values times a factor above one. *)
Lemma cell_uniform V ave k kap : (forall x v, In x (dofs b3 P) -> In v (vars b3) -> V x v = k v) ->
  (forall v, In v (vars b3) -> ave v = kap * k v) -> 1 < kap -> 0 < smallr p -> smallr p <= k ID -> k ID <= big -> fpressure b3 p k < 1 / 1000000000000 ->
  exists f, 1 < f <= kap /\ forall q v, In q (dofs b3 P) -> In v (vars b3) -> cellF V ave q v = f * k v.
Proof.
  intros HV Ha Hk Hs Hd Hb Hp.
  assert (HID : In ID (vars b3)) by (apply vars_in; unfold ID; lia).
  assert (EV : forall dir q n v, flux_point b3 P dir q n -> In v (vars b3) -> value_at P V dir q n v = k v).
  { intros dir q n v Hf Hv. destruct Hf as (F1 & F2 & F3). rewrite (value_at_ext V (fun _ _ => k v)) by auto. apply value_at_const. }
  assert (Rm : rho_min b3 P big V <= k ID /\ k ID <= rho_min b3 P big V).
  { split.
    - assert (F : exists dir q n, flux_point b3 P dir q n).
      { exists IX, (0, 0, 0)%Z, 0%Z. split; [apply IX_dirs|]. split; [|lia]. apply In_lines. apply in_box_coords. unfold mL, IX, IY, IZ. cbn. destruct b3; lia. }
      destruct F as (dir & q & n & F). rewrite <- (EV dir q n ID F HID). apply rho_min_le; auto.
    - apply rho_min_ge; auto. intros. rewrite EV by auto. lra. }
  assert (K0 : 0 < k ID) by lra.
  assert (T1 : theta1 b3 P p big V ave = 1) by (apply theta1_one; [rewrite Ha by auto; nra|lra]).
  set (W := density_stage b3 P p big V ave).
  assert (EW : forall q v, W q v = V q v).
  { intros. unfold W. rewrite density_stage_at, T1. destruct (_ =? _)%Z; [unfold squeeze; ar; ring|reflexivity]. }
  assert (T2 : 0 <= theta2 b3 P p W ave < 1).
  { destruct (theta2_fold W ave (fpoints b3 P) 1 ltac:(lra)) as (A & B & _). change (fold_left (step2 W ave) (fpoints b3 P) 1) with (theta2 b3 P p W ave) in *.
    split; [lra|].
    assert (F : exists dir q n, flux_point b3 P dir q n).
    { exists IX, (0, 0, 0)%Z, 0%Z. split; [apply IX_dirs|]. split; [|lia]. apply In_lines. apply in_box_coords. unfold mL, IX, IY, IZ. cbn. destruct b3; lia. }
    destruct F as (dir & q & n & F). pose proof F as F'. apply In_fpoints in F'. specialize (B _ F').
    rewrite (low_ext _ k) in B.
    - specialize (B Hp). pose proof (solve_range (at_fpoint P W (dir, q, n)) ave). lra.
    - intros v Hv. rewrite at_fpoint_value. rewrite <- (EV dir q n v F Hv). destruct F as (F1 & F2 & F3). apply value_at_ext; auto. }
  set (t := theta2 b3 P p W ave) in *. exists (kap - t * (kap - 1)). split; [split; nra|].
  intros q v Hq Hv. rewrite cell_at, T1. fold W t. rewrite Ha, HV by auto. destruct (v =? ID)%Z; unfold squeeze; ar; ring.
Qed.
(** A gas at rest whose lowest density is far below the average. *)
Lemma cell_negative V ave dir q n : flux_point b3 P dir q n ->
  (forall x, In x (dofs b3 P) -> V x IU = 0 /\ V x IV = 0 /\ (b3 = true -> V x IW = 0)) ->
  (forall dir q n, flux_point b3 P dir q n -> 1 / 1000000000000 <= (gamma0 p - 1) * value_at P V dir q n IE) ->
  (forall dir' q' n', flux_point b3 P dir' q' n' -> value_at P V dir q n ID <= value_at P V dir' q' n' ID) ->
  value_at P V dir q n ID <= big ->
  ave ID - smallr p < (1 - mu) * (ave ID - value_at P V dir q n ID) -> 0 < smallr p <= ave ID ->
  value_at P (cellF V ave) dir q n ID = smallr p - mu * (ave ID - value_at P V dir q n ID).
Proof.
  intros Hf Hm Hp Hmin Hb Hth Hs. pose proof mu_pos as Hmu.
  set (x := value_at P V dir q n ID) in *.
  assert (Ex : rho_min b3 P big V = x) by (apply Rle_antisym; [apply rho_min_le; auto|apply rho_min_ge; auto]).
  assert (Hlt : x < ave ID).
  { assert (M1 : mu < 1) by (unfold mu; lra). nra. }
  destruct (theta1_exact V ave) as [L E]; rewrite ?Ex; auto. rewrite Ex in E.
  assert (T2 : theta2 b3 P p (density_stage b3 P p big V ave) ave = 1).
  { apply (proj2 (proj2 (theta2_fold (density_stage b3 P p big V ave) ave (fpoints b3 P) 1 ltac:(lra)))).
    intros [[dir' q'] n'] Hk. apply In_fpoints in Hk. unfold low, fpressure, mdot. rewrite !at_fpoint_value, !density_stage_value.
    change (IU =? ID)%Z with false. change (IV =? ID)%Z with false. change (IW =? ID)%Z with false. change (IE =? ID)%Z with false. cbv iota.
    assert (Z0 : forall v, (forall x, In x (dofs b3 P) -> V x v = 0) -> value_at P V dir' q' n' v = 0).
    { intros v Hv. destruct Hk as (K1 & K2 & K3). rewrite (value_at_ext V (fun _ _ => 0)) by auto. apply value_at_const. }
    rewrite (Z0 IU), (Z0 IV) by (intros; apply Hm; auto). specialize (Hp dir' q' n' Hk).
    assert (EM : (if b3 then 0 * 0 + 0 * 0 + value_at P V dir' q' n' IW * value_at P V dir' q' n' IW else 0 * 0 + 0 * 0) = 0).
    { destruct b3 eqn:Eb; [|ring]. rewrite (Z0 IW) by (intros; apply Hm; auto). ring. }
    ar. rewrite EM. apply Rle_not_lt.
    replace (value_at P V dir' q' n' IE - _) with (value_at P V dir' q' n' IE) by (unfold Rdiv; ring). exact Hp. }
  unfold positivity_cell. rewrite pressure_stage_value, density_stage_value, T2, Z.eqb_refl. fold x.
  rewrite squeeze_squeeze, Rmult_1_l. exact E.
Qed.
(** The average of the new values. *)
Lemma quad_one : lsum (quad b3 P) (dofs b3 P) = 1.
Proof.
  assert (W : lsum (point_weight P) (zrange 0 N) = 1) by (rewrite lsum_suml; apply weights_one; auto).
  unfold dofs, box, cell. destruct b3.
  - rewrite !lsum_prod. unfold quad, dirs, IX, IY, IZ, coord. cbn [fold_right Z.eqb Pos.eqb].
    rewrite (lsum_ext _ (fun x => (1 * 1) * point_weight P x)); [rewrite lsum_scal, W; ring|].
    intros x _. rewrite (lsum_ext _ (fun y => point_weight P x * point_weight P y)); [rewrite lsum_scal, W; ring|].
    intros y _. rewrite (lsum_ext _ (fun z => (point_weight P x * point_weight P y) * point_weight P z)); [rewrite lsum_scal, W; ring|].
    intros z _. cbn. ring.
  - rewrite !lsum_prod. unfold quad, dirs, IX, IY, IZ, coord. cbn [fold_right Z.eqb Pos.eqb lsum].
    rewrite (lsum_ext _ (fun x => 1 * point_weight P x)); [rewrite lsum_scal, W; ring|].
    intros x _. rewrite (lsum_ext _ (fun y => point_weight P x * point_weight P y)); [rewrite lsum_scal, W; ring|].
    intros y _. cbn. ring.
Qed.
Lemma average_squeeze (U U' : cell -> cell -> Z -> R) c v th a : (forall q, In q (dofs b3 P) -> U' c q v = a + th * (U c q v - a)) ->
  average b3 P U' c v = a + th * (average b3 P U c v - a).
Proof.
  intros H. unfold average. rewrite (lsum_ext _ (fun q => th * (quad b3 P q * U c q v) + (a * (1 - th)) * quad b3 P q)).
  - rewrite lsum_add, (lsum_scal th), (lsum_scal (a * (1 - th))), quad_one. ring.
  - intros q Hq. rewrite H by auto. ring.
Qed.
End Pos.
