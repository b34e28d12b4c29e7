(** The initial conditions of the MOOD solver: what the loop leaves, for every schedule; the
    prescribed states; the quadrature. *)
From Coq Require Import ZArith List Bool Lia Reals Lra.
From Coquelicot Require Import Coquelicot.
From Verif Require Import Arith Par ParProofs GridModel HydroState HydroKernels CellKernels HydroSpec Physics MhdState MhdInit MhdInitProofs MhdInitSpec
  HydroInit HydroInitSpec HydroInitProofs HydroInitState HydroInitWrong MoodKernels TaskModel SdmGeom SdmKernels SdmInit SdmInitSpec SdmInitProofs MoodInit MoodInitSpec.
Import ListNotations.
Local Open Scope R_scope.

Section Real.
Variable b3 : bool.
Variable g : grid.
Variable h : hparams R.
Variable bx : MhdInit.box R.
Variable junk : cell -> Z -> R.
Hypothesis Hgam : 1 < gamma0 h.
Local Notation gam := (gamma0 h).
Local Notation heldof := (held_of b3).
Local Notation run pr := (run_kernels (init_mood RSLibm b3 g h bx junk pr)).
Local Notation at0 := (position g h (first_process bx)).

(** The assignments at a point. *)
Definition mpoint (pr : mproblem R) (c : cell) (X : point) : list (Z * R) :=
  let x := px X in let y := py X in let z := pz X in
  match pr with
  | MImplode => mimplode b3 h x y z
  | MBlast q => hblast b3 h q x y z
  | MFourQuadrant n xt yt => hfour b3 h n xt yt x y
  | MKelvinHelmholtz rnd q => mkh RSLibm b3 h bx (rnd c) q x y z
  | MWedge q => swedge RSLibm b3 q x y
  | MVortexP q => mv_cell RSLibm b3 h q (junk c) x y
  end.
Lemma mcell_point pr i j k : mcell RSLibm b3 g h bx junk pr (i, j, k) = mpoint pr (i, j, k) (at0 i j k).
Proof.
  assert (Ex : mpx g h bx i = px (at0 i j k)) by (unfold mpx, ofZ, position, centre; cbn; rewrite Z.mul_0_r, Z.add_0_r; field).
  assert (Ey : mpy g h bx j = py (at0 i j k)) by (unfold mpy, ofZ, position, centre; cbn; rewrite Z.mul_0_r, Z.add_0_r; field).
  assert (Ez : mpz g h bx k = pz (at0 i j k)) by (unfold mpz, ofZ, position, centre; cbn; rewrite Z.mul_0_r, Z.add_0_r; field).
  unfold mcell, mpoint. rewrite Ex, Ey, Ez. destruct pr; reflexivity.
Qed.
Lemma init_field pr (s s' : store R) c v : run pr s s' -> In c (cellsD b3 g) ->
  s' (at_cell aU c v) = MhdInitProofs.assigned (mcell RSLibm b3 g h bx junk pr c) v (s (at_cell aU c v)).
Proof. intros Hr Hc. apply (single_field b3 g (mcell RSLibm b3 g h bx junk pr)); auto. Qed.
Lemma mheld_init pr (s s' : store R) i j k u : run pr s s' -> in_array b3 g i j k ->
  heldof (mpoint pr (i, j, k) (at0 i j k)) u -> held b3 s' i j k = u.
Proof.
  intros Hrun Hin (d & e & mu & mv & mw & El & ->).
  assert (Hf : forall v, s' (Loc aU i j k v) = MhdInitProofs.assigned (cons_assign b3 d e mu mv mw) v (s (Loc aU i j k v))).
  { intros v. pose proof (init_field pr s s' (i, j, k) v Hrun (In_array _ _ _ _ _ Hin)) as H1. rewrite mcell_point, El in H1. exact H1. }
  unfold held. rewrite !Hf. clear. destruct b3; reflexivity.
Qed.
Lemma mheld_nothing pr (s s' : store R) i j k : run pr s s' -> in_array b3 g i j k ->
  mpoint pr (i, j, k) (at0 i j k) = [] -> held b3 s' i j k = held b3 s i j k.
Proof.
  intros Hrun Hin El.
  assert (Hf : forall v, s' (Loc aU i j k v) = s (Loc aU i j k v)).
  { intros v. pose proof (init_field pr s s' (i, j, k) v Hrun (In_array _ _ _ _ _ Hin)) as H1. rewrite mcell_point, El in H1. exact H1. }
  unfold held. rewrite !Hf. reflexivity.
Qed.

(** ** Prescribed states *)
Definition mreaches (pr : mproblem R) (X : point) (l : list (Z * R)) : Prop :=
  exists q, mprescribed b3 h bx pr X q /\ heldof l (conservative gam q).

Lemma mkh_eq q d u v w : d <> 0 -> mkh_assign b3 h q d (d * u) (d * v) (d * w) = hkh_assign b3 h q d u v w.
Proof.
  intros Hd. unfold mkh_assign, hkh_assign. f_equal. cbn. f_equal. destruct b3; field; exact Hd.
Qed.
Lemma ramp_range s t dl : 0 < dl -> s + t = / 2 ->
  0 < 1 / (1 + exp (2 * s / dl)) + 1 / (1 + exp (2 * t / dl)) < 1.
Proof.
  intros Hd Hst. set (a := exp (2 * s / dl)). set (b := exp (2 * t / dl)).
  assert (Ha : 0 < a) by apply exp_pos. assert (Hb : 0 < b) by apply exp_pos.
  assert (Hab : 1 < a * b).
  { unfold a, b. rewrite <- exp_plus. replace (2 * s / dl + 2 * t / dl) with (/ dl) by (replace t with (/ 2 - s) by lra; field; lra).
    rewrite <- exp_0. apply exp_increasing. apply Rinv_0_lt_compat. exact Hd. }
  replace (1 / (1 + a) + 1 / (1 + b)) with ((2 + a + b) / ((1 + a) * (1 + b))) by (field; lra).
  assert (Hp : 0 < (1 + a) * (1 + b)) by (apply Rmult_lt_0_compat; lra).
  split; [apply Rdiv_lt_0_compat; lra|]. apply (Rmult_lt_reg_r ((1 + a) * (1 + b))); [exact Hp|].
  unfold Rdiv. rewrite Rmult_assoc, Rinv_l by lra. lra.
Qed.
Lemma mkh_hkh rnd q x y z : 0 < kh_d_in q -> 0 < kh_d_out q ->
  kh_rand q = true \/ (kh_rand q = false /\ kh_sine_rob q = true /\ 0 < kh_delta q) ->
  mkh RSLibm b3 h bx rnd q x y z = hkh RHLibm b3 h bx rnd q x y z.
Proof.
  intros Hi Ho [Hr|(Hr & Hs & Hd)]; unfold mkh, hkh; rewrite Hr.
  - cbv zeta. apply mkh_eq. match goal with |- (if ?b then _ else _) <> _ => destruct b end; lra.
  - rewrite Hs. cbv zeta. cbn [sm RSLibm].
    match goal with |- context [(one / (one + fexp _ (two * (?s - lit 1 4) / _)) + _)%A] => 
      pose proof (ramp_range (s - 1 / 4) (3 / 4 - s) (kh_delta q) Hd ltac:(lra)) as HR end.
    set (r := (one / (one + fexp _ _) + _)%A) in *. change (0 < r < 1) in HR. clearbody r.
    assert (Hdn : (kh_d_in q + r * (kh_d_out q - kh_d_in q))%A <> 0) by (cbn; nra).
    set (d := (kh_d_in q + r * (kh_d_out q - kh_d_in q))%A) in *. clearbody d.
    destruct b3 eqn:Eb; rewrite <- Eb.
    + rewrite <- mkh_eq by exact Hdn. f_equal. cbn. ring.
    + rewrite <- mkh_eq by exact Hdn. f_equal; cbn; ring.
Qed.

Lemma all_mreach pr c X : mgood b3 h pr -> mreaches pr X (mpoint pr c X).
Proof.
  destruct pr as [ |a|n xt yt|rnd a|a|q]; intros Hg; unfold mpoint.
  - unfold mimplode.
    match goal with |- mreaches _ _ (if ?b then _ else _) => assert (E : b = true <-> (if b3 then / 2 < px X + py X + pz X < 5 / 2 else / 2 < px X + py X)) end.
    { destruct b3; cbn; repeat match goal with |- context [Rlt_dec ?a ?b] => destruct (Rlt_dec a b) end; cbn; split; intros; auto; try discriminate; lra. }
    match goal with |- mreaches _ _ (if ?b then _ else _) => destruct b end.
    + exists (HS 1 1 0 0 0). split; [left; split; [tauto|reflexivity]|]. apply held_cons; unfold total_energy; cbn; try (destruct b3); field; lra.
    + exists (HS (/ 8) (14 / 100) 0 0 0). split; [right; split; [|reflexivity]|].
      * intros H. apply E in H. discriminate.
      * apply held_cons; unfold total_energy; cbn; try (destruct b3); field; lra.
  - destruct (blast_reaches b3 h bx Hgam a X) as (r & Hp & Hh). exists r. auto.
  - destruct (four_reaches false h bx Hgam n xt yt X eq_refl) as (r & Hp & Hh). exists r. split; [exact Hp|].
    unfold hfour, prim_to_cons in *. apply planar_held. exact Hh.
  - destruct Hg as (H1 & H2 & H3). rewrite mkh_hkh; [|auto|auto|tauto].
    assert (Hgs : good_setting b3 h bx (HKelvinHelmholtz rnd a) X) by (cbn; tauto).
    destruct (kh_reaches b3 h bx Hgam rnd a c X Hgs) as (r & Hp & Hh). exists r. auto.
  - destruct Hg as (H1 & H2 & H3). unfold swedge, RSLibm. cbn -[tan put_state par_cons].
    assert (E : tan (wd_angle a) * (px X - wd_x a) < py X <-> behind_front a X).
    { unfold behind_front, tan. assert (Hi : tan (wd_angle a) * (px X - wd_x a) * cos (wd_angle a) = (px X - wd_x a) * sin (wd_angle a)) by (unfold tan; field; lra).
      unfold tan in Hi. rewrite <- Hi. split; intros HH; [apply Rmult_lt_compat_r; auto|apply Rmult_lt_reg_r in HH; auto]. }
    destruct (Rlt_dec (tan (wd_angle a) * (px X - wd_x a)) (py X)) as [L|L].
    + exists (planar b3 (wd_post a)). split; [left; split; [tauto|reflexivity]|apply par_cons_held; auto; intros; apply H3; auto].
    + exists (planar b3 (wd_pre a)). split; [right; split; [tauto|reflexivity]|apply par_cons_held; auto; intros; apply H3; auto].
  - contradiction.
Qed.
End Real.

(** ** The quadrature *)
(** One direction: weighted sum over the points. *)
Fixpoint wsum (L : list (R * R)) (F : R -> R) : R := match L with [] => 0 | a :: L => F (fst a) * snd a + wsum L F end.
Definition rule (n : Z) (x d : R) : list (R * R) := if (n =? 1)%Z then [(x, 1)] else gauss n x d.

Lemma inner_fold (f : R -> R -> R) b wb L : forall acc,
  fold_left (fun acc a => (acc + f (fst a) b * snd a * wb)%A) L acc = acc + wsum L (fun a => f a b) * wb.
Proof. induction L as [|a L IH]; intros acc; cbn; [ring|]. rewrite IH. cbn. ring. Qed.
Lemma outer_fold (f : R -> R -> R) Lx L : forall acc,
  fold_left (fun acc b => fold_left (fun acc a => (acc + f (fst a) (fst b) * snd a * snd b)%A) Lx acc) L acc
  = acc + wsum L (fun b => wsum Lx (fun a => f a b)).
Proof. induction L as [|b L IH]; intros acc; cbn [fold_left wsum]; [ring|]. rewrite IH, inner_fold. ring. Qed.
Lemma quadrature_sums (h : hparams R) n f x y :
  quadrature h n f x y = wsum (rule n y (dy h)) (fun b => wsum (rule n x (dx h)) (fun a => f a b)).
Proof.
  unfold quadrature, rule. destruct (n =? 1)%Z; [cbn; ring|]. rewrite outer_fold. cbn. ring.
Qed.
Lemma wsum_ext L F G : (forall u, F u = G u) -> wsum L F = wsum L G.
Proof. intros H. induction L as [|a L IH]; cbn; [reflexivity|]. rewrite H. f_equal. exact IH. Qed.
Lemma wsum_plus L F G : wsum L (fun u => F u + G u) = wsum L F + wsum L G.
Proof. induction L as [|a L IH]; cbn in *; [ring|]. rewrite IH. ring. Qed.
Lemma wsum_scal L F c : wsum L (fun u => c * F u) = c * wsum L F.
Proof. induction L as [|a L IH]; cbn in *; [ring|]. rewrite IH. ring. Qed.
Lemma wsum_0 L : wsum L (fun _ => 0) = 0.
Proof. induction L as [|a L IH]; cbn in *; [ring|]. rewrite IH. ring. Qed.
Lemma quadrature_ext (h : hparams R) n f f' x y : (forall u v, f u v = f' u v) -> quadrature h n f x y = quadrature h n f' x y.
Proof. intros H. rewrite !quadrature_sums. apply wsum_ext. intros u. apply wsum_ext. intros v. apply H. Qed.
Lemma quadrature_plus (h : hparams R) n f f' x y :
  quadrature h n (fun u v => f u v + f' u v) x y = quadrature h n f x y + quadrature h n f' x y.
Proof. rewrite !quadrature_sums, <- wsum_plus. apply wsum_ext. intros v. apply wsum_plus. Qed.
Lemma quadrature_scal (h : hparams R) n f c x y : quadrature h n (fun u v => c * f u v) x y = c * quadrature h n f x y.
Proof. rewrite !quadrature_sums, <- wsum_scal. apply wsum_ext. intros v. apply wsum_scal. Qed.

Lemma sqrt30 : 5 < sqrt 30 < 6.
Proof.
  assert (H5 : sqrt (5 * 5) = 5) by (apply sqrt_square; lra). assert (H6 : sqrt (6 * 6) = 6) by (apply sqrt_square; lra).
  assert (sqrt (5 * 5) < sqrt 30) by (apply sqrt_lt_1; lra). assert (sqrt 30 < sqrt (6 * 6)) by (apply sqrt_lt_1; lra). lra.
Qed.
Lemma weights_pos n x d : List.Forall (fun a => 0 < snd a) (rule n x d).
Proof.
  unfold rule, gauss. assert (H := sqrt30). repeat match goal with |- context [if ?b then _ else _] => destruct b end;
    repeat constructor; cbn [snd]; unfold ofZ; cbn -[sqrt]; try lra.
  all: replace (30 / 1) with 30 by lra; lra.
Qed.
Lemma rule_nonempty n x d : (1 <= n <= 4)%Z -> rule n x d <> [].
Proof.
  intros Hn. assert (E : n = 1%Z \/ n = 2%Z \/ n = 3%Z \/ n = 4%Z) by lia.
  destruct E as [->|[->|[->| ->]]]; discriminate.
Qed.
Lemma wsum_pos L F : List.Forall (fun a => 0 < snd a) L -> L <> [] -> (forall u, 0 < F u) -> 0 < wsum L F.
Proof.
  intros HL Hn HF. assert (H0 : forall L, List.Forall (fun a : R * R => 0 < snd a) L -> 0 <= wsum L F).
  { induction 1 as [|a l Ha _ IH]; cbn; [lra|]. specialize (HF (fst a)).  nra. }
  destruct HL as [|a L Ha HL]; [congruence|]. cbn. specialize (H0 L HL). specialize (HF (fst a)).  nra.
Qed.
Lemma quadrature_pos (h : hparams R) n f x y : (1 <= n <= 4)%Z -> (forall u v, 0 < f u v) -> 0 < quadrature h n f x y.
Proof.
  intros Hn Hf. rewrite quadrature_sums. apply wsum_pos; [apply weights_pos|apply rule_nonempty; auto|].
  intros v. apply wsum_pos; [apply weights_pos|apply rule_nonempty; auto|]. intros u. apply Hf.
Qed.

(** Powers.  A symmetric rule with the right even moments. *)
Lemma sym_rule w0 w1 e1 w2 e2 d x k K : d <> 0 -> (k < K)%nat -> (K <= 8)%nat ->
  w0 + 2 * (w1 + w2) = 1 ->
  ((2 < K)%nat -> 2 * (w1 * e1 ^ 2 + w2 * e2 ^ 2) = d ^ 2 / 12) ->
  ((4 < K)%nat -> 2 * (w1 * e1 ^ 4 + w2 * e2 ^ 4) = d ^ 4 / 80) ->
  ((6 < K)%nat -> 2 * (w1 * e1 ^ 6 + w2 * e2 ^ 6) = d ^ 6 / 448) ->
  w0 * x ^ k + w1 * ((x - e1) ^ k + (x + e1) ^ k) + w2 * ((x - e2) ^ k + (x + e2) ^ k)
  = ((x + d / 2) ^ S k - (x - d / 2) ^ S k) / (INR (S k) * d).
Proof.
  intros Hd Hk HK M0 M2 M4 M6. apply Rminus_diag_uniq.
  set (E0 := w0 + 2 * (w1 + w2) - 1). set (E2 := 2 * (w1 * e1 ^ 2 + w2 * e2 ^ 2) - d ^ 2 / 12).
  set (E4 := 2 * (w1 * e1 ^ 4 + w2 * e2 ^ 4) - d ^ 4 / 80). set (E6 := 2 * (w1 * e1 ^ 6 + w2 * e2 ^ 6) - d ^ 6 / 448).
  assert (H0 : E0 = 0) by (unfold E0; lra).
  assert (H2 : (2 < K)%nat -> E2 = 0) by (intros H; unfold E2; rewrite M2 by exact H; lra).
  assert (H4 : (4 < K)%nat -> E4 = 0) by (intros H; unfold E4; rewrite M4 by exact H; lra).
  assert (H6 : (6 < K)%nat -> E6 = 0) by (intros H; unfold E6; rewrite M6 by exact H; lra).
  destruct k as [|[|[|[|[|[|[|[|k]]]]]]]]; [..|lia].
  - transitivity E0; [unfold E0; cbn; field; lra|lra].
  - transitivity (x * E0); [unfold E0; cbn; field; lra|rewrite H0; ring].
  - transitivity (x ^ 2 * E0 + E2); [unfold E0, E2; cbn; field; lra|rewrite H0, H2 by lia; ring].
  - transitivity (x ^ 3 * E0 + 3 * x * E2); [unfold E0, E2; cbn; field; lra|rewrite H0, H2 by lia; ring].
  - transitivity (x ^ 4 * E0 + 6 * x ^ 2 * E2 + E4); [unfold E0, E2, E4; cbn; field; lra|rewrite H0, H2, H4 by lia; ring].
  - transitivity (x ^ 5 * E0 + 10 * x ^ 3 * E2 + 5 * x * E4); [unfold E0, E2, E4; cbn; field; lra|rewrite H0, H2, H4 by lia; ring].
  - transitivity (x ^ 6 * E0 + 15 * x ^ 4 * E2 + 15 * x ^ 2 * E4 + E6); [unfold E0, E2, E4, E6; cbn; field; lra|rewrite H0, H2, H4, H6 by lia; ring].
  - transitivity (x ^ 7 * E0 + 21 * x ^ 5 * E2 + 35 * x ^ 3 * E4 + 7 * x * E6); [unfold E0, E2, E4, E6; cbn; field; lra|rewrite H0, H2, H4, H6 by lia; ring].
Qed.

Lemma power_exact n x d k : (1 <= n <= 4)%Z -> d <> 0 -> (Z.of_nat k < 2 * n)%Z ->
  wsum (rule n x d) (fun u => u ^ k) = ((x + d / 2) ^ S k - (x - d / 2) ^ S k) / (INR (S k) * d).
Proof.
  intros Hn Hd Hk. assert (E : n = 1%Z \/ n = 2%Z \/ n = 3%Z \/ n = 4%Z) by lia.
  destruct E as [->|[->|[->| ->]]].
  - rewrite <- (sym_rule 1 0 0 0 0 d x k 2); try lia; try lra; try (intros; exfalso; lia). unfold rule, wsum. cbn -[pow]. ring.
  - set (e := / 2 * d * 1 / sqrt 3).
    assert (Hs : sqrt 3 * sqrt 3 = 3) by (apply sqrt_sqrt; lra).
    assert (Hp : 0 < sqrt 3) by (apply sqrt_lt_R0; lra).
    assert (He : e ^ 2 = d ^ 2 / 12).
    { unfold e. transitivity (d ^ 2 / 4 / (sqrt 3 * sqrt 3)); [field; lra|]. rewrite Hs. field. }
    rewrite <- (sym_rule 0 (/ 2) e 0 0 d x k 4); try lia; try lra; try (intros; exfalso; lia).
    unfold rule, wsum, gauss, ofZ. cbn -[pow sqrt]. replace (3 / 1) with 3 by lra. fold e. ring.
  - set (e := / 2 * d * sqrt 3 / sqrt 5).
    assert (Hs : sqrt 3 * sqrt 3 = 3) by (apply sqrt_sqrt; lra).
    assert (Hs5 : sqrt 5 * sqrt 5 = 5) by (apply sqrt_sqrt; lra).
    assert (Hp : 0 < sqrt 5) by (apply sqrt_lt_R0; lra).
    assert (He : e ^ 2 = d ^ 2 * 3 / 20).
    { unfold e. transitivity (d ^ 2 / 4 * (sqrt 3 * sqrt 3) / (sqrt 5 * sqrt 5)); [field; lra|]. rewrite Hs, Hs5. field. }
    rewrite <- (sym_rule (4 / 9) (5 / 2 / 9) e 0 0 d x k 6); try lia; try lra; try (intros; exfalso; lia).
    + unfold rule, wsum, gauss, ofZ. cbn -[pow sqrt]. replace (3 / 1) with 3 by lra. replace (5 / 1) with 5 by lra. fold e. field.
    + intros _. replace (e ^ 4) with (e ^ 2 * e ^ 2) by ring. rewrite He. field.
  - set (r := sqrt 30). assert (Hr : r * r = 30) by (apply sqrt_sqrt; lra). assert (Hb := sqrt30). fold r in Hb.
    assert (E65 : sqrt (6 / 1 / (5 / 1)) = r / 5).
    { unfold r. replace (6 / 1 / (5 / 1)) with (30 / (5 * 5)) by field. rewrite sqrt_div_alt by lra. rewrite sqrt_square by lra. reflexivity. }
    set (a := sqrt (3 / 1 / (7 / 1) - 2 / (7 / 1) * sqrt (6 / 1 / (5 / 1)))).
    set (b := sqrt (3 / 1 / (7 / 1) + 2 / (7 / 1) * sqrt (6 / 1 / (5 / 1)))).
    assert (Ha : a * a = 3 / 7 - 2 * r / 35).
    { unfold a. rewrite E65, sqrt_sqrt; [field|lra]. }
    assert (Hb2 : b * b = 3 / 7 + 2 * r / 35).
    { unfold b. rewrite E65, sqrt_sqrt; [field|lra]. }
    set (ea := / 2 * d * a). set (eb := / 2 * d * b).
    assert (Hea : ea ^ 2 = d ^ 2 / 4 * (3 / 7 - 2 * r / 35)) by (unfold ea; rewrite <- Ha; field).
    assert (Heb : eb ^ 2 = d ^ 2 / 4 * (3 / 7 + 2 * r / 35)) by (unfold eb; rewrite <- Hb2; field).
    rewrite <- (sym_rule 0 (/ 2 * (/ 2 + r / 36)) ea (/ 2 * (/ 2 - r / 36)) eb d x k 8); try lia; try lra.
    + unfold rule, wsum, gauss, ofZ. cbn -[pow sqrt]. replace (30 / 1) with 30 by lra. replace (36 / 1) with 36 by lra. fold r a b. fold ea eb. ring.
    + intros _. rewrite Hea, Heb. field [Hr].
    + intros _. replace (ea ^ 4) with (ea ^ 2 * ea ^ 2) by ring. replace (eb ^ 4) with (eb ^ 2 * eb ^ 2) by ring. rewrite Hea, Heb. field [Hr].
    + intros _. replace (ea ^ 6) with (ea ^ 2 * ea ^ 2 * ea ^ 2) by ring. replace (eb ^ 6) with (eb ^ 2 * eb ^ 2 * eb ^ 2) by ring. rewrite Hea, Heb. field [Hr].
Qed.

Lemma is_RInt_power k lo hi : is_RInt (fun u => u ^ k) lo hi ((hi ^ S k - lo ^ S k) / INR (S k)).
Proof.
  assert (Hk : INR (S k) <> 0) by (apply not_0_INR; lia).
  replace ((hi ^ S k - lo ^ S k) / INR (S k)) with (minus (hi ^ S k / INR (S k)) (lo ^ S k / INR (S k))).
  2:{ unfold minus, plus, opp. cbn -[INR pow]. field. exact Hk. }
  apply (is_RInt_derive (fun u => u ^ S k / INR (S k))).
  - intros u _. auto_derive; [exact I|]. replace (Init.Nat.pred (S k)) with k by reflexivity.
    field. exact Hk.
  - intros u _. apply (ex_derive_continuous (fun u : R => u ^ k)). auto_derive. exact I.
Qed.
Lemma poly_exact n x d : (1 <= n <= 4)%Z -> d <> 0 -> forall l k, (Z.of_nat (k + length l) <= 2 * n)%Z ->
  is_RInt (fun u => u ^ k * poly l u) (x - d / 2) (x + d / 2) (d * wsum (rule n x d) (fun u => u ^ k * poly l u)).
Proof.
  intros Hn Hd. induction l as [|c l IH]; intros k Hk.
  - rewrite (wsum_ext _ _ (fun _ => 0)) by (intros; cbn; ring). rewrite wsum_0.
    replace (d * 0) with (scal (x + d / 2 - (x - d / 2)) 0) by (unfold scal; cbn; unfold mult; cbn; ring).
    apply (is_RInt_ext (fun _ => 0)); [intros; cbn; ring|apply @is_RInt_const].
  - cbn [length] in Hk.
    rewrite (wsum_ext _ _ (fun u => c * u ^ k + u ^ S k * poly l u)) by (intros; cbn; ring).
    rewrite wsum_plus, wsum_scal, Rmult_plus_distr_l.
    apply (is_RInt_ext (fun u => plus (scal c (u ^ k)) (u ^ S k * poly l u))).
    { intros. unfold plus, scal. cbn. unfold mult. cbn. ring. }
    apply @is_RInt_plus; [|apply IH; lia].
    replace (d * (c * wsum (rule n x d) (fun u => u ^ k))) with (scal c (d * wsum (rule n x d) (fun u => u ^ k))) by (unfold scal; cbn; unfold mult; cbn; ring).
    apply @is_RInt_scal. rewrite power_exact by (auto; lia).
    replace (d * _) with (((x + d / 2) ^ S k - (x - d / 2) ^ S k) / INR (S k)); [apply is_RInt_power|].
    assert (INR (S k) <> 0) by (apply not_0_INR; lia). field. auto.
Qed.
Lemma poly_exact0 n x d l : (1 <= n <= 4)%Z -> d <> 0 -> (Z.of_nat (length l) <= 2 * n)%Z ->
  is_RInt (poly l) (x - d / 2) (x + d / 2) (d * wsum (rule n x d) (poly l)).
Proof.
  intros Hn Hd Hl. rewrite (wsum_ext _ _ (fun u => u ^ 0 * poly l u)) by (intros; cbn; ring).
  apply (is_RInt_ext (fun u => u ^ 0 * poly l u)); [intros; cbn; ring|]. apply poly_exact; auto.
Qed.
Lemma quadrature_mean (h : hparams R) n l x y : (1 <= n <= 4)%Z -> 0 < dx h -> 0 < dy h ->
  (forall p q, In (p, q) l -> (Z.of_nat (length p) <= 2 * n)%Z /\ (Z.of_nat (length q) <= 2 * n)%Z) ->
  quadrature h n (poly2 l) x y = cell_mean (poly2 l) x y (dx h) (dy h).
Proof.
  intros Hn Ha Hb Hl. unfold cell_mean.
  set (Lx := rule n x (dx h)). set (Ly := rule n y (dy h)).
  assert (Hin : forall v, is_RInt (fun u => poly2 l u v) (x - dx h / 2) (x + dx h / 2) (dx h * wsum Lx (fun u => poly2 l u v))).
  { intros v. unfold Lx. clear - Hn Ha Hl. induction l as [|[p q] l IH].
    - rewrite (wsum_ext _ _ (fun _ => 0)) by reflexivity. rewrite wsum_0.
      replace (dx h * 0) with (scal (x + dx h / 2 - (x - dx h / 2)) 0) by (unfold scal; cbn; unfold mult; cbn; ring). apply @is_RInt_const.
    - rewrite (wsum_ext _ _ (fun u => poly q v * poly p u + poly2 l u v)) by (intros; cbn; ring).
      rewrite wsum_plus, wsum_scal, Rmult_plus_distr_l.
      apply (is_RInt_ext (fun u => plus (scal (poly q v) (poly p u)) (poly2 l u v))).
      { intros. unfold plus, scal. cbn. unfold mult. cbn. ring. }
      apply @is_RInt_plus; [|apply IH; intros; apply Hl; right; auto].
      replace (dx h * (poly q v * _)) with (scal (poly q v) (dx h * wsum (rule n x (dx h)) (poly p))) by (unfold scal; cbn; unfold mult; cbn; ring).
      apply @is_RInt_scal. apply poly_exact0; auto; [lra|]. apply (Hl p q). left. reflexivity. }
  assert (Hout : is_RInt (fun v => dx h * wsum Lx (fun u => poly2 l u v)) (y - dy h / 2) (y + dy h / 2)
                   (dy h * wsum Ly (fun v => dx h * wsum Lx (fun u => poly2 l u v)))).
  { clear Hin. unfold Ly. clear Ly. clearbody Lx. induction l as [|[p q] l IH].
    - rewrite (wsum_ext _ _ (fun _ => 0)) by (intros; cbn; rewrite wsum_0; ring). rewrite wsum_0.
      apply (is_RInt_ext (fun _ => 0)); [intros; cbn; rewrite wsum_0; ring|].
      replace (dy h * 0) with (scal (y + dy h / 2 - (y - dy h / 2)) 0) by (unfold scal; cbn; unfold mult; cbn; ring). apply @is_RInt_const.
    - assert (E : forall v, dx h * wsum Lx (fun u => poly2 ((p, q) :: l) u v) = (dx h * wsum Lx (poly p)) * poly q v + dx h * wsum Lx (fun u => poly2 l u v)).
      { intros v. rewrite (wsum_ext _ _ (fun u => poly q v * poly p u + poly2 l u v)) by (intros; cbn; ring). rewrite wsum_plus, wsum_scal. ring. }
      rewrite (wsum_ext _ _ _ E), wsum_plus, wsum_scal, Rmult_plus_distr_l.
      apply (is_RInt_ext (fun v => plus (scal (dx h * wsum Lx (poly p)) (poly q v)) (dx h * wsum Lx (fun u => poly2 l u v)))).
      { intros. rewrite E. reflexivity. }
      apply @is_RInt_plus; [|apply IH; intros; apply Hl; right; auto].
      replace (dy h * (_ * wsum (rule n y (dy h)) (poly q))) with (scal (dx h * wsum Lx (poly p)) (dy h * wsum (rule n y (dy h)) (poly q))) by (unfold scal; cbn; unfold mult; cbn; ring).
      apply @is_RInt_scal. apply poly_exact0; auto; [lra|]. apply (Hl p q). left. reflexivity. }
  rewrite (RInt_ext _ (fun v => dx h * wsum Lx (fun u => poly2 l u v))).
  2:{ intros v _. apply is_RInt_unique. apply Hin. }
  rewrite (is_RInt_unique _ _ _ _ Hout), wsum_scal, quadrature_sums. fold Lx Ly. field. lra.
Qed.

(** ** Isentropic vortex *)
Section Vortex.
Variable h : hparams R.
Variable q : vortex R.
Hypothesis Hgam : 1 < gamma0 h.
Local Notation gam := (gamma0 h).
Lemma mv_r2_eq x y : mv_r2 q x y = (x - iv_x q) * (x - iv_x q) + (y - iv_y q) * (y - iv_y q).
Proof. unfold mv_r2. cbn -[sqrt]. apply sqrt_sqrt. apply Rplus_le_le_0_compat; apply Rle_0_sqr. Qed.
Lemma compute_T_eq x y : compute_T RSLibm h q x y = vortex_T gam q x y.
Proof. unfold compute_T, vortex_T, ofZ. rewrite mv_r2_eq. cbn. assert (H := PI_RGT_0). field. lra. Qed.
Lemma compute_rho_eq x y : compute_rho RSLibm h q x y = hD (vortex_gas gam q x y).
Proof. unfold compute_rho, vortex_gas. rewrite compute_T_eq. cbn -[Rpower vortex_T]. unfold Rdiv at 2. rewrite Rmult_1_l. reflexivity. Qed.
Lemma compute_u_eq x y : compute_u RSLibm q x y = hU (vortex_gas gam q x y).
Proof.
  unfold compute_u, vortex_gas. rewrite mv_r2_eq. cbn [hU]. cbn. set (r := _ + _ * (y - iv_y q)). 
  replace (/ 2 * (1 - r)) with ((1 - r) / 2) by field. field. assert (H := PI_RGT_0). lra.
Qed.
Lemma compute_v_eq x y : compute_v RSLibm q x y = hV (vortex_gas gam q x y).
Proof.
  unfold compute_v, vortex_gas. rewrite mv_r2_eq. cbn [hV]. cbn. set (r := _ + _ * (y - iv_y q)). 
  replace (/ 2 * (1 - r)) with ((1 - r) / 2) by field. field. assert (H := PI_RGT_0). lra.
Qed.
Lemma compute_e_eq w x y : iv_p q = iv_rho q * iv_T q -> 0 < iv_T q -> 0 < vortex_T gam q x y ->
  compute_e RSLibm h q w x y = total_energy gam (vortex_gas gam q x y) + w * w / 2 * hD (vortex_gas gam q x y).
Proof.
  intros H1 H2 H3. unfold compute_e. cbv zeta. rewrite compute_T_eq, compute_rho_eq, compute_u_eq, compute_v_eq.
  unfold total_energy. rewrite (vortex_pressure h Hgam q x y H1 H2 H3).
  replace (hW (vortex_gas gam q x y)) with 0 by reflexivity. cbn -[vortex_gas vortex_T]. field. lra.
Qed.
Lemma density_pos x y : 0 < iv_rho q -> 0 < hD (vortex_gas gam q x y).
Proof. intros H. unfold vortex_gas. cbn [hD]. apply Rmult_lt_0_compat; [exact H|]. unfold Rpower. apply exp_pos. Qed.
End Vortex.
