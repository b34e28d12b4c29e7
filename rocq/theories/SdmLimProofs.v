From Coq Require Import ZArith List Bool Reals Lia Lra.
From Coquelicot Require Import Coquelicot.
From Verif Require Import Arith Par ParProofs GridModel HydroState HydroKernels CellKernels PointProofs MoodKernels MoodProofs
  TaskModel TaskKernels SdmGeom SdmSpec SdmLagrange SdmExact SdmPoints SdmKernels SdmDofs SdmProofs SdmRunSpec
  SdmConsSpec SdmConserve EulerModel EulerSpec SdmDt SdmDtProofs SdmPos SdmPosSpec SdmPosProofs SdmPosRun SdmLim SdmLimRun SdmLimSpec HydroConserve.
Import ListNotations.
Open Scope R_scope.

(** ** The minmod function *)
Lemma minmod_limited M a b c : tvb_limited M a b c (minmod M a b c).
Proof.
  unfold tvb_limited, minmod. ar. split.
  - intros H. destruct (Rlt_dec (Rabs a) M); [reflexivity|lra].
  - intros H. destruct (Rlt_dec (Rabs a) M); [lra|].
    assert (Q : forall x y, 0 < x * y <-> (0 < x /\ 0 < y) \/ (x < 0 /\ y < 0)).
    { intros x y. split; intros K.
      - destruct (Rtotal_order x 0) as [X|[X|X]]; destruct (Rtotal_order y 0) as [Y|[Y|Y]]; subst; try (exfalso; nra); auto.
      - destruct K as [[K1 K2]|[K1 K2]]; nra. }
    split; [|split].
    + intros (A1 & A2 & A3). destruct (Rlt_dec 0 (a * b)) as [_|K]; [|exfalso; apply K, Q; auto].
      destruct (Rlt_dec 0 (b * c)) as [_|K]; [|exfalso; apply K, Q; auto]. cbn [andb].
      destruct (Rlt_dec 0 a); [|lra]. rewrite !Rabs_pos_eq by lra. ring.
    + intros (A1 & A2 & A3). destruct (Rlt_dec 0 (a * b)) as [_|K]; [|exfalso; apply K, Q; auto].
      destruct (Rlt_dec 0 (b * c)) as [_|K]; [|exfalso; apply K, Q; auto]. cbn [andb].
      destruct (Rlt_dec 0 a); [lra|]. rewrite !Rabs_left by lra. rewrite <- !Ropp_Rmax. ring.
    + intros K1 K2. destruct (Rlt_dec 0 (a * b)) as [X|_]; [|reflexivity]. destruct (Rlt_dec 0 (b * c)) as [Y|_]; [|reflexivity].
      exfalso. apply Q in X. apply Q in Y. lra.
Qed.
Lemma limited_unique M a b c r r' : tvb_limited M a b c r -> tvb_limited M a b c r' -> r = r'.
Proof.
  intros [H1 H2] [G1 G2]. destruct (Rlt_le_dec (Rabs a) M) as [L|L]; [rewrite H1, G1; auto|].
  destruct (H2 L) as (A1 & A2 & A3). destruct (G2 L) as (B1 & B2 & B3).
  assert (D : forall x y z : R, (0 < x /\ 0 < y /\ 0 < z) \/ ~ (0 < x /\ 0 < y /\ 0 < z)).
  { clear. intros x y z. destruct (Rlt_dec 0 x) as [X|X]; [|right; intros [K _]; auto].
    destruct (Rlt_dec 0 y) as [Y|Y]; [|right; intros (_ & K & _); auto].
    destruct (Rlt_dec 0 z) as [Z|Z]; [|right; intros (_ & _ & K); auto]. left. auto. }
  destruct (D a b c) as [Q|Q]; [rewrite A1, B1; auto|].
  destruct (D (- a) (- b) (- c)) as [Q'|Q'].
  - assert (a < 0 /\ b < 0 /\ c < 0) by (clear - Q'; destruct Q' as (? & ? & ?); repeat split; lra). rewrite A2, B2; auto.
  - assert (~ (a < 0 /\ b < 0 /\ c < 0)) by (intros (K1 & K2 & K3); apply Q'; clear - K1 K2 K3; repeat split; lra). rewrite A3, B3; auto.
Qed.
Lemma limited_same M a : tvb_limited M a a a a.
Proof.
  split; [auto|]. intros _. split; [|split].
  - intros _. unfold Rmin. repeat destruct (Rle_dec _ _); reflexivity.
  - intros _. unfold Rmax. repeat destruct (Rle_dec _ _); reflexivity.
  - intros H1 H2. lra.
Qed.
Lemma limited_zero M b c : tvb_limited M 0 b c 0.
Proof. split; [auto|]. intros _. split; [|split]; intros; lra. Qed.

(** ** Sums over the points of a cell *)
Section Sums.
Variable b3 : bool.
Variable P : points R.
Notation N := (npts P).
Definition wprod (u : Z -> R) (q : cell) : R := let '(x, y, z) := q in if b3 then u x * u y * u z else u x * u y.
Lemma affine_sum (u x : Z -> R) S m (k : Z -> R) :
  lsum u (zrange 0 N) = S -> lsum (fun i => u i * (x i - / 2)) (zrange 0 N) = 0 ->
  lsum (fun q => wprod u q * (m + lsum (fun a => (x (coord q a) - / 2) * k a) (dirs b3))) (dofs b3 P) =
  S ^ (if b3 then 3 else 2) * m.
Proof.
  intros HS H0.
  assert (L : forall A B, lsum (fun i => u i * (A + B * (x i - / 2))) (zrange 0 N) = S * A).
  { intros A B. rewrite (lsum_ext _ (fun i => A * u i + B * (u i * (x i - / 2)))) by (intros; ring).
    rewrite lsum_add, (lsum_scal A), (lsum_scal B), HS, H0. ring. }
  unfold dofs, box, cell, wprod. rewrite !lsum_prod. destruct b3; unfold dirs, coord, IX, IY, IZ; cbn [lsum Z.eqb Pos.eqb].
  - rewrite (lsum_ext _ (fun i => u i * ((S * S * m) + (S * S * k 0%Z) * (x i - / 2)))).
    + rewrite L. ring.
    + intros i _. rewrite (lsum_ext _ (fun j => u j * ((u i * S * (m + k 0%Z * (x i - / 2))) + (u i * S * k 1%Z) * (x j - / 2)))).
      * rewrite L. ring.
      * intros j _. rewrite (lsum_ext _ (fun n => u n * ((u i * u j * (m + k 0%Z * (x i - / 2) + k 1%Z * (x j - / 2))) + (u i * u j * k 2%Z) * (x n - / 2)))) by (intros; ring).
        rewrite L. ring.
  - rewrite (lsum_ext _ (fun i => u i * ((S * m) + (S * k 0%Z) * (x i - / 2)))).
    + rewrite L. ring.
    + intros i _. rewrite (lsum_ext _ (fun j => u j * ((u i * (m + k 0%Z * (x i - / 2))) + (u i * k 1%Z) * (x j - / 2)))) by (intros; ring).
      rewrite L. ring.
Qed.
Lemma quad_wprod q : In q (dofs b3 P) -> quad b3 P q = wprod (point_weight P) q.
Proof.
  intros _. destruct q as [[i j] n]. unfold quad, wprod, dirs, coord. destruct b3; cbn [fold_right Z.eqb Pos.eqb IX IY IZ];
    change (IX =? IX)%Z with true; change (IY =? IX)%Z with false; change (IY =? IY)%Z with true; change (IZ =? IX)%Z with false; change (IZ =? IY)%Z with false; cbv iota; ring.
Qed.
Hypothesis HN : (1 <= N)%Z.
Hypothesis HP : distinct N (solp P).
Hypothesis H1 : N = 1%Z -> solp P 0 = / 2.
Lemma weights_linear : lsum (fun i => point_weight P i * (solp P i - / 2)) (zrange 0 N) = 0.
Proof.
  destruct (Z.eq_dec N 1) as [E|E].
  - rewrite E, <- E at 1. rewrite E. change (zrange 0 1) with [0%Z]. cbn [lsum]. rewrite H1 by auto. ring.
  - rewrite lsum_suml. change (point_weight P) with (weight P).
    assert (Q : ispoly 2 (fun x => x - / 2)).
    { exists [- / 2; 1]. split; [cbn; lia|]. intros x. cbn. ring. }
    pose proof (weighted_sum P 2 (fun x => x - / 2) HP ltac:(lia) Q) as W.
    apply (is_RInt_unique (V := R_CompleteNormedModule)) in W. rewrite <- W.
    apply (is_RInt_unique (V := R_CompleteNormedModule)).
    replace 0 with ((fun x => x * x / 2 - x / 2) 1 - (fun x => x * x / 2 - x / 2) 0) at 2 by (cbn; field).
    apply (is_RInt_derive (V := R_CompleteNormedModule) (fun x => x * x / 2 - x / 2) (fun x => x - / 2)).
    + intros x _. auto_derive; auto. field.
    + intros x _. apply (ex_derive_continuous (V := R_NormedModule)). auto_derive. auto.
Qed.
(** The average of an affine cell is the value at its centre. *)
Lemma affine_average (U : cell -> cell -> Z -> R) c m k v : affine_cell b3 P m k (U c) -> In v (vars b3) -> average b3 P U c v = m v.
Proof.
  intros H Hv. unfold average.
  rewrite (lsum_ext _ (fun q => wprod (point_weight P) q * (m v + lsum (fun a => (solp P (coord q a) - / 2) * k a v) (dirs b3)))).
  - rewrite (affine_sum (point_weight P) (solp P) 1); [destruct b3; ring| |apply weights_linear].
    rewrite lsum_suml. apply weights_one; auto.
  - intros q Hq. rewrite quad_wprod, H by auto. reflexivity.
Qed.
End Sums.

(** ** The quadrature of the code *)
Section Cheb.
Variable b3 : bool.
Variable N : Z.
Variable p : hparams R.
Hypothesis HN : (1 <= N)%Z.
Notation P := (sdm_points N).
Definition excess_factor : R := (half_angle N / sin (half_angle N)) ^ (if b3 then 3 else 2).
Lemma excess_factor_gt1 : 1 < excess_factor.
Proof.
  pose proof (factor_gt1 N HN) as F. unfold excess_factor. set (y := half_angle N / sin (half_angle N)) in *. clearbody y. clear - F.
  assert (1 < y * y) by nra. destruct b3; cbn [pow]; nra.
Qed.
Lemma quadrature_sum (f : cell -> R) : quadrature b3 P PI f = (PI / IZR N) ^ (if b3 then 3 else 2) * lsum (fun q => wprod b3 (cheb_weight N) q * f q) (dofs b3 P).
Proof.
  unfold quadrature. cbv zeta.
  replace (fold_left _ (dofs b3 P) zero) with (lsum (fun q => wprod b3 (cheb_weight N) q * f q) (dofs b3 P)).
  - assert (E : lit (npts P) 1 = IZR N) by (unfold lit; cbn; unfold Rdiv; rewrite Rinv_1; ring).
    rewrite E. destruct b3; cbn [mul div RArith pow]; ring.
  - rewrite (fold_left_ext_in _ (fun t q => t + wprod b3 (cheb_weight N) q * f q)).
    + rewrite fold_lsum. change (@zero R RArith) with 0. ring.
    + intros t [[x y] z] _. unfold wprod.
      assert (W : forall i, wcheb P i = cheb_weight N i) by reflexivity. rewrite !W. destruct b3; cbn [mul add RArith]; ring.
Qed.
Lemma sol_sym i : sol_ptsR N (N - 1 - i) = 1 - sol_ptsR N i.
Proof.
  unfold sol_ptsR. replace (PI * (2 * IZR (N - 1 - i) + 1) / 2 / IZR N) with (- (PI * (2 * IZR i + 1) / 2 / IZR N) + PI).
  - rewrite neg_cos, cos_neg. field.
  - rewrite !minus_IZR. field. apply not_0_IZR. lia.
Qed.
Lemma cheb_sym i : cheb_weight N (N - 1 - i) = cheb_weight N i.
Proof. unfold cheb_weight. rewrite sol_sym. cbv zeta. f_equal. ring. Qed.
Lemma zrange_rev (f : Z -> R) : lsum f (zrange 0 N) = lsum (fun i => f (N - 1 - i)%Z) (zrange 0 N).
Proof.
  assert (Sh : forall n, (0 <= n)%Z -> forall h : Z -> R, lsum h (zrange 1 (n + 1)) = lsum (fun i => h (i + 1)%Z) (zrange 0 n)).
  { intros n Hn. pattern n. apply natlike_ind; [intros h; rewrite !zrange_nil by lia; reflexivity| |exact Hn].
    intros k Hk IH h. rewrite zrange_snoc, (zrange_snoc 0) by lia. rewrite !lsum_app. cbn [lsum].
    replace (Z.succ k + 1 - 1)%Z with (k + 1)%Z by lia. replace (Z.succ k - 1)%Z with k by lia. rewrite IH. reflexivity. }
  assert (G : forall n, (0 <= n)%Z -> forall h : Z -> R, lsum h (zrange 0 n) = lsum (fun i => h (n - 1 - i)%Z) (zrange 0 n)).
  { intros n Hn. pattern n. apply natlike_ind; [intros h; rewrite !zrange_nil by lia; reflexivity| |exact Hn].
    intros k Hk IH h. rewrite zrange_snoc at 1 by lia. rewrite lsum_app. cbn [lsum]. replace (Z.succ k - 1)%Z with k by lia. rewrite (IH h).
    rewrite (zrange_cons 0 (Z.succ k)) by lia. cbn [lsum]. rewrite Rplus_0_r, Rplus_comm. f_equal; [f_equal; lia|].
    change (0 + 1)%Z with 1%Z. change (Z.succ k) with (k + 1)%Z. rewrite Sh by lia. apply lsum_ext. intros i Hi. f_equal. lia. }
  apply G. lia.
Qed.
Lemma cheb_linear : lsum (fun i => cheb_weight N i * (sol_ptsR N i - / 2)) (zrange 0 N) = 0.
Proof.
  set (f := fun i => cheb_weight N i * (sol_ptsR N i - / 2)).
  assert (E : lsum f (zrange 0 N) = - lsum f (zrange 0 N)); [|lra].
  rewrite zrange_rev at 1. rewrite (lsum_ext _ (fun i => (-1) * f i)); [rewrite lsum_scal; ring|].
  intros i _. unfold f. rewrite cheb_sym, sol_sym. field.
Qed.
(** Affine values are multiplied by a factor above one. *)
Lemma quadrature_affine (f : cell -> R) m k :
  (forall q, In q (dofs b3 P) -> f q = m + lsum (fun a => (solp P (coord q a) - / 2) * k a) (dirs b3)) ->
  quadrature b3 P PI f = excess_factor * m.
Proof.
  intros H. rewrite quadrature_sum. rewrite (lsum_ext _ (fun q => wprod b3 (cheb_weight N) q * (m + lsum (fun a => (solp P (coord q a) - / 2) * k a) (dirs b3)))) by (intros q Hq; rewrite H; auto).
  rewrite (affine_sum b3 P (cheb_weight N) (solp P) _ m k eq_refl cheb_linear).
  unfold excess_factor. rewrite <- (cheb_total N) by auto. destruct b3; cbn [pow]; change (npts P) with N; ring.
Qed.
Lemma average_affine (V : local) m k v : (v = ID -> 0 < smallr p <= m) ->
  (forall q, In q (dofs b3 P) -> V q v = m + lsum (fun a => (solp P (coord q a) - / 2) * k a) (dirs b3)) ->
  cell_average b3 P p PI V v = excess_factor * m.
Proof.
  intros Hm H. unfold cell_average. rewrite (quadrature_affine (fun q => V q v) m k H). cbv zeta.
  destruct (Z.eqb_spec v ID) as [E|E]; [|reflexivity]. pose proof excess_factor_gt1. destruct (Hm E). ar.
  destruct (Rlt_dec (smallr p) (excess_factor * m)); [reflexivity|exfalso; nra].
Qed.
Lemma gradient_affine dir (V : local) m k v : In dir (dirs b3) -> distinct N (sol_ptsR N) ->
  (forall q, In q (dofs b3 P) -> V q v = m + lsum (fun a => (solp P (coord q a) - / 2) * k a) (dirs b3)) ->
  cell_gradient b3 P PI dir V v = if (N =? 1)%Z then 0 else excess_factor * k dir.
Proof.
  intros Hd HP H. unfold cell_gradient.
  set (z := if (N =? 1)%Z then 0 else k dir).
  rewrite (quadrature_affine _ z (fun _ => 0)).
  - unfold z. destruct (N =? 1)%Z; ring.
  - intros q Hq. rewrite (lsum_ext _ (fun _ => 0)) by (intros; ring). rewrite lsum_0, Rplus_0_r.
    unfold gradient_at. set (C := m + lsum (fun a => if (a =? dir)%Z then - / 2 * k a else (solp P (coord q a) - / 2) * k a) (dirs b3)).
    rewrite (dot_ext _ _ (fun i => peval [C; k dir] (solp P i))).
    + transitivity (sol2sol_derivative P (fun i => peval [C; k dir] (solp P i)) (coord q dir) 1).
      * unfold sol2sol_derivative. ar. ring.
      * unfold z. destruct (Z.eqb_spec N 1) as [E|E].
        -- unfold sol2sol_derivative, dot, loopv. change (npts P) with N. rewrite E. change (zrange 0 1) with [0%Z]. cbn [fold_left].
           unfold m_sol2sol_derivative, loopv. change (npts (sdm_points 1)) with 1%Z. change (zrange 0 1) with [0%Z]. cbn [fold_left]. ar.
           change (0 =? 0)%Z with true. cbv iota. ring.
        -- rewrite exact_sol_derivative; [|exact HP|cbn; lia].
           rewrite (Derive_ext _ (fun x => C + x * k dir)) by (intros; cbn; ring).
           rewrite (is_derive_unique _ _ (k dir)); [ring|]. auto_derive; auto. ring.
    + intros i Hi. rewrite H by (apply setc_dofs; auto). unfold C. clear C. cbn [peval]. destruct q as [[x0 y0] z0].
      clear - Hd. unfold dirs in *. destruct b3; cbn in Hd.
      * destruct Hd as [<-|[<-|[<-|[]]]]; unfold setc, coord, IX, IY, IZ; cbn [lsum Z.eqb Pos.eqb]; ring.
      * destruct Hd as [<-|[<-|[]]]; unfold setc, coord, IX, IY, IZ; cbn [lsum Z.eqb Pos.eqb]; ring.
Qed.
End Cheb.

(** ** One cell *)
Section Cell.
Variable b3 : bool.
Variable P : points R.
Variable p : hparams R.
Variable M : R.
Notation state := (fun f => state_of b3 f).
Lemma hget_comp (q : hs R) v : hget q v = comp q v. Proof. reflexivity. Qed.
Lemma comp_hs_of (f : Z -> R) v : In v (vars b3) -> comp (hs_of b3 f) v = f v.
Proof.
  intros Hv. apply In_vars in Hv. assert (H : (0 <= v < 5)%Z) by (revert Hv; unfold nbv; destruct b3; lia).
  apply v5 in H. destruct H as [->|[->|[->|[->| ->]]]]; try reflexivity.
  unfold hs_of, comp. cbn. revert Hv. unfold nbv, IW. destruct b3; [reflexivity|lia].
Qed.
Lemma hs_eta (q q' : hs R) : (b3 = false -> hW q = hW q') -> (forall v, In v (vars b3) -> comp q v = comp q' v) -> q = q'.
Proof.
  intros H0 H. assert (V : forall v, (0 <= v < 4)%Z -> In v (vars b3)) by (intros; apply In_vars; unfold nbv; destruct b3; lia).
  pose proof (H ID (V ID ltac:(unfold ID; lia))) as A1. pose proof (H IP (V IP ltac:(unfold IP; lia))) as A2.
  pose proof (H IU (V IU ltac:(unfold IU; lia))) as A3. pose proof (H IV (V IV ltac:(unfold IV; lia))) as A4.
  assert (A5 : hW q = hW q').
  { destruct b3; [|auto]. apply (H IW). apply In_vars. unfold IW. cbn. lia. }
  cbn in A1, A2, A3, A4. destruct q, q'. cbn in *. congruence.
Qed.
Lemma charac_planar dir d q c : b3 = false -> hW (cons_to_charac b3 (gamma0 p) dir d q c) = 0.
Proof. intros ->. unfold cons_to_charac. destruct (dir =? IX)%Z; reflexivity. Qed.
Lemma charac0 dir q c : In dir (dirs b3) -> cons_to_charac b3 (gamma0 p) dir (hs_of b3 (fun _ => 0)) q c = hs_of b3 (fun _ => 0).
Proof.
  intros Hd. apply dirs_cases in Hd. unfold cons_to_charac, hs_of.
  destruct Hd as [->|[->|[-> Hb]]]; [destruct b3|destruct b3|rewrite Hb]; cbn [hD hP hU hV hW Z.eqb Pos.eqb IX IY IZ];
    change (IX =? IX)%Z with true; change (IY =? IX)%Z with false; change (IY =? IY)%Z with true; change (IZ =? IX)%Z with false; change (IZ =? IY)%Z with false; cbv iota zeta;
    ar; f_equal; unfold Rdiv; ring.
Qed.
(** Total change of the characteristic slopes. *)
Lemma change_sum dir I : change b3 p M dir I = lsum (fun v => Rabs (comp (du_new b3 p M dir I) v - comp (du b3 p dir I) v)) (vars b3) / IZR (nbv b3).
Proof.
  unfold change. rewrite (fold_lsum (fun v => Rabs (hget (du_new b3 p M dir I) v - hget (du b3 p dir I) v))).
  change (@zero R RArith) with 0. rewrite Rplus_0_l. cbn [div RArith]. unfold lit. cbn [RArith]. f_equal. field.
Qed.
Lemma active_iff I : active b3 p M I = true <->
  1 / 10000000000 < lsum (fun d => lsum (fun v => Rabs (comp (du_new b3 p M d I) v - comp (du b3 p d I) v)) (vars b3)) (dirs b3) / IZR (nbv b3).
Proof.
  unfold active. rewrite !change_sum. set (S := fun d => lsum (fun v => Rabs (comp (du_new b3 p M d I) v - comp (du b3 p d I) v)) (vars b3)).
  change (lsum (fun v => Rabs (comp (du_new b3 p M IX I) v - comp (du b3 p IX I) v)) (vars b3)) with (S IX).
  change (lsum (fun v => Rabs (comp (du_new b3 p M IY I) v - comp (du b3 p IY I) v)) (vars b3)) with (S IY).
  change (lsum (fun v => Rabs (comp (du_new b3 p M IZ I) v - comp (du b3 p IZ I) v)) (vars b3)) with (S IZ). clearbody S. cbn [add RArith].
  assert (E : (if b3 then S IX / IZR (nbv b3) + S IY / IZR (nbv b3) + S IZ / IZR (nbv b3) else S IX / IZR (nbv b3) + S IY / IZR (nbv b3)) =
    lsum S (dirs b3) / IZR (nbv b3)).
  { unfold dirs. destruct b3; cbn [lsum nbv]; field. }
  rewrite E. ar. destruct (Rlt_dec _ _); split; intros; auto; try discriminate; contradiction.
Qed.
Lemma linear_affine I : affine_cell b3 P (comp (i_ave I)) (fun d v => comp (slope b3 p M d I) v) (linear_value b3 P p M I).
Proof.
  intros [[x y] z] v _ _. unfold linear_value, dirs, coord, IX, IY, IZ. rewrite !hget_comp. ar.
  destruct b3; cbn [lsum Z.eqb Pos.eqb]; unfold half; ar; change (@hget R) with (@comp R); ring.
Qed.
End Cell.
