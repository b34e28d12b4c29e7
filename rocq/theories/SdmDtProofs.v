(** Proofs about the time step and the averages of the spectral difference solver. *)
From Coq Require Import ZArith List Bool Reals Lia Lra Psatz.
From Coquelicot Require Import Coquelicot.
From Verif Require Import Arith Par ParProofs GridModel HydroState HydroKernels CellKernels HydroConserve Physics ReduceModel DtProofs MoodKernels MoodProofs
  SdmGeom SdmSpec SdmPoints EulerModel SdmKernels SdmDofs SdmProofs SdmRunSpec SdmRun SdmConsSpec SdmConserve SdmDt.
Import ListNotations.
Open Scope R_scope.

(** ** The reduction *)
Section D.
Variable b3 : bool.
Variable P : points R.
Variable p : hparams R.
Variable g : grid.
Variable tiny : R.
Hypothesis Hok : sdm_ok b3 P g.
Hypothesis Hdx : 0 < dx p /\ 0 < dy p /\ 0 < dz p.
Notation rate := (sdm_rate b3 P p).

Lemma join_max x y : sdm_join x y = Rmax x y.
Proof.
  unfold sdm_join. cbn [ltb RArith]. destruct (Rlt_dec x y).
  - symmetry. apply Rmax_right. lra.
  - symmetry. apply Rmax_left. lra.
Qed.
Lemma fold_max {X} (f : X -> R) l m : fold_left (fun m q => Rmax m (f q)) l m = m \/ exists q, In q l /\ fold_left (fun m q => Rmax m (f q)) l m = f q.
Proof.
  revert m. induction l as [|x l IH]; intros m; cbn [fold_left]; [left; auto|].
  destruct (IH (Rmax m (f x))) as [E|(q & Hq & E)]; [|right; exists q; split; [right; auto|auto]].
  rewrite E. unfold Rmax. destruct (Rle_dec m (f x)); [right; exists x; split; [left; auto|auto]|left; auto].
Qed.
Lemma fold_max_ge {X} (f : X -> R) l m : m <= fold_left (fun m q => Rmax m (f q)) l m /\ forall q, In q l -> f q <= fold_left (fun m q => Rmax m (f q)) l m.
Proof.
  revert m. induction l as [|x l IH]; intros m; cbn [fold_left].
  - split; [lra|intros q []].
  - destruct (IH (Rmax m (f x))) as [H1 H2]. pose proof (Rmax_l m (f x)). pose proof (Rmax_r m (f x)). split; [lra|].
    intros q [<-|Hq]; [lra|auto].
Qed.

(** The result is the largest rate, or the initial value. *)
Lemma dt_bounds s a r : reduces tiny (sdm_dt_body b3 P p g s a) sdm_join (cells b3 g) r ->
  tiny <= r /\
  (forall c q, In c (cells b3 g) -> inside b3 g c = true -> In q (dofs b3 P) -> rate (load_point b3 P s a c q) <= r) /\
  (r = tiny \/ exists c q, In c (cells b3 g) /\ inside b3 g c = true /\ In q (dofs b3 P) /\ r = rate (load_point b3 P s a c q)).
Proof.
  intros (l & Hl & Hp).
  assert (G : tiny <= r /\
    (forall c q, In c l -> inside b3 g c = true -> In q (dofs b3 P) -> rate (load_point b3 P s a c q) <= r) /\
    (r = tiny \/ exists c q, In c l /\ inside b3 g c = true /\ In q (dofs b3 P) /\ r = rate (load_point b3 P s a c q))).
  { clear Hl. induction Hp as [|l acc x Hp IH|l1 l2 y z Hp1 IH1 Hp2 IH2].
    - split; [lra|split; [intros c q []|auto]].
    - destruct IH as (I1 & I2 & I3). unfold sdm_dt_body. cbn [maxv RArith]. destruct (inside b3 g x) eqn:Ei.
      + destruct (fold_max_ge (fun q => rate (load_point b3 P s a x q)) (dofs b3 P) acc) as [M1 M2].
        destruct (fold_max (fun q => rate (load_point b3 P s a x q)) (dofs b3 P) acc) as [M3|(q0 & Hq0 & M3)].
        * split; [lra|split].
          -- intros c q [<-|Hc] Hi Hq; [auto|]. specialize (I2 c q Hc Hi Hq). lra.
          -- rewrite M3. destruct I3 as [->|(c & q & Hc & H)]; [auto|right; exists c, q; split; [right; auto|auto]].
        * split; [lra|split].
          -- intros c q [<-|Hc] Hi Hq; [auto|]. specialize (I2 c q Hc Hi Hq). lra.
          -- right. exists x, q0. repeat split; auto. left; auto.
      + split; [lra|split].
        * intros c q [<-|Hc] Hi Hq; [congruence|]. auto.
        * destruct I3 as [->|(c & q & Hc & H)]; [auto|right; exists c, q; split; [right; auto|auto]].
    - destruct IH1 as (I1 & I2 & I3), IH2 as (J1 & J2 & J3). rewrite join_max. pose proof (Rmax_l y z). pose proof (Rmax_r y z).
      split; [lra|split].
      + intros c q Hc Hi Hq. apply in_app_iff in Hc. destruct Hc as [Hc|Hc].
        * specialize (I2 c q Hc Hi Hq). lra.
        * specialize (J2 c q Hc Hi Hq). lra.
      + unfold Rmax. destruct (Rle_dec y z).
        * destruct J3 as [->|(c & q & Hc & H')]; [auto|right; exists c, q; split; [apply in_app_iff; auto|auto]].
        * destruct I3 as [->|(c & q & Hc & H')]; [auto|right; exists c, q; split; [apply in_app_iff; auto|auto]]. }
  assert (HI : forall c, In c l <-> In c (cells b3 g)).
  { intros c. split; apply Permutation.Permutation_in; [|apply Permutation.Permutation_sym]; exact Hl. }
  destruct G as (G1 & G2 & G3). split; [auto|split].
  - intros c q Hc. apply G2. apply HI; auto.
  - destruct G3 as [G3|(c & q & Hc & G3)]; [auto|right; exists c, q]. rewrite <- HI. auto.
Qed.

(** An interior cell and a point. *)
Lemma some_cell : exists c, In c (cells b3 g) /\ inside b3 g c = true.
Proof.
  set (c := (gw g, gw g, if b3 then gw g else 0%Z) : cell).
  assert (Hi : inside b3 g c = true).
  { rewrite (inside_iff b3 g). intros a Ha. pose proof (size_pos b3 P g Hok a Ha) as [H1 H2]. apply dirs_cases in Ha.
    unfold c. destruct Ha as [->|[->|[-> Hb]]]; cbn; try rewrite Hb; cbn in *; lia. }
  exists c. split; [|auto]. apply (inside_C b3 P g (fun _ _ => HS 0 0 0 0 0) Hok); auto. intros Hb. unfold c. rewrite Hb. reflexivity.
Qed.
Lemma some_dof : exists q, In q (dofs b3 P).
Proof.
  exists (0, 0, 0)%Z. apply In_dofs. pose proof (HN b3 P g Hok). split; [|auto].
  intros a Ha. apply dirs_cases in Ha. destruct Ha as [->|[->|[-> _]]]; cbn; lia.
Qed.

Hypothesis Hg : 1 < gamma0 p.
Variable s : store R.
Variable a : Z.
(** Every interior point has positive density. *)
Hypothesis Hrho : forall c q, In c (cells b3 g) -> inside b3 g c = true -> In q (dofs b3 P) -> 0 < s (sloc b3 P a c q ID).
Notation prim c q := (convert_to_primitive b3 (gamma0 p) (load_point b3 P s a c q)).
(** Signal rate on the grid of points, with the speed of sound of the equations. *)
Definition true_rate (q : hs R) : R :=
  let c := sound_speed (gamma0 p) q in
  let n := IZR (npts P) in
  (c + Rabs (hU q)) / (dx p / n) + (c + Rabs (hV q)) / (dy p / n) + (if b3 then (c + Rabs (hW q)) / (dz p / n) else 0).

Lemma load_D c q : hD (load_point b3 P s a c q) = s (sloc b3 P a c q ID).
Proof. unfold load_point, of_list, vars, nbv. destruct b3; reflexivity. Qed.
Lemma prim_pos c q : In c (cells b3 g) -> inside b3 g c = true -> In q (dofs b3 P) -> 0 < hD (prim c q) /\ 0 < hP (prim c q).
Proof.
  intros Hc Hi Hq. pose proof (Hrho c q Hc Hi Hq) as Hr0. unfold convert_to_primitive. cbn [hD hP]. rewrite load_D. split; [auto|].
  cbn [maxv RArith]. eapply Rlt_le_trans; [|apply Rmax_r]. unfold eul_smallp. cbn [mul lit RArith].
  apply Rmult_lt_0_compat; [lra|]. destruct b3; [auto|]. eapply Rlt_le_trans; [exact Hr0|apply Rmax_l].
Qed.
Lemma speed_sq c q : In c (cells b3 g) -> inside b3 g c = true -> In q (dofs b3 P) ->
  0 < sound_speed (gamma0 p) (prim c q) /\
  compute_speed_of_sound (gamma0 p) (prim c q) = sound_speed (gamma0 p) (prim c q) * sound_speed (gamma0 p) (prim c q).
Proof.
  intros Hc Hi Hq. destruct (prim_pos c q Hc Hi Hq) as [H1 H2]. unfold sound_speed, compute_speed_of_sound. cbn [div mul RArith].
  assert (Hpos : 0 < gamma0 p * hP (prim c q) / hD (prim c q)) by (apply Rdiv_lt_0_compat; auto; apply Rmult_lt_0_compat; lra).
  split; [apply sqrt_lt_R0; auto|]. rewrite sqrt_sqrt by lra. unfold Rdiv. ring.
Qed.
Lemma h_pos : 0 < dx p / IZR (npts P) /\ 0 < dy p / IZR (npts P) /\ 0 < dz p / IZR (npts P).
Proof.
  pose proof (HN b3 P g Hok) as HN. assert (0 < IZR (npts P)) by (apply IZR_lt; lia). destruct Hdx as (? & ? & ?).
  repeat split; apply Rdiv_lt_0_compat; auto.
Qed.
(** The rate of the code as a function of c. *)
Definition rate_of (c : R) (q : hs R) : R :=
  let n := IZR (npts P) in
  (c + Rabs (hU q)) / (dx p / n) + (c + Rabs (hV q)) / (dy p / n) + (if b3 then (c + Rabs (hW q)) / (dz p / n) else 0).
Lemma rate_code c q : rate (load_point b3 P s a c q) = rate_of (compute_speed_of_sound (gamma0 p) (prim c q)) (prim c q).
Proof.
  unfold sdm_rate, rate_of. cbv zeta. cbn [add div absv lit RArith].
  replace (IZR (npts P) / 1) with (IZR (npts P)) by field. destruct b3; [reflexivity|ring].
Qed.
Lemma rate_mono c c' q : c <= c' -> rate_of c q <= rate_of c' q.
Proof.
  intros H. destruct h_pos as (H1 & H2 & H3). unfold rate_of, Rdiv.
  assert (M : forall x h, 0 < h -> (c + x) * / h <= (c' + x) * / h).
  { intros x h Hh. apply Rmult_le_compat_r; [left; apply Rinv_0_lt_compat; auto|lra]. }
  pose proof (M (Rabs (hU q)) _ H1). pose proof (M (Rabs (hV q)) _ H2). pose proof (M (Rabs (hW q)) _ H3). destruct b3; unfold Rdiv in *; lra.
Qed.
Lemma rate_smono c c' q : c < c' -> rate_of c q < rate_of c' q.
Proof.
  intros H. destruct h_pos as (H1 & H2 & H3). unfold rate_of, Rdiv.
  assert (M : forall x h, 0 < h -> (c + x) * / h < (c' + x) * / h).
  { intros x h Hh. apply Rmult_lt_compat_r; [apply Rinv_0_lt_compat; auto|lra]. }
  pose proof (M (Rabs (hU q)) _ H1). pose proof (M (Rabs (hV q)) _ H2). pose proof (M (Rabs (hW q)) _ H3). destruct b3; unfold Rdiv in *; lra.
Qed.
Lemma rate_pos c q : 0 < c -> 0 < rate_of c q.
Proof.
  intros H. destruct h_pos as (H1 & H2 & H3). unfold rate_of. pose proof (Rabs_pos (hU q)). pose proof (Rabs_pos (hV q)). pose proof (Rabs_pos (hW q)).
  assert (M : forall x h, 0 <= x -> 0 < h -> 0 < (c + x) / h) by (intros; apply Rdiv_lt_0_compat; lra).
  pose proof (M _ _ H0 H1). pose proof (M _ _ H4 H2). pose proof (M _ _ H5 H3). destruct b3; lra.
Qed.
Hypothesis Htiny : 0 < tiny.
Hypothesis Hcfl : 0 < cfl p.
(** Supersonic units: speeds of sound at least one everywhere. *)
Lemma cfl_holds r : reduces tiny (sdm_dt_body b3 P p g s a) sdm_join (cells b3 g) r ->
  (forall c q, In c (cells b3 g) -> inside b3 g c = true -> In q (dofs b3 P) -> 1 <= sound_speed (gamma0 p) (prim c q)) ->
  forall c q, In c (cells b3 g) -> inside b3 g c = true -> In q (dofs b3 P) -> cfl p / r * true_rate (prim c q) <= cfl p.
Proof.
  intros Hr H1 c q Hc Hi Hq. destruct (dt_bounds s a r Hr) as (B1 & B2 & _). specialize (B2 c q Hc Hi Hq). specialize (H1 c q Hc Hi Hq).
  destruct (speed_sq c q Hc Hi Hq) as [S1 S2]. rewrite rate_code, S2 in B2.
  change (true_rate (prim c q)) with (rate_of (sound_speed (gamma0 p) (prim c q)) (prim c q)).
  set (cs := sound_speed (gamma0 p) (prim c q)) in *. assert (Hm : rate_of cs (prim c q) <= rate_of (cs * cs) (prim c q)) by (apply rate_mono; nra).
  assert (Hr0 : 0 < r) by lra. apply (Rmult_le_reg_r r); auto. unfold Rdiv. replace (cfl p * / r * rate_of cs (prim c q) * r) with (cfl p * rate_of cs (prim c q)) by (field; lra).
  apply Rmult_le_compat_l; lra.
Qed.
(** Speeds of sound below one everywhere: the step is too large. *)
Lemma cfl_fails r : reduces tiny (sdm_dt_body b3 P p g s a) sdm_join (cells b3 g) r ->
  (forall c q, In c (cells b3 g) -> inside b3 g c = true -> In q (dofs b3 P) -> sound_speed (gamma0 p) (prim c q) < 1) ->
  (exists c q, In c (cells b3 g) /\ inside b3 g c = true /\ In q (dofs b3 P) /\ tiny < true_rate (prim c q)) ->
  exists c q, In c (cells b3 g) /\ inside b3 g c = true /\ In q (dofs b3 P) /\ cfl p < cfl p / r * true_rate (prim c q).
Proof.
  intros Hr H1 (c0 & q0 & Hc0 & Hi0 & Hq0 & Ht). destruct (dt_bounds s a r Hr) as (B1 & _ & B3). assert (Hr0 : 0 < r) by lra.
  assert (G : exists c q, In c (cells b3 g) /\ inside b3 g c = true /\ In q (dofs b3 P) /\ r < true_rate (prim c q)).
  { destruct B3 as [->|(c & q & Hc & Hi & Hq & E)]; [exists c0, q0; auto|]. exists c, q. repeat split; auto.
    destruct (speed_sq c q Hc Hi Hq) as [S1 S2]. rewrite E, rate_code, S2. specialize (H1 c q Hc Hi Hq).
    apply (rate_smono _ (sound_speed (gamma0 p) (prim c q))). nra. }
  destruct G as (c & q & Hc & Hi & Hq & E). exists c, q. repeat split; auto.
  apply (Rmult_lt_reg_r r); auto. replace (cfl p / r * true_rate (prim c q) * r) with (cfl p * true_rate (prim c q)) by (field; lra).
  apply Rmult_lt_compat_l; auto.
Qed.
End D.

(** ** Averages *)
Lemma cheb_weight_sin N i : (0 <= i < N)%Z -> cheb_weight N i = / 2 * sin (angle N i).
Proof.
  intros Hi. unfold cheb_weight, sol_ptsR. fold (angle N i). destruct (angle_range N i Hi) as [A1 A2]. cbv zeta.
  pose proof (sin_gt_0 (angle N i) A1 A2) as S.
  replace (/ 2 * (1 - cos (angle N i)) - / 2 * (1 - cos (angle N i)) * (/ 2 * (1 - cos (angle N i)))) with ((/ 2 * sin (angle N i)) * (/ 2 * sin (angle N i))).
  - apply sqrt_square. lra.
  - pose proof (sin2_cos2 (angle N i)) as E. unfold Rsqr in E. set (x := sin (angle N i)) in *. set (y := cos (angle N i)) in *. nra.
Qed.
(** Sum of sines of odd multiples. *)
Lemma sum_sines th n : sin th * lsum (fun i => sin ((2 * IZR i + 1) * th)) (zrange 0 (Z.of_nat n)) = sin (INR n * th) * sin (INR n * th).
Proof.
  induction n as [|n IH].
  - cbn [Z.of_nat INR]. replace (zrange 0 0) with (@nil Z) by reflexivity. cbn [lsum]. rewrite Rmult_0_l, sin_0. ring.
  - rewrite zrange_snoc by lia. rewrite lsum_app, Rmult_plus_distr_l. replace (Z.of_nat (S n) - 1)%Z with (Z.of_nat n) by lia.
    rewrite IH. cbn [lsum]. rewrite <- INR_IZR_INZ, S_INR. set (x := INR n).
    replace ((2 * x + 1) * th) with (x * th + (x * th + th)) by ring. replace ((x + 1) * th) with (x * th + th) by ring.
    rewrite (sin_plus (x * th) (x * th + th)), !(sin_plus (x * th) th), !(cos_plus (x * th) th).
    pose proof (sin2_cos2 (x * th)) as E1. pose proof (sin2_cos2 th) as E2. unfold Rsqr in *.
    set (sx := sin (x * th)) in *. set (cx := cos (x * th)) in *. set (st := sin th) in *. set (ct := cos th) in *.
    assert (C : cx * cx = 1 - sx * sx) by lra. assert (C' : st * st = 1 - ct * ct) by lra.
    match goal with |- _ + ?X = _ => replace X with (2 * sx * cx * ct * st + (cx * cx - sx * sx) * (st * st)) by ring end.
    replace ((sx * ct + cx * st) * (sx * ct + cx * st)) with (sx * sx * (ct * ct) + 2 * sx * cx * ct * st + (cx * cx) * (st * st)) by ring.
    rewrite C, C'. ring.
Qed.
Definition half_angle (N : Z) : R := PI / (2 * IZR N).
Lemma half_range N : (1 <= N)%Z -> 0 < half_angle N <= PI / 2.
Proof.
  intros H. apply IZR_le in H. pose proof PI_RGT_0. unfold half_angle. split; [apply Rdiv_lt_0_compat; lra|].
  unfold Rdiv. apply Rmult_le_compat_l; [lra|]. apply Rinv_le_contravar; lra.
Qed.
Lemma cheb_total N : (1 <= N)%Z -> PI / IZR N * lsum (cheb_weight N) (zrange 0 N) = half_angle N / sin (half_angle N).
Proof.
  intros H. destruct (half_range N H) as [A1 A2]. pose proof PI_RGT_0. assert (HN0 : IZR N <> 0) by (apply not_0_IZR; lia).
  assert (S : 0 < sin (half_angle N)) by (apply sin_gt_0; lra).
  rewrite (lsum_ext _ (fun i => / 2 * sin ((2 * IZR i + 1) * half_angle N))).
  2:{ intros i Hi. apply In_zrange in Hi. rewrite cheb_weight_sin by auto. do 2 f_equal. unfold angle, half_angle. field. auto. }
  rewrite lsum_scal. pose proof (sum_sines (half_angle N) (Z.to_nat N)) as E. rewrite Z2Nat.id in E by lia.
  replace (INR (Z.to_nat N) * half_angle N) with (PI / 2) in E.
  2:{ rewrite INR_IZR_INZ, Z2Nat.id by lia. unfold half_angle. field. auto. }
  rewrite sin_PI2 in E. apply (Rmult_eq_reg_l (sin (half_angle N))); [|lra].
  transitivity (PI / IZR N * / 2 * (sin (half_angle N) * lsum (fun i => sin ((2 * IZR i + 1) * half_angle N)) (zrange 0 N))); [ring|].
  rewrite E. replace (PI / IZR N) with (2 * half_angle N) by (unfold half_angle; field; auto). field. lra.
Qed.
Lemma factor_gt1 N : (1 <= N)%Z -> 1 < half_angle N / sin (half_angle N).
Proof.
  intros H. destruct (half_range N H) as [A1 A2]. pose proof PI_RGT_0.
  assert (S : 0 < sin (half_angle N)) by (apply sin_gt_0; lra).
  pose proof (sin_lt_x (half_angle N) A1). apply (Rmult_lt_reg_r (sin (half_angle N))); auto. unfold Rdiv. rewrite Rmult_assoc, Rinv_l by lra. lra.
Qed.
Lemma fold_lsum {X} (f : X -> R) l m : fold_left (fun t q => t + f q) l m = m + lsum f l.
Proof. revert m. induction l as [|x l IH]; intros m; cbn; [ring|]. rewrite IH. ring. Qed.
(** The average of a constant field is the constant times a factor above one. *)
Lemma average_const b3 N p k v : (1 <= N)%Z -> v <> ID ->
  sdm_average b3 N p (fun _ => k) v = k * (half_angle N / sin (half_angle N)) ^ (if b3 then 3 else 2).
Proof.
  intros HN Hv. unfold sdm_average. cbv zeta. rewrite (proj2 (Z.eqb_neq v ID)) by auto.
  set (w := cheb_weight N).
  assert (E : fold_left (fun tmp q => let '(x, y, z) := q in tmp + (if b3 then k * w x * w y * w z else k * w x * w y)) (dofs b3 (sdm_points N)) 0 =
    k * (lsum w (zrange 0 N)) ^ (if b3 then 3 else 2)).
  { transitivity (fold_left (fun tmp (q : cell) => tmp + (if b3 then k * w (fst (fst q)) * w (snd (fst q)) * w (snd q) else k * w (fst (fst q)) * w (snd (fst q)))) (dofs b3 (sdm_points N)) 0).
    - generalize 0. generalize (dofs b3 (sdm_points N)). induction l as [|[[x y] z] l IH]; intros m; cbn [fold_left]; auto.
    - rewrite fold_lsum, Rplus_0_l. unfold dofs, box, cell. change (npts (sdm_points N)) with N. rewrite !lsum_prod. cbn [fst snd].
      set (S := lsum w (zrange 0 N)). destruct b3.
      + rewrite (lsum_ext _ (fun x => (k * S * S) * w x)); [rewrite lsum_scal; fold S; cbn [pow]; ring|].
        intros x _. rewrite (lsum_ext _ (fun y => (k * w x * S) * w y)); [rewrite lsum_scal; fold S; ring|].
        intros y _. rewrite lsum_scal. fold S. ring.
      + rewrite (lsum_ext _ (fun x => (k * S) * w x)); [rewrite lsum_scal; fold S; cbn [pow]; ring|].
        intros x _. rewrite (lsum_ext _ (fun y => (k * w x) * w y)); [rewrite lsum_scal; fold S; ring|].
        intros y _. cbn [lsum]. ring. }
  rewrite E, <- cheb_total by auto. fold w. destruct b3; cbn [pow]; ring.
Qed.
