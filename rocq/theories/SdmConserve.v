(** The spectral difference scheme in conservation form. *)
From Coq Require Import ZArith List Bool Reals Lia Lra.
From Coquelicot Require Import Coquelicot.
From Verif Require Import Arith Par ParProofs GridModel BoundaryModel BoundarySpec BoundaryProofs HydroState RiemannModel HydroPoint
  HydroKernels CellKernels HydroField HydroExec HydroSpec HydroProofs2 HydroProofs3 HydroConserve HydroStep2 Physics RiemannProofs RiemannSelect MoodKernels MoodProofs
  TaskModel TaskKernels SdmGeom SdmSpec SdmLagrange SdmExact EulerModel SdmKernels SdmDofs SdmProofs SdmRunSpec SdmRun SdmConsSpec SdmUniform.
Import ListNotations.
Open Scope R_scope.

(** ** Sums over lists *)
Section Sums.
Context {X Y : Type}.
Lemma lsum_ext (f h : X -> R) l : (forall x, In x l -> f x = h x) -> lsum f l = lsum h l.
Proof. induction l as [|x l IH]; intros H; [reflexivity|]. cbn. rewrite H by (left; auto). f_equal. apply IH. intros; apply H; right; auto. Qed.
Lemma lsum_scal c (f : X -> R) l : lsum (fun x => c * f x) l = c * lsum f l.
Proof. induction l as [|x l IH]; cbn; [ring|]. rewrite IH. ring. Qed.
Lemma lsum_add (f h : X -> R) l : lsum (fun x => f x + h x) l = lsum f l + lsum h l.
Proof. induction l as [|x l IH]; cbn; [ring|]. rewrite IH. ring. Qed.
Lemma lsum_app (f : X -> R) l l' : lsum f (l ++ l') = lsum f l + lsum f l'.
Proof. induction l as [|x l IH]; cbn; [ring|]. rewrite IH. ring. Qed.
Lemma lsum_map (f : X -> R) (k : Y -> X) l : lsum f (map k l) = lsum (fun y => f (k y)) l.
Proof. induction l as [|x l IH]; cbn; [reflexivity|]. rewrite IH. reflexivity. Qed.
Lemma lsum_0 (l : list X) : lsum (fun _ => 0) l = 0.
Proof. induction l as [|x l IH]; cbn; [reflexivity|]. rewrite IH. ring. Qed.
End Sums.
Lemma lsum_prod {X Y} (f : X * Y -> R) l l' : lsum f (list_prod l l') = lsum (fun x => lsum (fun y => f (x, y)) l') l.
Proof. induction l as [|x l IH]; cbn; [reflexivity|]. rewrite lsum_app, lsum_map, IH. reflexivity. Qed.
Lemma lsum_swap {X Y} (f : X -> Y -> R) l l' : lsum (fun x => lsum (f x) l') l = lsum (fun y => lsum (fun x => f x y) l) l'.
Proof.
  induction l as [|x l IH]; cbn; [symmetry; apply lsum_0|]. rewrite IH, <- lsum_add. reflexivity.
Qed.
Lemma lsum_suml f ks : lsum f ks = suml f ks.
Proof. induction ks as [|k ks IH]; cbn; [reflexivity|]. rewrite IH. reflexivity. Qed.
Lemma zrange01 : zrange 0 1 = [0%Z]. Proof. reflexivity. Qed.
Lemma lsum_tele a b (f : Z -> R) : (a <= b)%Z -> lsum (fun n => f (n + 1)%Z - f n) (zrange a b) = f b - f a.
Proof.
  intros H. replace b with (a + Z.of_nat (Z.to_nat (b - a)))%Z by lia. generalize (Z.to_nat (b - a)). intros n.
  induction n as [|n IH].
  - replace (zrange a (a + Z.of_nat 0)) with (@nil Z); [cbn; replace (a + 0)%Z with a by lia; ring|].
    unfold zrange. replace (Z.to_nat (a + Z.of_nat 0 - a)) with 0%nat by lia. reflexivity.
  - replace (a + Z.of_nat (S n))%Z with (a + Z.of_nat n + 1)%Z by lia. rewrite zrange_snoc by lia.
    replace (a + Z.of_nat n + 1 - 1)%Z with (a + Z.of_nat n)%Z by lia. rewrite lsum_app, IH by lia. cbn. ring.
Qed.

(** Regrouping by lines. *)
Lemma lsum_lines b3 lo hi dir (f : cell -> R) : In dir (dirs b3) ->
  lsum f (rbox b3 lo hi) =
  lsum (fun c => lsum (fun n => f (setc dir n c)) (zrange (lo dir) (hi dir)))
    (rbox b3 (fun a => if (a =? dir)%Z then 0%Z else lo a) (fun a => if (a =? dir)%Z then 1%Z else hi a)).
Proof.
  intros Hd. apply dirs_cases in Hd. unfold rbox, cell. rewrite !lsum_prod.
  destruct Hd as [->|[->|[-> ->]]]; cbn [IX IY IZ Z.eqb Pos.eqb]; unfold IX, IY, IZ; cbn [Z.eqb Pos.eqb]; rewrite zrange01; cbn [lsum].
  - rewrite Rplus_0_r. rewrite lsum_swap. apply lsum_ext. intros y _. rewrite lsum_swap. reflexivity.
  - apply lsum_ext. intros x _. rewrite Rplus_0_r. rewrite lsum_swap. reflexivity.
  - apply lsum_ext. intros x _. apply lsum_ext. intros y _. rewrite Rplus_0_r. reflexivity.
Qed.
Lemma dofs_lines b3 (P : points R) dir (f : cell -> R) : In dir (dirs b3) ->
  lsum f (dofs b3 P) = lsum (fun l => lsum (fun n => f (setc dir n l)) (zrange 0 (npts P))) (lines b3 P dir).
Proof.
  intros Hd. change (dofs b3 P) with (rbox b3 (fun _ => 0%Z) (fun _ => npts P)). rewrite (lsum_lines _ _ _ dir) by auto.
  unfold lines, box, rbox. apply dirs_cases in Hd. destruct Hd as [->|[->|[-> ->]]]; reflexivity.
Qed.

Section SC.
Variable b3 : bool.
Variable P : points R.
Variable p : hparams R.
Variable g : grid.
Variable dt : R.
Variable junk : cell -> cell -> hs R.
Notation N := (npts P).
Hypothesis Hok : sdm_ok b3 P g.
Hypothesis HP : points_ok P.
Hypothesis He : ends_ok P.
Notation fieldS := (fieldS (T := R)).

(** Weight of a line. *)
Definition quadT (dir : Z) (q : cell) : R :=
  fold_right (fun a r => (if (a =? dir)%Z then 1 else point_weight P (coord q a)) * r) 1 (dirs b3).
Lemma quad_line dir n q : In dir (dirs b3) -> quad b3 P (setc dir n q) = point_weight P n * quadT dir q.
Proof.
  intros Hd. apply dirs_cases in Hd. destruct q as [[x y] z]. unfold quad, quadT, dirs.
  destruct Hd as [->|[->|[-> ->]]]; [destruct b3|destruct b3|]; unfold IX, IY, IZ, setc, coord, IX, IY, IZ; cbn [fold_right Z.eqb Pos.eqb]; ring.
Qed.
Lemma deriv_scale f n r : flux2sol_derivative P f n r = r * flux2sol_derivative P f n 1.
Proof. unfold flux2sol_derivative. cbn [mul RArith]. ring. Qed.
Lemma cell_term dir (F : fieldS) c v : In dir (dirs b3) ->
  average b3 P (derivF P p dir F) c v =
  1 / spacing p dir * lsum (fun l => quadT dir l * (F c (setc dir N l) v - F c (setc dir 0 l) v)) (lines b3 P dir).
Proof.
  intros Hd. pose proof (HN b3 P g Hok) as HN. destruct HP as (H1 & H2 & H3). destruct He as [E0 E1].
  unfold average. rewrite (dofs_lines _ _ dir) by auto. rewrite <- lsum_scal. apply lsum_ext. intros l Hl.
  rewrite (lsum_ext _ (fun n => (1 / spacing p dir * quadT dir l) * (point_weight P n * flux2sol_derivative P (fun m => F c (setc dir m l) v) n 1))).
  - rewrite lsum_scal, lsum_suml. change (point_weight P) with (weight P). rewrite (telescope P HN (fun m => F c (setc dir m l) v)) by auto. ring.
  - intros n Hn. rewrite quad_line by auto. unfold derivF. rewrite coord_setc by (eapply dir_any; eauto). rewrite Z.eqb_refl.
    rewrite deriv_scale. rewrite (SdmProofs.deriv_ext P _ (fun m => F c (setc dir m l) v)) by (intros; rewrite setc_setc; reflexivity).
    cbn [div one RArith]. ring.
Qed.

(** ** The numerical flux: an integral over the face of the Riemann fluxes *)
Definition trace_at (dir : Z) (X : cell -> Z -> R) (q : cell) : hs R :=
  stV b3 (fun v => floor_density p v (sol2flux P (fun n => X (setc dir n q) v) (coord q dir))).
Definition num_flux (dir : Z) (L Rr : cell -> Z -> R) (v : Z) : R :=
  lsum (fun l => quadT dir l *
     comp (face_flux b3 p dir (trace_at dir L (setc dir N l)) (trace_at dir Rr (setc dir 0 l)) zs) v) (lines b3 P dir).

Hypothesis Hr : if b3 then riemann_ok3 p else riemann_ok2 p.
Lemma face_junk dir qL qR j : face_flux b3 p dir qL qR j = face_flux b3 p dir qL qR zs.
Proof.
  unfold face_flux. destruct b3.
  - rewrite riemann3_junk by (apply riemann_ok3_spec; auto). reflexivity.
  - rewrite riemann2_junk by (apply riemann_ok2_spec; auto). reflexivity.
Qed.
Lemma faces dir (W : fieldS) c v : In dir (dirs b3) -> (0 < coord c dir)%Z -> (coord c dir + 1 < sizeA g dir)%Z ->
  lsum (fun l => quadT dir l * (fluxU b3 P p g junk dir W c (setc dir N l) v - fluxU b3 P p g junk dir W c (setc dir 0 l) v)) (lines b3 P dir) =
  num_flux dir (W c) (W (along_dir dir 1 c)) v - num_flux dir (W (along_dir dir (-1) c)) (W c) v.
Proof.
  intros Hd Hc1 Hc2. pose proof (HN b3 P g Hok) as HN. pose proof (dir_any b3 dir Hd) as Hany.
  unfold num_flux. transitivity (lsum (fun l => quadT dir l *
     comp (face_flux b3 p dir (trace_at dir (W c) (setc dir N l)) (trace_at dir (W (along_dir dir 1 c)) (setc dir 0 l)) zs) v +
     (-1) * (quadT dir l * comp (face_flux b3 p dir (trace_at dir (W (along_dir dir (-1) c)) (setc dir N l)) (trace_at dir (W c) (setc dir 0 l)) zs) v)) (lines b3 P dir)).
  2:{ rewrite lsum_add, lsum_scal. lra. }
  apply lsum_ext. intros l Hl. unfold fluxU, fluxF. cbv zeta. rewrite !coord_setc by auto. rewrite !Z.eqb_refl.
  rewrite (proj2 (Z.eqb_neq N 0)) by lia. rewrite (proj2 (Z.ltb_lt _ _) Hc1), (proj2 (Z.ltb_lt _ _) Hc2).
  rewrite !setc_setc, (face_junk _ _ _ (junk c _)), (face_junk _ _ _ (junk (along_dir dir 1 c) _)). unfold interpF, trace_at.
 ring.
Qed.
Lemma div_average (W : fieldS) c v : inside b3 g c = true ->
  average b3 P (divF b3 P p g junk W) c v =
  lsum (fun dir => (num_flux dir (W c) (W (along_dir dir 1 c)) v - num_flux dir (W (along_dir dir (-1) c)) (W c) v) / spacing p dir) (dirs b3).
Proof.
  intros Hi. rewrite (inside_iff b3 g) in Hi.
  assert (G : forall l, incl l (dirs b3) ->
    average b3 P (fun c q v => fold_left (fun acc dir => add acc (termF b3 P p g junk dir W c q v)) l zero) c v =
    lsum (fun dir => (num_flux dir (W c) (W (along_dir dir 1 c)) v - num_flux dir (W (along_dir dir (-1) c)) (W c) v) / spacing p dir) l).
  { induction l as [|d l IH] using rev_ind; intros Hl.
    - cbn [fold_left lsum]. unfold average. rewrite (lsum_ext _ (fun _ => 0)) by (intros; cbn; ring). apply lsum_0.
    - rewrite lsum_app. cbn [lsum]. rewrite <- IH by (intros x Hx; apply Hl; apply in_app_iff; auto).
      assert (Hd : In d (dirs b3)) by (apply Hl; apply in_app_iff; right; left; auto). specialize (Hi d Hd).
      pose proof (size_pos b3 P g Hok d Hd) as [_ Hgw].
      unfold average at 1. rewrite (lsum_ext _ (fun q => quad b3 P q * fold_left (fun acc dir => add acc (termF b3 P p g junk dir W c q v)) l zero
         + quad b3 P q * termF b3 P p g junk d W c q v)) by (intros; rewrite fold_left_app; cbn [fold_left add RArith]; ring).
      rewrite lsum_add. unfold average. f_equal.
      change (lsum (fun q => quad b3 P q * termF b3 P p g junk d W c q v) (dofs b3 P)) with (average b3 P (derivF P p d (fluxU b3 P p g junk d W)) c v).
      rewrite cell_term by auto. rewrite faces by (auto; rewrite ?sizeA_N; lia). unfold Rdiv. ring. }
  apply G. apply incl_refl.
Qed.

(** ** Averages of a stage *)
Lemma average_lin c0 c1 c2 (X Y Z' : fieldS) c v :
  average b3 P (fun c q v => c0 * X c q v + c1 * Y c q v + c2 * Z' c q v) c v =
  c0 * average b3 P X c v + c1 * average b3 P Y c v + c2 * average b3 P Z' c v.
Proof.
  unfold average. rewrite <- !lsum_scal, <- !lsum_add. apply lsum_ext. intros q _. ring.
Qed.
Lemma average_ext (X Y : fieldS) c v : agreeI b3 P g X Y -> In c (cells b3 g) -> inside b3 g c = true -> In v (vars b3) ->
  average b3 P X c v = average b3 P Y c v.
Proof. intros H Hc Hi Hv. unfold average. apply lsum_ext. intros q Hq. rewrite H by auto. reflexivity. Qed.
Lemma stg_average c0 c1 c2 (U0 U1 W : fieldS) c v :
  average b3 P (stg b3 P p g dt junk (c0, c1, c2) U0 U1 W) c v =
  c0 * average b3 P U0 c v + c1 * average b3 P U1 c v + c2 * dt * average b3 P (divF b3 P p g junk (ghosts P g b3 W)) c v.
Proof. rewrite <- average_lin. reflexivity. Qed.

(** ** Totals on a periodic domain *)
Lemma In_interior c : In c (interior b3 g) -> inside b3 g c = true /\ In c (cells b3 g).
Proof.
  intros H. assert (Hi : inside b3 g c = true).
  { rewrite (inside_iff b3 g). destruct c as [[x y] z]. unfold interior, rbox, cell in H. rewrite !in_prod_iff, !In_zrange in H.
    intros a Ha. apply dirs_cases in Ha. destruct Ha as [->|[->|[-> Hb]]]; [tauto|tauto|]. rewrite Hb, In_zrange in H. tauto. }
  split; [exact Hi|]. apply (inside_C b3 P g junk Hok); auto. intros Hb. destruct c as [[x y] z]. unfold interior, rbox, cell in H. rewrite !in_prod_iff in H. rewrite Hb in H.
  cbn [In] in H. symmetry. tauto.
Qed.
Definition totF (X : fieldS) v : R := lsum (fun c => average b3 P X c v) (interior b3 g).
Lemma totF_ext X Y v : agreeI b3 P g X Y -> In v (vars b3) -> totF X v = totF Y v.
Proof.
  intros H Hv. unfold totF. apply lsum_ext. intros c Hc. destruct (In_interior c Hc). apply average_ext; auto.
Qed.

Hypothesis Hper : periodic_sdm b3 g.
Definition wrap (a n : Z) : Z := if (n <? gw g)%Z then (n + sizeN g a)%Z else if (gw g + sizeN g a <=? n)%Z then (n - sizeN g a)%Z else n.
Lemma ghost_per a (X : fieldS) c q v : In a (dirs b3) -> (gw g - 1 <= coord c a <= gw g + sizeN g a)%Z ->
  ghost_along P g a X c q v = X (setc a (wrap a (coord c a)) c) q v.
Proof.
  intros Ha Hc. pose proof (size_pos b3 P g Hok a Ha) as [Hs Hw]. pose proof (dir_any b3 a Ha) as Hany.
  unfold ghost_along, is_ghost, reflected, image, wrap. cbv zeta. rewrite !Hper by auto. cbn [kind_of_code].
  destruct (Z.ltb_spec (coord c a - gw g) 0); destruct (Z.ltb_spec (coord c a) (gw g)); try lia.
  - cbn [orb]. replace (gw g + _)%Z with (coord c a + sizeN g a)%Z; [reflexivity|]. unfold kind_of_code, BC_PERIODIC, BC_DIRICHLET, BC_NEUMANN. cbn. lia.
  - destruct (Z.leb_spec (sizeN g a) (coord c a - gw g)); destruct (Z.leb_spec (gw g + sizeN g a) (coord c a)); try lia; cbn [orb].
    + replace (gw g + _)%Z with (coord c a - sizeN g a)%Z; [reflexivity|]. unfold kind_of_code, BC_PERIODIC, BC_DIRICHLET, BC_NEUMANN. cbn. lia.
    + rewrite setc_coord by auto. reflexivity.
Qed.
Lemma fill_per dir (X : fieldS) c q v : In dir (dirs b3) -> (gw g - 1 <= coord c dir <= gw g + sizeN g dir)%Z ->
  (forall a, In a (dirs b3) -> a <> dir -> (gw g <= coord c a < gw g + sizeN g a)%Z) ->
  ghosts P g b3 X c q v = X (setc dir (wrap dir (coord c dir)) c) q v.
Proof.
  intros Hd Hc Ho. unfold ghosts.
  assert (G : forall l (Z' : fieldS) c, incl l (dirs b3) -> NoDup l ->
    (forall a, In a l -> a <> dir -> (gw g <= coord c a < gw g + sizeN g a)%Z) ->
    (gw g - 1 <= coord c dir <= gw g + sizeN g dir)%Z ->
    fold_left (fun W a => ghost_along P g a W) l Z' c q v =
    if in_dec Z.eq_dec dir l then Z' (setc dir (wrap dir (coord c dir)) c) q v else Z' c q v).
  { clear Ho Hc c. induction l as [|a l IH]; intros Z' c Hl Hn Ho Hc; [reflexivity|]. cbn [fold_left].
    apply NoDup_cons_iff in Hn. destruct Hn as [Hn Hn']. pose proof (dir_any b3 dir Hd) as Hany.
    rewrite IH; auto; [|intros x Hx; apply Hl; right; auto|intros b Hb; apply Ho; right; auto].
    destruct (in_dec Z.eq_dec dir l) as [Hin|Hin]; destruct (in_dec Z.eq_dec dir (a :: l)) as [Hin'|Hin'].
    - assert (Hne : a <> dir) by congruence. apply (ghost_mid P g junk).
      rewrite coord_setc; [|auto|apply (dir_any b3); apply Hl; left; auto].
      rewrite (proj2 (Z.eqb_neq a dir)) by auto. apply Ho; auto. left; auto.
    - exfalso. apply Hin'. right; auto.
    - destruct Hin' as [->|Hin']; [|contradiction]. apply ghost_per; auto.
    - apply (ghost_mid P g junk). apply Ho; [left; auto|]. intros ->. apply Hin'. left; auto. }
  rewrite G; auto; [|apply incl_refl|apply dirs_NoDup].
  destruct (in_dec Z.eq_dec dir (dirs b3)); [reflexivity|contradiction].
Qed.
Lemma num_flux_ext dir (L L' Rr R' : cell -> Z -> R) v : (forall q v, L q v = L' q v) -> (forall q v, Rr q v = R' q v) ->
  num_flux dir L Rr v = num_flux dir L' R' v.
Proof.
  intros H1 H2. unfold num_flux. apply lsum_ext. intros l _. do 2 f_equal.
  assert (E : forall X X' q, (forall q v, X q v = X' q v) -> trace_at dir X q = trace_at dir X' q).
  { intros X X' q H. unfold trace_at. apply stV_ext. intros v' _. f_equal. apply sol2flux_ext. intros; apply H. }
  rewrite (E L L'), (E Rr R') by auto. reflexivity.
Qed.
Lemma along_setc dir c n m : dir = IX \/ dir = IY \/ dir = IZ -> along_dir dir m (setc dir n c) = setc dir (n + m) c.
Proof.
  intros Hd. destruct c as [[x y] z]. destruct Hd as [->|[->| ->]]; unfold along_dir, unit_vec, setc, shift; apply cell_ext; cbn; lia.
Qed.
Lemma div_total (X : fieldS) v : totF (divF b3 P p g junk (ghosts P g b3 X)) v = 0.
Proof.
  unfold totF. set (W := ghosts P g b3 X).
  rewrite (lsum_ext _ (fun c => lsum (fun dir => (num_flux dir (W c) (W (along_dir dir 1 c)) v - num_flux dir (W (along_dir dir (-1) c)) (W c) v) / spacing p dir) (dirs b3))).
  2:{ intros c Hc. apply div_average. apply In_interior; auto. }
  rewrite lsum_swap. rewrite (lsum_ext _ (fun _ => 0)); [apply lsum_0|].
  intros dir Hd. pose proof (dir_any b3 dir Hd) as Hany. pose proof (size_pos b3 P g Hok dir Hd) as [Hs Hw].
  unfold interior. rewrite (lsum_lines _ _ _ dir) by auto. rewrite (lsum_ext _ (fun _ => 0)); [apply lsum_0|].
  intros c Hc. set (Phi := fun n => / spacing p dir * num_flux dir (W (setc dir (n - 1) c)) (W (setc dir n c)) v).
  rewrite (lsum_ext _ (fun n => Phi (n + 1)%Z - Phi n)).
  2:{ intros n Hn. unfold Phi. rewrite !along_setc by auto. replace (n + 1 - 1)%Z with n by lia. replace (n + -1)%Z with (n - 1)%Z by lia.
      unfold Rdiv. ring. }
  rewrite lsum_tele by lia. unfold Phi.
  assert (Ho : forall n a, In a (dirs b3) -> a <> dir -> (gw g <= coord (setc dir n c) a < gw g + sizeN g a)%Z).
  { intros n a Ha Hne. rewrite coord_setc; [|auto|eapply dir_any; eauto]. rewrite (proj2 (Z.eqb_neq a dir)) by auto.
    destruct c as [[x y] z]. unfold rbox, cell in Hc. rewrite !in_prod_iff, !In_zrange in Hc.
    apply dirs_cases in Ha. destruct Ha as [->|[->|[-> Hb]]].
    - rewrite (proj2 (Z.eqb_neq IX dir)) in Hc by auto. tauto.
    - rewrite (proj2 (Z.eqb_neq IY dir)) in Hc by auto. tauto.
    - rewrite Hb, In_zrange, (proj2 (Z.eqb_neq IZ dir)) in Hc by auto. tauto. }
  rewrite (num_flux_ext dir _ (W (setc dir (gw g - 1) c)) _ (W (setc dir (gw g) c))); [ring| |].
  - intros q u. unfold W. rewrite !(fill_per dir) by (auto; rewrite ?coord_setc, ?Z.eqb_refl by auto; lia).
    rewrite !coord_setc, !Z.eqb_refl, !setc_setc by auto. f_equal. f_equal. unfold wrap.
    destruct (Z.ltb_spec (gw g + sizeN g dir - 1) (gw g)); [lia|]. destruct (Z.leb_spec (gw g + sizeN g dir) (gw g + sizeN g dir - 1)); [lia|].
    destruct (Z.ltb_spec (gw g - 1) (gw g)); lia.
  - intros q u. unfold W. rewrite !(fill_per dir) by (auto; rewrite ?coord_setc, ?Z.eqb_refl by auto; lia).
    rewrite !coord_setc, !Z.eqb_refl, !setc_setc by auto. f_equal. f_equal. unfold wrap.
    destruct (Z.ltb_spec (gw g + sizeN g dir) (gw g)); [lia|]. destruct (Z.leb_spec (gw g + sizeN g dir) (gw g + sizeN g dir)); [|lia].
    destruct (Z.ltb_spec (gw g) (gw g)); [lia|]. destruct (Z.leb_spec (gw g + sizeN g dir) (gw g)); lia.
Qed.
Lemma stg_total c0 c1 c2 (U0 U1 W : fieldS) v : totF (stg b3 P p g dt junk (c0, c1, c2) U0 U1 W) v = c0 * totF U0 v + c1 * totF U1 v.
Proof.
  unfold totF at 1. rewrite (lsum_ext _ (fun c => c0 * average b3 P U0 c v + c1 * average b3 P U1 c v + c2 * dt * average b3 P (divF b3 P p g junk (ghosts P g b3 W)) c v))
    by (intros; apply stg_average).
  rewrite !lsum_add, !lsum_scal. fold (totF U0 v). fold (totF U1 v). fold (totF (divF b3 P p g junk (ghosts P g b3 W)) v). rewrite div_total. ring.
Qed.
Theorem conserve_sdm ti a (s s' : store R) v : ti <> RK54 -> sdm_state a -> (ti <> FE -> a = aU) -> In v (vars b3) ->
  run_kernels (time_integration b3 P p g dt junk ti a) s s' -> total_sdm b3 P g s' a v = total_sdm b3 P g s a v.
Proof.
  intros Hti Ha Hau Hv Hk. pose proof (state_stA a Ha) as HsA.
  change (totF (sv b3 P s' a) v = totF (sv b3 P s a) v).
  destruct ti; [| | |congruence].
  - apply step_fe in Hk; auto. rewrite (totF_ext _ _ v Hk) by auto. rewrite stg_total. cbn. ring.
  - rewrite Hau in * by discriminate. apply step_rk2 in Hk; auto; [|discriminate].
    rewrite (totF_ext _ _ v Hk) by auto. rewrite !stg_total. cbn. field.
  - rewrite Hau in * by discriminate. apply step_rk3 in Hk; auto; try discriminate.
    rewrite (totF_ext _ _ v Hk) by auto. rewrite !stg_total. cbn. field.
Qed.
Theorem conserve_rk54 (s s' : store R) v : In v (vars b3) ->
  run_kernels (time_integration b3 P p g dt junk RK54 aU) s s' -> total_sdm b3 P g s' aU v = (1 + 1 / 1000000000000000) * total_sdm b3 P g s aU v.
Proof.
  intros Hv Hk. change (totF (sv b3 P s' aU) v = (1 + 1 / 1000000000000000) * totF (sv b3 P s aU) v).
  apply step_rk54 in Hk; auto.
  2:{ split; discriminate. }
  2:{ intros n Hn. unfold aU, aK. lia. }
  rewrite (totF_ext _ _ v Hk) by auto. cbn [rk54 nth]. rewrite !stg_total. cbn. field.
Qed.
End SC.
