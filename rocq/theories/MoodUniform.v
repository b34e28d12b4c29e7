(** Consequences of the step specifications: in 2D no stale polynomial is used, and
    a uniform flow is kept. *)
From Coq Require Import ZArith List Bool Reals Lia Lra.
From Verif Require Import Arith Par ParProofs GridModel BoundaryModel BoundarySpec BoundaryProofs
  HydroState RiemannModel HydroPoint HydroKernels CellKernels HydroField HydroExec HydroSpec HydroProofs2
  HydroStep2 HydroConserve HydroUniform MoodPoly MoodKernels MoodProofs MoodStage MoodSpec MoodRun MoodConserve.
Import ListNotations.
Open Scope Z_scope.

Section Fresh.
Context {T : Type} {A : Arith T}.
Variable m : mcfg T.
Variable g : grid.
Variable p : hparams T.
Variable dt : T.
Variable junk : cell -> Z -> hs T.
Variable junkR : cell -> Z -> nat -> T.
Notation b3 := (d3 m).

Lemma face_recon dir c n : b3 = false -> In dir (dirs b3) -> face_guard m g dir c = true -> n = 0 \/ n = -1 ->
  recon_guard m g (along_dir dir n c) = true.
Proof.
  intros H2 Hd Hf Hn. unfold recon_guard, face_guard in *. rewrite guard_spec in *. intros a Ha.
  rewrite (coord_along dir n c a b3) by auto. specialize (Hf a Ha). rewrite H2. destruct (a =? dir); lia.
Qed.
Lemma along_0 dir c : along_dir dir 0 c = c.
Proof. unfold along_dir, unit_vec. destruct (dir =? IX); [|destruct (dir =? IY)]; apply shift_0. Qed.
Lemma high_fresh O O' V dir c : b3 = false -> In dir (dirs b3) -> face_guard m g dir c = true ->
  highP m p dt junk (polyG m g junkR O V) dir c = highP m p dt junk (polyG m g junkR O' V) dir c.
Proof.
  intros H2 Hd Hf. unfold highP, polyG. rewrite (face_recon dir c (-1)) by auto.
  pose proof (face_recon dir c 0 H2 Hd Hf (or_introl eq_refl)) as H. rewrite along_0 in H. rewrite H. reflexivity.
Qed.
Lemma flag_fresh O O' V c : b3 = false -> stageFlag m g p dt junk junkR O V c = stageFlag m g p dt junk junkR O' V c.
Proof.
  intros H2. unfold stageFlag, flagF. destruct (interior m g c) eqn:Hi; [|reflexivity]. f_equal.
  apply facesF_ext. intros dir n Hd Hn. apply high_fresh; auto. eapply interior_face; eauto.
Qed.
Lemma stage_fresh O O' V dir c : b3 = false -> In dir (dirs b3) -> face_guard m g dir c = true ->
  stageF m g p dt junk junkR O V dir c = stageF m g p dt junk junkR O' V dir c.
Proof.
  intros H2 Hd Hf. unfold stageF, finalF, flagP.
  change (flagF m p g V (highP m p dt junk (polyG m g junkR O V)) c) with (stageFlag m g p dt junk junkR O V c).
  change (flagF m p g V (highP m p dt junk (polyG m g junkR O' V)) c) with (stageFlag m g p dt junk junkR O' V c).
  rewrite (flag_fresh O O') by auto. rewrite (high_fresh O O') by auto. reflexivity.
Qed.
Lemma faces_fresh O O' V c : b3 = false -> interior m g c = true ->
  facesF m (stageF m g p dt junk junkR O V) c = facesF m (stageF m g p dt junk junkR O' V) c.
Proof.
  intros H2 Hi. apply facesF_ext. intros dir n Hd Hn. apply stage_fresh; auto. eapply interior_face; eauto.
Qed.
Lemma euler_fresh O O' V c : b3 = false -> interior m g c = true ->
  eulerF m g p dt junk junkR O V c = eulerF m g p dt junk junkR O' V c.
Proof.
  intros H2 Hi. unfold eulerF, updF. rewrite (faces_fresh O O') by auto. reflexivity.
Qed.
Lemma euler_agree O V V' c : mood_ok m g -> agree m g V V' -> interior m g c = true -> (b3 = false -> coord c IZ = 0) ->
  eulerF m g p dt junk junkR O V c = eulerF m g p dt junk junkR O V' c.
Proof.
  intros Hm Hag Hi Hz. pose proof (mood_gw m g Hm) as Hw. unfold eulerF, updF.
  rewrite (facesF_agree m g p dt junk junkR O O V V') by auto.
  rewrite (stF_agree m g V V') by (auto; apply interior_in; auto; lia). reflexivity.
Qed.

Lemma state_field (W W' : cell -> Z -> T) c v : stF b3 W c = stF b3 W' c -> 0 <= v < nv b3 -> W c v = W' c v.
Proof. intros E Hv. rewrite <- (comp_stF b3 W c v), <- (comp_stF b3 W' c v), E; auto. Qed.
Lemma fill_same W W' : mood_ok m g ->
  (forall c, interior m g c = true -> (b3 = false -> coord c IZ = 0) -> stF b3 W c = stF b3 W' c) ->
  agree m g (fillF m g W) (fillF m g W').
Proof.
  intros (_ & _ & Hg & _) H c v Hc Hv. apply fillF_ext; auto. intros c' Hi Hz. apply state_field; auto.
Qed.

(** The new state is a function of the old interior state. *)
Theorem fresh_step ti aIn aOut (s t s' t' : store T) : mood_ok m g -> b3 = false -> io aIn aOut ->
  (forall c v, interior m g c = true -> coord c IZ = 0 -> 0 <= v < 4 -> s (at_cell aIn c v) = t (at_cell aIn c v)) ->
  run_kernels (time_integration m p g dt junk junkR ti aIn aOut) s s' ->
  run_kernels (time_integration m p g dt junk junkR ti aIn aOut) t t' ->
  forall c v, interior m g c = true -> coord c IZ = 0 -> 0 <= v < 4 -> s' (at_cell aOut c v) = t' (at_cell aOut c v).
Proof.
  intros Hm H2 Hio He K K' c v Hi Hz Hv.
  assert (Hvn : 0 <= v < nv b3) by (rewrite H2; exact Hv).
  assert (Hst : forall c, interior m g c = true -> (b3 = false -> coord c IZ = 0) -> stF b3 (fv s aIn) c = stF b3 (fv t aIn) c).
  { intros c0 Hi0 Hz0. apply stF_ext. intros v0 Hv0. rewrite H2 in Hv0. apply (He c0 v0); auto. }
  pose proof (fill_same _ _ Hm Hst) as Hag.
  assert (N : stateA aIn /\ stateA aOut /\ aIn <> aOut) by (unfold io in Hio; ma; lia). destruct N as (N1 & N2 & N3).
  assert (EU : forall O O' V V' c, agree m g V V' -> interior m g c = true -> (b3 = false -> coord c IZ = 0) ->
     eulerF m g p dt junk junkR O V c = eulerF m g p dt junk junkR O' V' c).
  { intros O O' V V' c0 Ha Hi0 Hz0. rewrite (euler_agree O V V') by auto. apply euler_fresh; auto. }
  assert (EF : forall O O' V V' c, agree m g V V' -> interior m g c = true -> (b3 = false -> coord c IZ = 0) ->
     facesF m (stageF m g p dt junk junkR O V) c = facesF m (stageF m g p dt junk junkR O' V') c).
  { intros O O' V V' c0 Ha Hi0 Hz0. rewrite (facesF_agree m g p dt junk junkR O O V V') by auto. apply faces_fresh; auto. }
  assert (ES : forall V V' c, agree m g V V' -> interior m g c = true -> (b3 = false -> coord c IZ = 0) ->
     stF b3 V c = stF b3 V' c).
  { intros V V' c0 Ha Hi0 Hz0. apply (stF_agree m g); auto. apply interior_in; auto. apply (mood_gw m g Hm). }
  apply (state_field (fv s' aOut) (fv t' aOut)); auto.
  destruct ti.
  - apply step_fe_spec in K; auto. apply step_fe_spec in K'; auto. destruct K as (K & _), K' as (K' & _).
    rewrite K, K' by auto. apply EU; auto.
  - apply step_rk2_spec in K; auto. apply step_rk2_spec in K'; auto.
    destruct K as (W & A1 & A2 & _), K' as (W' & B1 & B2 & _).
    assert (HW : agree m g (fillF m g W) (fillF m g W')).
    { apply fill_same; auto. intros c0 Hi0 Hz0. rewrite A1, B1 by auto. apply EU; auto. }
    rewrite A2, B2 by auto. f_equal. unfold updF2.
    rewrite (EF _ (polyS m t) _ (fillF m g W')) by auto. rewrite (ES _ _ c Hag), (ES _ _ c HW) by auto. reflexivity.
  - apply step_rk3_spec in K; auto. apply step_rk3_spec in K'; auto.
    destruct K as (W1 & W2 & A1 & A2 & A3 & _), K' as (W1' & W2' & B1 & B2 & B3 & _).
    assert (HW1 : agree m g (fillF m g W1) (fillF m g W1')).
    { apply fill_same; auto. intros c0 Hi0 Hz0. rewrite A1, B1 by auto. apply EU; auto. }
    assert (HW2 : agree m g (fillF m g W2) (fillF m g W2')).
    { apply fill_same; auto. intros c0 Hi0 Hz0. rewrite A2, B2 by auto. f_equal. unfold updFw.
      rewrite (EF _ (polyS m t) _ (fillF m g W1')) by auto. rewrite (ES _ _ c0 Hag), (ES _ _ c0 HW1) by auto. reflexivity. }
    rewrite A3, B3 by auto. f_equal. unfold updFw.
    rewrite (EF _ (polyS m t) _ (fillF m g W2')) by auto. rewrite (ES _ _ c Hag), (ES _ _ c HW2) by auto. reflexivity.
  - apply step_rk54_spec in K; auto. apply step_rk54_spec in K'; auto.
    assert (Hc : In c (cellsD b3 g)) by (apply interior_in; auto; apply (mood_gw m g Hm)).
    apply stF_ext. intros v0 Hv0. rewrite K, K' by auto. apply Hag; auto.
Qed.
End Fresh.

(** ** Uniform flow *)
Section Uni.
Open Scope R_scope.
Variable m : mcfg R.
Variable g : grid.
Variable p : hparams R.
Variable dt : R.
Variable junk : cell -> Z -> hs R.
Variable junkR : cell -> Z -> nat -> R.
Notation b3 := (d3 m).
Variable k : Z -> R.
Notation K := (fun (_ : cell) v => k v).

Lemma polyF_const V c c' : mood_ok m g -> b3 = false -> agree m g V K -> recon_guard m g c = true ->
  (b3 = false -> coord c IZ = 0%Z) -> polyF m junkR V c = polyF m junkR K c'.
Proof.
  intros Hm H2 Hag Hr Hz.
  assert (E : forall v, (0 <= v < nv b3)%Z -> coefsF m junkR V c v = coefsF m junkR K c' v).
  { intros v Hv. unfold coefsF. pose proof Hm as (_ & Hmc & _). rewrite Hmc.
    rewrite (poly_coefs_junk _ _ _ _ (junkR c v) (junkR c' v)). apply poly_coefs_ext.
    - apply Hag; auto. apply recon_shift; auto. left; auto.
    - intros [[x y] z] Ho. apply Hag; auto. apply recon_shift; auto. right; auto. }
  unfold polyF. rewrite H2 in *. rewrite !E by (unfold nv, ID, IP, IU, IV; lia). reflexivity.
Qed.
Lemma high_const O V dir c c' : mood_ok m g -> b3 = false -> riemann_ok2 p -> agree m g V K -> In dir (dirs b3) ->
  face_guard m g dir c = true -> (b3 = false -> coord c IZ = 0%Z) ->
  highP m p dt junk (polyG m g junkR O V) dir c =
  wn b3 (high_flux m p dt (polyF m junkR K c') (polyF m junkR K c') dir (junk c' dir)).
Proof.
  intros Hm H2 Hr Hag Hd Hf Hz. unfold highP. f_equal.
  pose proof (face_recon m g junk junkR dir c (-1) H2 Hd Hf (or_intror eq_refl)) as R1.
  pose proof (face_recon m g junk junkR dir c 0 H2 Hd Hf (or_introl eq_refl)) as R0. rewrite along_0 in R0.
  unfold polyG. rewrite R1, R0.
  rewrite (polyF_const V c c') by auto.
  rewrite (polyF_const V (along_dir dir (-1) c) c'); auto.
  - apply high_flux_junk. rewrite H2. exact Hr.
  - intros _. rewrite coord_along_Z; auto. rewrite <- H2. exact Hd.
Qed.

Lemma prims_pressure u : 0 <= smallr p -> 0 <= smallp p -> 0 <= hP (prims m p u).
Proof.
  intros H1 H2. unfold prims. destruct b3; cbn [snd hP computePrimitives2 computePrimitives3];
  (eapply Rle_trans; [|apply Rmax_r]); cbn [mul RArith]; apply Rmult_le_pos; auto;
  (eapply Rle_trans; [exact H1|apply Rmax_r]).
Qed.
Lemma add_faces_same (sel : hs R -> R) fs x : (forall f, In f fs -> fst f = snd f) -> add_faces sel fs x = x.
Proof.
  revert x. induction fs as [|f fs IH]; intros x H; [reflexivity|]. unfold add_faces. cbn [fold_left].
  fold (add_faces sel fs (sub (add x (sel (fst f))) (sel (snd f)))).
  rewrite IH by (intros; apply H; right; auto). rewrite (H f) by (left; auto). cbn. lra.
Qed.
Lemma ltb_false (a b : R) : b <= a -> ltb a b = false.
Proof. intros H. cbn. destruct (Rlt_dec a b); [lra|reflexivity]. Qed.

Lemma uniform_faces O V c f : mood_ok m g -> b3 = false -> riemann_ok2 p -> agree m g V K -> 0 <= k ID -> 0 <= smallr p -> 0 <= smallp p ->
  interior m g c = true -> coord c IZ = 0%Z -> In f (facesF m (stageF m g p dt junk junkR O V) c) -> fst f = snd f.
Proof.
  intros Hm H2 Hr Hag Hk H3 H4 Hi Hz Hf.
  pose proof (mood_gw m g Hm) as Hw.
  assert (HF : forall dir c', In dir (dirs b3) -> coord c' IZ = 0%Z -> face_guard m g dir c' = true ->
     stageF m g p dt junk junkR O V dir c' = wn b3 (high_flux m p dt (polyF m junkR K c) (polyF m junkR K c) dir (junk c dir))).
  { intros dir c' Hd Hz' Hf'. unfold stageF, finalF, flagP.
    assert (Efl : flagF m p g V (highP m p dt junk (polyG m g junkR O V)) c' = 0).
    { unfold flagF. destruct (interior m g c') eqn:Hi'; [|reflexivity]. unfold flag_value.
      rewrite (ltb_false (hP _)) by (apply prims_pressure; auto).
      rewrite add_faces_same.
      - rewrite ltb_false; [reflexivity|].
        change (hD (stF b3 V c')) with (V c' ID). rewrite Hag; [exact Hk| |rewrite H2; unfold nv, ID; lia].
        apply interior_in; auto.
      - intros f0 Hf0. unfold facesF in Hf0. apply in_map_iff in Hf0. destruct Hf0 as (d & <- & Hd0). cbn [fst snd].
        assert (Hd2 : In d (dirs false)) by (rewrite <- H2; auto).
        rewrite (high_const O V d c' c); auto.
        2:{ rewrite <- (along_0 d c'). eapply interior_face; eauto. }
        rewrite (high_const O V d (along_dir d 1 c') c); auto.
        + eapply interior_face; eauto.
        + intros _. rewrite coord_along_Z; auto. }
    rewrite Efl. replace (ltb zero 0) with false by (symmetry; apply ltb_false; cbn; lra).
    apply high_const; auto. }
  unfold facesF in Hf. apply in_map_iff in Hf. destruct Hf as (d & <- & Hd). cbn [fst snd].
  assert (Hd2 : In d (dirs false)) by (rewrite <- H2; auto).
  rewrite !HF; auto.
  - rewrite coord_along_Z; auto.
  - eapply interior_face; eauto.
  - rewrite <- (along_0 d c). eapply interior_face; eauto.
Qed.
Lemma faces_only_same (sel : hs R -> R) fs : (forall f, In f fs -> fst f = snd f) -> faces_only sel fs = 0.
Proof. intros H. rewrite faces_only_R. apply add_faces_same; auto. Qed.

Lemma stF_K V c : mood_ok m g -> agree m g V K -> interior m g c = true -> (b3 = false -> coord c IZ = 0%Z) ->
  stF b3 V c = stF b3 K c.
Proof. intros Hm Hag Hi Hz. apply (stF_agree m g); auto. apply interior_in; auto. apply (mood_gw m g Hm). Qed.
Lemma fill_const W : mood_ok m g -> b3 = false ->
  (forall f, In f [FACE_XMIN; FACE_XMAX; FACE_YMIN; FACE_YMAX] -> kind_of_code (bc g f) <> Reflecting) ->
  (forall c, interior m g c = true -> (b3 = false -> coord c IZ = 0%Z) -> stF b3 W c = stF b3 K c) ->
  agree m g (fillF m g W) K.
Proof.
  intros Hm H2 Hb HW. intros c v Hc Hv.
  transitivity (fillF m g K c v).
  { apply fillF_ext; auto; [apply Hm|]. intros c' Hi Hz. apply (state_field m W K); auto. }
  destruct c as [[i j] kk]. unfold fillF. rewrite H2. unfold filled2d. cbv zeta.
  rewrite !along_open by (apply Hb; cbn; auto). reflexivity.
Qed.

Theorem uniform_mood ti aIn aOut (s s' : store R) : mood_ok m g -> b3 = false -> io aIn aOut -> riemann_ok2 p ->
  0 <= k ID -> 0 <= smallr p -> 0 <= smallp p ->
  (forall f, In f [FACE_XMIN; FACE_XMAX; FACE_YMIN; FACE_YMAX] -> kind_of_code (bc g f) <> Reflecting) ->
  (forall c v, interior m g c = true -> coord c IZ = 0%Z -> (0 <= v < 4)%Z -> s (at_cell aIn c v) = k v) ->
  run_kernels (time_integration m p g dt junk junkR ti aIn aOut) s s' ->
  forall c v, interior m g c = true -> coord c IZ = 0%Z -> (0 <= v < 4)%Z -> s' (at_cell aOut c v) = k v.
Proof.
  intros Hm H2 Hio Hr Hk H3 H4 Hb He Hs c v Hi Hz Hv.
  assert (Hvn : (0 <= v < nv b3)%Z) by (rewrite H2; exact Hv).
  assert (N : stateA aIn /\ stateA aOut /\ aIn <> aOut) by (unfold io in Hio; ma; lia). destruct N as (N1 & N2 & N3).
  assert (Hag : agree m g (fillF m g (fv s aIn)) K).
  { apply fill_const; auto. intros c0 Hi0 Hz0. apply stF_ext. intros v0 Hv0. rewrite H2 in Hv0. apply (He c0 v0); auto. }
  assert (FO : forall O V sel c x, agree m g V K -> interior m g c = true -> (b3 = false -> coord c IZ = 0%Z) ->
     add_faces sel (facesF m (stageF m g p dt junk junkR O V) c) x = x).
  { intros O V sel c0 x Ha Hi0 Hz0. apply add_faces_same. intros f Hf. eapply uniform_faces; eauto. }
  assert (EU : forall O V c, agree m g V K -> interior m g c = true -> (b3 = false -> coord c IZ = 0%Z) ->
     eulerF m g p dt junk junkR O V c = stF b3 K c).
  { intros O V c0 Ha Hi0 Hz0. unfold eulerF, updF, each. rewrite !FO by auto. rewrite (stF_K V) by auto.
    unfold stF, wn. rewrite H2. reflexivity. }
  assert (EW : forall O V W a b w c, agree m g V K -> agree m g W K -> interior m g c = true -> (b3 = false -> coord c IZ = 0%Z) ->
     a + b = 1 -> wn b3 (updFw m V W (stageF m g p dt junk junkR O W) a b w c) = stF b3 K c).
  { intros O V W a b w c0 Ha Hb0 Hi0 Hz0 Hab. unfold updFw, each.
    rewrite !faces_only_R, !FO by auto. rewrite (stF_K V), (stF_K W) by auto.
    unfold stF, wn. rewrite H2. cbn [add mul RArith hD hP hU hV hW].
    unfold w0. cbn [hD hP hU hV hW]. f_equal; (match goal with |- _ = ?x => transitivity ((a + b) * x); [ring|rewrite Hab; ring] end). }
  enough (E : stF b3 (fv s' aOut) c = stF b3 K c) by (apply (state_field m (fv s' aOut) K c v) in E; auto).
  destruct ti.
  - apply step_fe_spec in Hs; auto. destruct Hs as (K1 & _). rewrite K1 by auto. apply EU; auto.
  - apply step_rk2_spec in Hs; auto. destruct Hs as (W & A1 & A2 & _).
    assert (HW : agree m g (fillF m g W) K).
    { apply fill_const; auto. intros c0 Hi0 Hz0. rewrite A1 by auto. apply EU; auto. }
    rewrite A2 by auto. unfold updF2, each. rewrite !FO by auto. rewrite (stF_K (fillF m g W)), (stF_K (fillF m g (fv s aIn))) by auto.
    unfold stF, wn. rewrite H2. cbn [add mul half RArith hD hP hU hV hW]. unfold w0. cbn [hD hP hU hV hW]. f_equal; field.
  - apply step_rk3_spec in Hs; auto. destruct Hs as (W1 & W2 & A1 & A2 & A3 & _).
    assert (HW1 : agree m g (fillF m g W1) K).
    { apply fill_const; auto. intros c0 Hi0 Hz0. rewrite A1 by auto. apply EU; auto. }
    assert (HW2 : agree m g (fillF m g W2) K).
    { apply fill_const; auto. intros c0 Hi0 Hz0. rewrite A2 by auto. apply EW; auto. cbn. lra. }
    rewrite A3 by auto. apply EW; auto. cbn. lra.
  - apply step_rk54_spec in Hs; auto. 
    assert (Hc : In c (cellsD b3 g)) by (apply interior_in; auto; apply (mood_gw m g Hm)).
    apply stF_ext. intros v0 Hv0. rewrite Hs by auto. apply Hag; auto.
Qed.

(** One Euler step between any two state arrays: the state stays uniform, no cell is flagged. *)
Lemma uniform_fe aIn aOut (s s' : store R) : mood_ok m g -> b3 = false -> stateA aIn -> stateA aOut -> aIn <> aOut -> riemann_ok2 p ->
  0 <= k ID -> 0 <= smallr p -> 0 <= smallp p ->
  (forall f, In f [FACE_XMIN; FACE_XMAX; FACE_YMIN; FACE_YMAX] -> kind_of_code (bc g f) <> Reflecting) ->
  (forall c v, interior m g c = true -> coord c IZ = 0%Z -> (0 <= v < 4)%Z -> s (at_cell aIn c v) = k v) ->
  run_kernels (time_integration m p g dt junk junkR FE aIn aOut) s s' ->
  (forall c v, interior m g c = true -> coord c IZ = 0%Z -> (0 <= v < 4)%Z -> s' (at_cell aOut c v) = k v) /\
  (forall c, interior m g c = true -> coord c IZ = 0%Z -> s' (at_cell aFlags c 0) = 0).
Proof.
  intros Hm H2 N1 N2 N3 Hr Hk H3 H4 Hb He Hs.
  assert (Hag : agree m g (fillF m g (fv s aIn)) K).
  { apply fill_const; auto. intros c0 Hi0 Hz0. apply stF_ext. intros v0 Hv0. rewrite H2 in Hv0. apply (He c0 v0); auto. }
  apply step_fe_spec in Hs; auto. destruct Hs as (K1 & _ & _ & _ & _ & _ & K7). split.
  - intros c v Hi Hz Hv. assert (Hvn : (0 <= v < nv b3)%Z) by (rewrite H2; exact Hv).
    apply (state_field m (fv s' aOut) K c v); auto. rewrite K1 by auto. unfold eulerF, updF, each.
    rewrite !add_faces_same by (intros f Hf; eapply uniform_faces; eauto). rewrite (stF_K (fillF m g (fv s aIn))) by auto.
    unfold stF, wn. rewrite H2. reflexivity.
  - intros c Hi Hz. pose proof (mood_gw m g Hm) as Hw. rewrite K7 by (apply interior_in; auto). unfold stageFlag, flagP, flagF. rewrite Hi. unfold flag_value.
    rewrite (ltb_false (hP _)) by (apply prims_pressure; auto). rewrite add_faces_same.
    + rewrite ltb_false; [reflexivity|]. change (hD (stF b3 (fillF m g (fv s aIn)) c)) with (fillF m g (fv s aIn) c ID).
      rewrite Hag; [exact Hk| |rewrite H2; unfold nv, ID; lia]. apply interior_in; auto.
    + intros f0 Hf0. unfold facesF in Hf0. apply in_map_iff in Hf0. destruct Hf0 as (d & <- & Hd0). cbn [fst snd].
      assert (Hd2 : In d (dirs false)) by (rewrite <- H2; auto).
      rewrite (high_const _ _ d c c); auto.
      2:{ rewrite <- (along_0 d c). eapply interior_face; eauto. }
      rewrite (high_const _ _ d (along_dir d 1 c) c); auto.
      * eapply interior_face; eauto.
      * intros _. rewrite coord_along_Z; auto.
Qed.
End Uni.
