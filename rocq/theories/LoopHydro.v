(** The main loop of the hydrodynamics solver: the loop of LoopModel.v with the
    steps of HydroKernels.v and the time step of ReduceModel.v. *)
From Coq Require Import ZArith List Bool Reals Lia Lra Permutation.
From Verif Require Import Arith Par ParProofs GridModel BoundaryModel BoundarySpec BoundaryProofs
  HydroState RiemannModel HydroPoint HydroKernels CellKernels HydroField HydroExec HydroSpec HydroProofs2 HydroStep2
  HydroProofs3 HydroStep3 HydroSums HydroConserve HydroVersions Physics PointProofs ReduceModel DtProofs
  SymmetrySpec HydroRuns LoopModel LoopSpec LoopProofs.
Import ListNotations.
Open Scope Z_scope.

Section H.
Context {T : Type} {A : Arith T}.
Variable p : hparams T.
Variable g : grid.
Variable lowest : T.
Variable ge : bool.
Variable impl : Z.

(** SolverHydroMuscl::next_iteration_impl calls compute_dt (SolverHydroMuscl.h:731)
    and godunov_unsplit (738); the contents of the uninitialised variables may
    be different at each call. *)
Definition hydro_dt2 (a : Z) (m : store T) (d : T) : Prop := compute_dt_local2 p g lowest ge m a d.
Definition hydro_dt3 (a : Z) (m : store T) (d : T) : Prop := compute_dt_local3 p g lowest ge m a d.
Definition hydro_step2 (a b : Z) (dt : T) (m m' : store T) : Prop :=
  exists junk, run_kernels (godunov2 p g dt ge junk impl a b) m m'.
Definition hydro_step3 (a b : Z) (dt : T) (m m' : store T) : Prop :=
  exists junk, run_kernels (godunov3 p g dt ge junk impl a b) m m'.

(** The numerical scheme as a function on fields: [G] is gravity. *)
Definition store_of2 (u G : Z -> Z -> Z -> T) : store T :=
  fun l => if la l =? aG then G (li l) (lj l) (lv l) else u (li l) (lj l) (lv l).
Definition store_of3 (u G : Z -> Z -> Z -> Z -> T) : store T :=
  fun l => if la l =? aG then G (li l) (lj l) (lk l) (lv l) else u (li l) (lj l) (lk l) (lv l).
Definition cfl2 (G u : Z -> Z -> Z -> T) (d : T) : Prop := compute_dt_local2 p g lowest ge (store_of2 u G) aU d.
Definition cfl3 (G u : Z -> Z -> Z -> Z -> T) (d : T) : Prop := compute_dt_local3 p g lowest ge (store_of3 u G) aU d.
Definition adv2 (G : Z -> Z -> Z -> T) (dt : T) (u : Z -> Z -> Z -> T) : Z -> Z -> Z -> T :=
  fun i j v => comp (step2 p dt ge (fst2 g (store_of2 u G) aU) G i j) v.
Definition adv3 (G : Z -> Z -> Z -> Z -> T) (dt : T) (u : Z -> Z -> Z -> Z -> T) : Z -> Z -> Z -> Z -> T :=
  fun i j k v => comp (step3 p dt ge (zfx p dt ge impl) (fst3 g (store_of3 u G) aU) G i j k) v.

Lemma reduces_ext {I} (ident : T) (f f' : I -> T -> T) join items r :
  (forall x acc, In x items -> f x acc = f' x acc) -> reduces ident f join items r -> reduces ident f' join items r.
Proof.
  intros H (l & P & R). exists l. split; auto.
  assert (HI : forall x, In x l -> In x items) by (intros x; apply Permutation_in; auto). clear P.
  induction R.
  - constructor.
  - rewrite H by (apply HI; left; auto). constructor. apply IHR. intros y Hy. apply HI. right. auto.
  - constructor; [apply IHR1|apply IHR2]; intros y Hy; apply HI; apply in_or_app; auto.
Qed.

Lemma dt_store2 u G a m d : a <> aG -> holds2 g u a m -> gravity_is2 G m -> hydro_dt2 a m d -> cfl2 G u d.
Proof.
  intros Ha Hu HG (r & Hr & ->). exists r. split; auto. revert Hr. apply reduces_ext.
  intros [[i j] k] acc _. unfold dt_body2. destruct (interior2 g i j) eqn:E; auto.
  apply interior2_inside in E. unfold load_hs2, store_of2. cbn [la li lj lk lv].
  rewrite !Hu by (auto; unfold ID, IP, IU, IV; lia). rewrite !HG.
  assert (EE : aU =? aG = false) by reflexivity. rewrite EE, Z.eqb_refl. reflexivity.
Qed.
Lemma dt_store3 u G a m d : a <> aG -> holds3 g u a m -> gravity_is3 G m -> hydro_dt3 a m d -> cfl3 G u d.
Proof.
  intros Ha Hu HG (r & Hr & ->). exists r. split; auto. revert Hr. apply reduces_ext.
  intros [[i j] k] acc _. unfold dt_body3. destruct (interior3 g i j k) eqn:E; auto.
  apply interior3_inside in E. unfold load_hs3, store_of3. cbn [la li lj lk lv].
  rewrite !Hu by (auto; unfold ID, IP, IU, IV, IW; lia). rewrite !HG.
  assert (EE : aU =? aG = false) by reflexivity. rewrite EE, Z.eqb_refl. reflexivity.
Qed.

Hypothesis Himpl : impl = 0 \/ impl = 1.
Hypothesis Hs : slope_ok p.

Lemma fst2_holds u G a m i j : hydro_grid2 g -> holds2 g u a m -> -gw g + 2 <= i < isize g -> 0 <= j < jsize g ->
  fst2 g m a i j = fst2 g (store_of2 u G) aU i j.
Proof.
  intros Hg Hu Hi Hj. pose proof Hg as (G1 & G2 & G3 & G4).
  pose proof (image_in (kx0 g) (kx1 g) (nx g) (gw g) (i - gw g)).
  pose proof (image_in (ky0 g) (ky1 g) (ny g) (gw g) (j - gw g)).
  unfold fst2, filled2d, store_of2. cbn [la li lj lk lv].
  assert (EE : aU =? aG = false) by reflexivity. rewrite EE.
  unfold isize, jsize, imax, imin, jmax, jmin in *.
  rewrite !Hu by (unfold inside2, ID, IP, IU, IV; lia). reflexivity.
Qed.
Lemma fst3_holds u G a m i j k : hydro_grid3 g -> holds3 g u a m -> 0 <= i < isize g -> 0 <= j < jsize g -> 0 <= k < ksize g ->
  fst3 g m a i j k = fst3 g (store_of3 u G) aU i j k.
Proof.
  intros Hg Hu Hi Hj Hk. pose proof Hg as (G1 & G2 & G3 & G4 & G5).
  pose proof (image_in (kx0 g) (kx1 g) (nx g) (gw g) (i - gw g)).
  pose proof (image_in (ky0 g) (ky1 g) (ny g) (gw g) (j - gw g)).
  pose proof (image_in (kz0 g) (kz1 g) (nz g) (gw g) (k - gw g)).
  unfold fst3, filled3d, store_of3. cbn [la li lj lk lv].
  assert (EE : aU =? aG = false) by reflexivity. rewrite EE.
  unfold isize, jsize, ksize, imax, imin, jmax, jmin, kmax, kmin in *.
  rewrite !Hu by (unfold inside3, ID, IP, IU, IV, IW; lia). reflexivity.
Qed.

Lemma step_store2 u G a b d m m' : hydro_grid2 g -> riemann_ok2 p -> arr_ok a b ->
  holds2 g u a m -> gravity_is2 G m -> hydro_step2 a b d m m' -> holds2 g (adv2 G d u) b m' /\ gravity_is2 G m'.
Proof.
  intros Hg Hr Ha Hu HG (junk & Hk).
  destruct (godunov2_spec p g d ge junk impl a b m m' Himpl Ha Hg (slope_ok_spec p Hs) (riemann_ok2_spec p Hr) Hk) as (K1 & _ & _ & K4).
  split.
  - intros i j v Hi Hv. rewrite <- comp_st2 by auto. rewrite K1 by auto. unfold adv2. f_equal.
    pose proof Hg as (G1 & G2 & G3 & G4). apply step2_ext; [|intros; apply HG].
    intros i' j' Hn. apply fst2_holds; auto; unfold near, inside2, isize, jsize, imax, imin, jmax, jmin in *; lia.
  - intros i j d'. rewrite K4; [apply HG| |]; unfold scratch2; cbn [la]; clear - Ha; arrays; lia.
Qed.
Lemma step_store3 u G a b d m m' : hydro_grid3 g -> riemann_ok3 p -> arr_ok a b ->
  holds3 g u a m -> gravity_is3 G m -> hydro_step3 a b d m m' -> holds3 g (adv3 G d u) b m' /\ gravity_is3 G m'.
Proof.
  intros Hg Hr Ha Hu HG (junk & Hk).
  destruct (godunov3_spec p g d ge junk impl a b m m' Himpl Ha Hg (slope_ok_spec p Hs) (riemann_ok3_spec p Hr) Hk) as (K1 & _ & _ & K4).
  split.
  - intros i j k v Hi Hv. rewrite <- comp_st3 by auto. rewrite K1 by auto. unfold adv3. f_equal.
    pose proof Hg as (G1 & G2 & G3 & G4 & G5). apply step3_ext; [|intros; apply HG].
    intros i' j' k' Hn. apply fst3_holds; auto; unfold near3, inside3, isize, jsize, ksize, imax, imin, jmax, jmin, kmax, kmin in *; lia.
  - intros i j k d'. rewrite K4; [apply HG| |]; unfold scratch3; cbn [la]; clear - Ha; arrays; lia.
Qed.

Theorem hydro_run2 (c : lconf T) (s s' : sim T T) :
  hydro_grid2 g -> riemann_ok2 p -> 0 <= m_iteration s -> written s = [] ->
  run c hydro_dt2 hydro_step2 s s' ->
  let u := fun i j v => mem s (Loc (current (m_iteration s)) i j 0 v) in
  let G := fun i j d => mem s (Loc aG i j 0 d) in
  let traj := trajectory (l_tEnd c) (cfl2 G) (adv2 G) in
  exists n u', traj n (m_t s, u) (m_t s', u') /\
    holds2 g u' (current (m_iteration s')) (mem s') /\
    forall sn, In sn (written s') ->
      exists k u1, (k <= n)%nat /\ traj k (m_t s, u) (sn_time sn, u1) /\ traj (n - k)%nat (sn_time sn, u1) (m_t s', u') /\
        holds2 g u1 (sn_array sn) (sn_mem sn).
Proof.
  intros Hg Hr H0 Hw Hrun u G traj.
  destruct (refine_run c hydro_dt2 hydro_step2 (fun u a m => holds2 g u a m /\ gravity_is2 G m /\ a <> aG) (cfl2 G) (adv2 G)) with (s := s) (s' := s') (x := u)
    as (n & u' & T1 & H1 & S1); auto.
  - intros x a m d (X1 & X2 & X3) Hd. eapply dt_store2; eauto.
  - intros x a b d m m' Ha (X1 & X2 & X3) Hst. destruct (step_store2 x G a b d m m') as [Y1 Y2]; auto.
    split; auto. split; auto. clear - Ha. arrays; lia.
  - split; [intros i j v _ _; reflexivity|]. split; [intros i j d; reflexivity|].
    unfold current. destruct (Z.rem _ 2 =? 0); discriminate.
  - exists n, u'. split; auto. split; [apply H1|]. intros sn Hin. destruct (S1 sn Hin) as (k & x1 & K1 & K2 & K3 & K4).
    exists k, x1. split; auto. split; auto. split; auto. apply K4.
Qed.
Theorem hydro_run3 (c : lconf T) (s s' : sim T T) :
  hydro_grid3 g -> riemann_ok3 p -> 0 <= m_iteration s -> written s = [] ->
  run c hydro_dt3 hydro_step3 s s' ->
  let u := fun i j k v => mem s (Loc (current (m_iteration s)) i j k v) in
  let G := fun i j k d => mem s (Loc aG i j k d) in
  let traj := trajectory (l_tEnd c) (cfl3 G) (adv3 G) in
  exists n u', traj n (m_t s, u) (m_t s', u') /\
    holds3 g u' (current (m_iteration s')) (mem s') /\
    forall sn, In sn (written s') ->
      exists k u1, (k <= n)%nat /\ traj k (m_t s, u) (sn_time sn, u1) /\ traj (n - k)%nat (sn_time sn, u1) (m_t s', u') /\
        holds3 g u1 (sn_array sn) (sn_mem sn).
Proof.
  intros Hg Hr H0 Hw Hrun u G traj.
  destruct (refine_run c hydro_dt3 hydro_step3 (fun u a m => holds3 g u a m /\ gravity_is3 G m /\ a <> aG) (cfl3 G) (adv3 G)) with (s := s) (s' := s') (x := u)
    as (n & u' & T1 & H1 & S1); auto.
  - intros x a m d (X1 & X2 & X3) Hd. eapply dt_store3; eauto.
  - intros x a b d m m' Ha (X1 & X2 & X3) Hst. destruct (step_store3 x G a b d m m') as [Y1 Y2]; auto.
    split; auto. split; auto. clear - Ha. arrays; lia.
  - split; [intros i j k v _ _; reflexivity|]. split; [intros i j k d; reflexivity|].
    unfold current. destruct (Z.rem _ 2 =? 0); discriminate.
  - exists n, u'. split; auto. split; [apply H1|]. intros sn Hin. destruct (S1 sn Hin) as (k & x1 & K1 & K2 & K3 & K4).
    exists k, x1. split; auto. split; auto. split; auto. apply K4.
Qed.

(** Every step can be made: the loop cannot get stuck. *)
Lemma hydro_dt2_total a m : exists d, hydro_dt2 a m d.
Proof. eexists. eexists. split; [eexists; split; [apply Permutation_refl|apply partial_seq]|reflexivity]. Qed.
Lemma hydro_dt3_total a m : exists d, hydro_dt3 a m d.
Proof. eexists. eexists. split; [eexists; split; [apply Permutation_refl|apply partial_seq]|reflexivity]. Qed.
Lemma hydro_step2_total a b d m : exists m', hydro_step2 a b d m m'.
Proof. eexists. exists (fun _ _ => HS zero zero zero zero zero). apply run_kernels_seq. Qed.
Lemma hydro_step3_total a b d m : exists m', hydro_step3 a b d m m'.
Proof. eexists. exists (fun _ _ => HS zero zero zero zero zero). apply run_kernels_seq. Qed.
End H.

(** ** Whole runs in exact arithmetic *)
Section Whole.
Variable p : hparams R.
Variable g : grid.
Variable lowest : R.
Variable impl : Z.
Variable c : lconf R.
Hypothesis Himpl : impl = 0 \/ impl = 1.
Hypothesis Hs : slope_ok p.

Lemma positive2 ge : params_ok p -> (0 < dx p)%R -> (0 < dy p)%R -> (0 < cfl p)%R -> (lowest <= 0)%R -> hydro_grid2 g ->
  forall a m d, hydro_dt2 p g lowest ge a m d -> (0 < d)%R.
Proof. intros H1 H2 H3 H4 H5 Hg a m d H. destruct ge; [eapply dt_gravity2|eapply dt_cfl2]; eauto. Qed.
Lemma positive3 ge : params_ok p -> (0 < dx p)%R -> (0 < dy p)%R -> (0 < dz p)%R -> (0 < cfl p)%R -> (lowest <= 0)%R -> hydro_grid3 g ->
  forall a m d, hydro_dt3 p g lowest ge a m d -> (0 < d)%R.
Proof. intros H1 H2 H3 H3' H4 H5 Hg a m d H. destruct ge; [eapply dt_gravity3|eapply dt_cfl3]; eauto. Qed.

Lemma edge_same {TT T} {AT : Arith TT} (c0 : lconf TT) (s : sim TT T) :
  m_t (edge_save c0 s) = m_t s /\ m_iteration (edge_save c0 s) = m_iteration s /\ mem (edge_save c0 s) = mem s.
Proof. destruct (edge_cases c0 s) as [[_ ->]|[_ ->]]; auto. Qed.

(** A quantity kept by every step is kept by the run. *)
Lemma run_keeps {TT T Y} {AT : Arith TT} (c0 : lconf TT) dtl (god : Z -> Z -> TT -> store T -> store T -> Prop) (tot : store T -> Z -> Y) (s s' : sim TT T) :
  (forall a b d m m', arr_ok a b -> god a b d m m' -> tot m' b = tot m a) ->
  0 <= m_iteration s -> run c0 dtl god s s' ->
  tot (mem s') (current (m_iteration s')) = tot (mem s) (current (m_iteration s)).
Proof.
  intros H H0 [n s1 Hl Hf E]. subst s'. destruct (edge_same c0 s1) as (_ & -> & ->). destruct (edge_same c0 s) as (_ & E2 & E3).
  rewrite <- E2, <- E3. rewrite <- E2 in H0. clear E2 E3 Hf. induction Hl as [z|n z z1 z2 Hl IH Hf Hn]; auto.
  rewrite <- IH by auto. inversion Hn as [d m' Hlog Hd Hg]; subst z2. cbn [mem m_iteration].
  rewrite current_next by (pose proof (loop_iter _ _ _ _ _ _ Hl); lia). eapply H; eauto. apply arr_ok_current.
Qed.

Theorem conserve_run2 (s s' : sim R R) v : hydro_grid2 g -> all_periodic g -> riemann_ok2 p -> 0 <= m_iteration s -> 0 <= v < 4 ->
  run c (hydro_dt2 p g lowest false) (hydro_step2 p g false impl) s s' ->
  total2 g (mem s') (current (m_iteration s')) v = total2 g (mem s) (current (m_iteration s)) v.
Proof.
  intros Hg Hp Hr H0 Hv Hrun. refine (run_keeps c _ _ (fun m a => total2 g m a v) s s' _ H0 Hrun).
  intros a b d m m' Ha (junk & Hk). eapply conserve2; eauto.
Qed.
Theorem conserve_run3 (s s' : sim R R) v : hydro_grid3 g -> all_periodic g -> riemann_ok3 p -> 0 <= m_iteration s -> 0 <= v < 5 ->
  run c (hydro_dt3 p g lowest false) (hydro_step3 p g false impl) s s' ->
  total3 g (mem s') (current (m_iteration s')) v = total3 g (mem s) (current (m_iteration s)) v.
Proof.
  intros Hg Hp Hr H0 Hv Hrun. refine (run_keeps c _ _ (fun m a => total3 g m a v) s s' _ H0 Hrun).
  intros a b d m m' Ha (junk & Hk). eapply conserve3; eauto.
Qed.
Theorem closed_run2 (s s' : sim R R) v : hydro_grid2 g -> params_ok p -> symmetric_solver2 p -> 0 <= m_iteration s ->
  closed_dir (kx0 g) (kx1 g) -> closed_dir (ky0 g) (ky1 g) ->
  v = 0 \/ v = 1 \/ (v = 2 /\ periodic_dir (kx0 g) (kx1 g)) \/ (v = 3 /\ periodic_dir (ky0 g) (ky1 g)) ->
  run c (hydro_dt2 p g lowest false) (hydro_step2 p g false impl) s s' ->
  total2 g (mem s') (current (m_iteration s')) v = total2 g (mem s) (current (m_iteration s)) v.
Proof.
  intros Hg Hp Hsy H0 Hx Hy Hv Hrun. refine (run_keeps c _ _ (fun m a => total2 g m a v) s s' _ H0 Hrun).
  intros a b d m m' Ha (junk & Hk). eapply closed2; eauto.
Qed.
Theorem closed_run3 (s s' : sim R R) v : hydro_grid3 g -> params_ok p -> symmetric_solver3 p -> 0 <= m_iteration s ->
  closed_dir (kx0 g) (kx1 g) -> closed_dir (ky0 g) (ky1 g) -> closed_dir (kz0 g) (kz1 g) ->
  v = 0 \/ v = 1 \/ (v = 2 /\ periodic_dir (kx0 g) (kx1 g)) \/ (v = 3 /\ periodic_dir (ky0 g) (ky1 g))
    \/ (v = 4 /\ periodic_dir (kz0 g) (kz1 g)) ->
  run c (hydro_dt3 p g lowest false) (hydro_step3 p g false impl) s s' ->
  total3 g (mem s') (current (m_iteration s')) v = total3 g (mem s) (current (m_iteration s)) v.
Proof.
  intros Hg Hp Hsy H0 Hx Hy Hz Hv Hrun. refine (run_keeps c _ _ (fun m a => total3 g m a v) s s' _ H0 Hrun).
  intros a b d m m' Ha (junk & Hk). eapply closed3; eauto.
Qed.
End Whole.
