(** Composition of the loops of the spectral difference solver. *)
From Coq Require Import ZArith List Bool Lia.
From Verif Require Import Arith Par ParProofs GridModel BoundaryModel BoundarySpec BoundaryProofs HydroState RiemannModel HydroPoint
  HydroKernels CellKernels HydroField HydroExec HydroSpec HydroConserve HydroStep2 MoodKernels MoodProofs
  TaskModel TaskKernels SdmGeom EulerModel SdmKernels SdmDofs SdmProofs SdmRunSpec.
Import ListNotations.
Open Scope Z_scope.

Section SR.
Context {T : Type} {A : Arith T}.
Notation store := (store T).
Variable b3 : bool.
Variable P : points T.
Variable p : hparams T.
Variable g : grid.
Variable dt : T.
Variable junk : cell -> cell -> hs T.
Notation N := (npts P).
Hypothesis Hok : sdm_ok b3 P g.
Notation C := (cells b3 g).
Notation D := (dofs b3 P).
Notation V := (vars b3).
Notation fieldS := (fieldS (T := T)).
Notation sv := (sv b3 P).
Notation fx := (fx b3 P).
Notation agreeS := (agreeS b3 P g).

Lemma HN : 1 <= N. Proof. apply Hok. Qed.
Lemma sizeA_N a : sizeA g a = sizeN g a + 2 * gw g.
Proof. unfold sizeA, sizeN, isize, jsize, ksize, imax, jmax, kmax, imin, jmin, kmin. destruct (a =? IX); [|destruct (a =? IY)]; lia. Qed.
Lemma size_pos a : In a (dirs b3) -> gw g <= sizeN g a /\ gw g = 1.
Proof.
  intros Ha. destruct Hok as (_ & Hw & Hx & Hy & Hz). apply dirs_cases in Ha. rewrite Hw.
  destruct Ha as [->|[->|[-> Hb]]]; cbn; auto.
Qed.

(** ** Flux divergence *)
Lemma fluxF_ext dir (I I' : fieldS) c q v : In dir (dirs b3) ->
  (forall c q v, In c C -> fbox b3 P dir q -> In v V -> I c q v = I' c q v) ->
  In c C -> fbox b3 P dir q -> In v V -> fluxF b3 P p g junk dir I c q v = fluxF b3 P p g junk dir I' c q v.
Proof.
  intros Hd H Hc Hq Hv. unfold fluxF. cbv zeta. destruct (flux_line b3 P dir q Hd Hq) as (Hl & Hn & Eq).
  pose proof (coord_C b3 g dir c Hd Hc) as Hcc. pose proof HN as HN.
  assert (Hb : forall n, 0 <= n <= N -> fbox b3 P dir (setc dir n q)).
  { intros n Hn'. rewrite Eq, setc_setc. apply line_flux; auto. }
  assert (HS : forall c0 q0, In c0 C -> fbox b3 P dir q0 -> stV b3 (I c0 q0) = stV b3 (I' c0 q0)).
  { intros c0 q0 Hc0 Hq0. apply stV_ext. intros; apply H; auto. }
  destruct (Z.eqb_spec (coord q dir) 0).
  - destruct (Z.ltb_spec 0 (coord c dir)); [|auto]. rewrite !HS; auto; try (apply Hb; lia). apply along_in; auto. lia.
  - destruct (Z.eqb_spec (coord q dir) N).
    + destruct (Z.ltb_spec (coord c dir + 1) (sizeA g dir)); [|auto]. rewrite !HS; auto; try (apply Hb; lia). apply along_in; auto. lia.
    + rewrite HS; auto.
Qed.
Definition fluxU (dir : Z) (U : fieldS) : fieldS := fluxF b3 P p g junk dir (interpF P p dir U).
Definition termF (dir : Z) (U : fieldS) : fieldS := derivF P p dir (fluxU dir U).
Definition divF (U : fieldS) : fieldS := fun c q v =>
  fold_left (fun acc dir => add acc (termF dir U c q v)) (dirs b3) zero.
Lemma fluxU_ext dir U U' c q v : In dir (dirs b3) -> agreeS U U' -> In c C -> fbox b3 P dir q -> In v V ->
  fluxU dir U c q v = fluxU dir U' c q v.
Proof. intros. apply fluxF_ext; auto. intros. eapply interp_ext; eauto using HN. Qed.
Lemma termF_ext dir U U' c q v : In dir (dirs b3) -> agreeS U U' -> In c C -> In q D -> In v V -> termF dir U c q v = termF dir U' c q v.
Proof.
  intros Hd H Hc Hq Hv. unfold termF, derivF. apply deriv_ext. intros k Hk. apply fluxU_ext; auto.
  destruct (dof_line b3 P dir q Hd Hq) as (Hl & _ & ->). rewrite setc_setc. apply line_flux; auto.
Qed.
Lemma divF_ext U U' : agreeS U U' -> agreeS (divF U) (divF U').
Proof.
  intros H c q v Hc Hq Hv. unfold divF.
  assert (G : forall l a, incl l (dirs b3) -> fold_left (fun acc dir => add acc (termF dir U c q v)) l a =
     fold_left (fun acc dir => add acc (termF dir U' c q v)) l a).
  { induction l as [|d l IH]; intros a Hl; [reflexivity|]. cbn. rewrite (termF_ext d U U') by (auto; apply Hl; left; auto).
    apply IH. intros x Hx; apply Hl; right; auto. }
  apply G. apply incl_refl.
Qed.

Definition scrS (l : loc) : Prop := la l = aSF \/ la l = aFdiv.
Lemma per_dir_spec aIn dir (s s' : store) : In dir (dirs b3) -> aIn <> aSF -> aIn <> aFdiv ->
  run_kernels (per_dir b3 P p g junk aIn dir) s s' ->
  (forall c q v, In c C -> In q D -> In v V -> sv s' aFdiv c q v = add (sv s aFdiv c q v) (termF dir (sv s aIn) c q v)) /\
  (forall l, ~ scrS l -> s' l = s l).
Proof.
  intros Hd H1 H2 Hk. pose proof HN as HN. unfold per_dir in Hk. unfold scrS.
  apply rk_inv in Hk. destruct Hk as (s1 & K1 & Hk). apply rk_inv in Hk. destruct Hk as (s2 & K2 & Hk).
  apply rk_inv in Hk. destruct Hk as (s3 & K3 & Hk). apply rk_inv in Hk. destruct Hk as (s4 & K4 & Hk).
  apply rk_nil_inv in Hk. subst s4.
  pose proof (erase_flux_spec b3 P g _ _ K1) as E1.
  apply (interp_spec b3 P p g junk) in K2; auto. destruct K2 as [I1 I2].
  apply flux_spec in K3; auto. destruct K3 as [F1 F2].
  apply (derivative_spec b3 P p g) in K4; auto. destruct K4 as [D1 D2]. split.
  - intros c q v Hc Hq Hv. rewrite D1 by auto. f_equal.
    + unfold sv. rewrite F2, I2, E1; auto; rewrite la_sloc; discriminate.
    + unfold termF, derivF. apply deriv_ext. intros k Hk'.
      assert (Hb : fbox b3 P dir (setc dir k q)).
      { destruct (dof_line b3 P dir q Hd Hq) as (Hl & _ & ->). rewrite setc_setc. apply line_flux; auto. }
      rewrite F1 by auto. apply fluxF_ext; auto. intros c' q' v' Hc' Hq' Hv'. rewrite I1 by auto.
      eapply interp_ext; eauto. intros c0 q0 v0 Hc0 Hq0 Hv0. unfold SdmProofs.sv. apply E1. rewrite la_sloc. exact H1.
  - intros l Hl. rewrite D2, F2, I2, E1; auto; tauto.
Qed.
Lemma divergence_spec aIn (s s' : store) : aIn <> aSF -> aIn <> aFdiv ->
  run_kernels (fluxes_divergence b3 P p g junk aIn) s s' ->
  (forall c q v, In c C -> In q D -> In v V -> sv s' aFdiv c q v = divF (sv s aIn) c q v) /\
  (forall l, ~ scrS l -> s' l = s l).
Proof.
  intros H1 H2 Hk. unfold fluxes_divergence in Hk.
  apply run_kernels_app in Hk. destruct Hk as (s1 & K1 & Hk). apply run_kernels_app in Hk. destruct Hk as (s2 & K2 & K3).
  apply rk_inv in K1. destruct K1 as (s1' & K1 & K1'). apply rk_nil_inv in K1'. subst s1'.
  apply (erase_sol_spec b3 P g) in K1. destruct K1 as [Z1 Z2].
  assert (G : forall l (t t' : store), incl l (dirs b3) -> agreeS (sv t aIn) (sv s aIn) ->
    run_kernels (concat (map (per_dir b3 P p g junk aIn) l)) t t' ->
    (forall c q v, In c C -> In q D -> In v V -> sv t' aFdiv c q v = fold_left (fun acc dir => add acc (termF dir (sv s aIn) c q v)) l (sv t aFdiv c q v)) /\
    (forall l, ~ scrS l -> t' l = t l)).
  { induction l as [|d l IH]; intros t t' Hl Ht Hr; cbn [map concat] in Hr.
    - apply rk_nil_inv in Hr. subst. auto.
    - apply run_kernels_app in Hr. destruct Hr as (t1 & R1 & R2).
      apply per_dir_spec in R1; auto; [|apply Hl; left; auto]. destruct R1 as [A1 A2].
      apply IH in R2.
      + destruct R2 as [B1 B2]. split.
        * intros c q v Hc Hq Hv. rewrite B1 by auto. cbn [fold_left]. rewrite A1 by auto. f_equal. f_equal.
          apply termF_ext; auto. apply Hl; left; auto.
        * intros l' Hl'. rewrite B2, A2 by auto. reflexivity.
      + intros x Hx; apply Hl; right; auto.
      + intros c q v Hc Hq Hv. rewrite <- Ht by auto. unfold SdmProofs.sv. apply A2. unfold scrS. rewrite la_sloc. tauto. }
  apply G in K2; [|apply incl_refl|].
  2:{ intros c q v Hc Hq Hv. unfold SdmProofs.sv. apply Z2. rewrite la_sloc. exact H2. }
  destruct K2 as [B1 B2].
  assert (E3 : forall l, la l <> aSF -> s' l = s2 l).
  { destruct b3.
    - apply rk_nil_inv in K3. subst. auto.
    - apply rk_inv in K3. destruct K3 as (s3 & K3 & K4). apply rk_nil_inv in K4. subst s3. exact (erase_flux_spec false P g _ _ K3). }
  split.
  - intros c q v Hc Hq Hv. unfold SdmProofs.sv at 1. rewrite E3 by (rewrite la_sloc; discriminate).
    change (s2 (sloc b3 P aFdiv c q v)) with (sv s2 aFdiv c q v). rewrite B1 by auto. rewrite Z1 by auto. reflexivity.
  - intros l Hl. unfold scrS in *. rewrite E3, B2, Z2 by tauto. reflexivity.
Qed.

(** ** Boundaries *)
Definition slab_pos (a : Z) (hi : bool) (c : cell) : Prop := if hi then sizeN g a + gw g <= coord c a else coord c a < gw g.
Lemma in_slab_iff a hi c : In a (dirs b3) -> In c C -> (in_slab g a hi c = true <-> slab_pos a hi c).
Proof.
  intros Ha Hc. pose proof (coord_C b3 g a c Ha Hc) as H. rewrite sizeA_N in H. unfold in_slab, slab_pos.
  destruct hi; rewrite andb_true_iff, !Z.leb_le; [lia|rewrite Z.ltb_lt; lia].
Qed.
Lemma setc_in a n c : In a (dirs b3) -> In c C -> 0 <= n < sizeA g a -> In (setc a n c) C.
Proof.
  intros Ha Hc Hn. unfold cells in *. apply In_cellsD in Hc. apply In_cellsD. destruct Hc as [Hc Hz]. split.
  - intros b Hb. rewrite coord_setc by (eapply dir_any; eauto). destruct (Z.eqb_spec b a); [subst; auto|auto].
  - intros H. rewrite coord_setc; [|eapply dir_any; eauto|auto].
    assert (IZ =? a = false) as ->; [|auto]. apply Z.eqb_neq. subst b3. destruct Ha as [<-|[<-|[]]]; discriminate.
Qed.
Lemma bsource_in a hi c : In a (dirs b3) -> In c C -> slab_pos a hi c ->
  gw g <= bsource (bc_of g a hi) hi (sizeN g a) (gw g) (coord c a) < gw g + sizeN g a.
Proof.
  intros Ha Hc Hs. pose proof (coord_C b3 g a c Ha Hc) as H. rewrite sizeA_N in H. pose proof (size_pos a Ha) as Hp.
  unfold slab_pos in Hs. unfold bsource. destruct hi; destruct (_ =? BC_DIRICHLET); try destruct (_ =? BC_NEUMANN); lia.
Qed.
Lemma mirror_dof a q : In a (dirs b3) -> In q D -> In (setc a (N - 1 - coord q a) q) D.
Proof.
  intros Ha Hq. destruct (dof_line b3 P a q Ha Hq) as (Hl & Hn & Eq).
  rewrite Eq at 2. rewrite setc_setc. apply In_dofs. apply line_sol; auto. lia.
Qed.
Definition bvalue (arr a : Z) (hi : bool) (s : store) : fieldS := fun c q v =>
  let bt := bc_of g a hi in
  let x := sv s arr (setc a (bsource bt hi (sizeN g a) (gw g) (coord c a)) c)
             (if bt =? BC_DIRICHLET then setc a (N - 1 - coord q a) q else q) v in
  if bt =? BC_DIRICHLET then mul x (if v =? ivel a then opp one else one) else x.
Lemma boundary_spec arr a hi (s s' : store) : In a (dirs b3) -> par_exec s (make_boundary b3 P g arr a hi) s' ->
  (forall c q v, In c C -> slab_pos a hi c -> In q D -> In v V -> sv s' arr c q v = bvalue arr a hi s c q v) /\
  (forall c q v, In c C -> ~ slab_pos a hi c -> In q D -> In v V -> sv s' arr c q v = sv s arr c q v) /\
  (forall l, la l <> arr -> s' l = s l).
Proof.
  intros Ha Hex. unfold make_boundary in Hex. apply tasks_spec in Hex.
  - destruct Hex as [H1 H2]. split; [|split].
    + intros c q v Hc Hs Hq Hv. apply (H1 c (q, v)).
      * apply filter_In. split; auto. apply in_slab_iff; auto.
      * apply in_prod; auto.
      * left. reflexivity.
    + intros c q v Hc Hs Hq Hv. apply H2. intros c' [q' v'] Hc' Hk [E|[]].
      apply filter_In in Hc'. apply in_prod_iff in Hk. destruct Hc' as [Hc' Hs']. apply in_slab_iff in Hs'; auto.
      apply sloc_inj in E; try (apply In_dofs; tauto). destruct E as (_ & -> & _). contradiction.
    + intros l Hl. apply H2. intros c [q v] Hc Hk [<-|[]]. rewrite la_sloc in Hl. auto.
  - apply NoDup_filter. apply NoDup_C.
  - intros. apply NoDup_keysS.
  - intros c [q v] _ _. repeat constructor. intros [].
  - intros c [q v] c' [q' v'] l Hc Hk Hc' Hk' Hw Hw'. apply filter_In in Hc. apply filter_In in Hc'.
    destruct Hc as [Hc Hs]. destruct Hc' as [Hc' Hs']. apply in_slab_iff in Hs; auto. apply in_slab_iff in Hs'; auto.
    apply in_prod_iff in Hk. apply in_prod_iff in Hk'. destruct Hk as [Hq Hv]. destruct Hk' as [Hq' Hv'].
    cbn in Hw. destruct Hw as [<-|[]]. cbn in Hw'. destruct Hw' as [[E|[]]|[E|[]]].
    + apply sloc_inj in E; try (apply In_dofs; tauto). destruct E as (_ & -> & -> & ->). auto.
    + exfalso. apply sloc_inj in E; [|destruct (_ =? _); apply In_dofs; auto; apply mirror_dof; auto|apply In_dofs; auto].
      destruct E as (_ & E & _). subst c. pose proof (bsource_in a hi c' Ha Hc' Hs') as B. revert Hs. unfold slab_pos.
      rewrite coord_setc, Z.eqb_refl by (eapply dir_any; eauto). destruct hi; lia.
Qed.

Lemma kind_dirichlet bt : kind_of_code bt = if bt =? BC_DIRICHLET then Reflecting else if bt =? BC_NEUMANN then Outflow else Periodic.
Proof. reflexivity. Qed.
Lemma bvalue_lo arr a s c q v : In a (dirs b3) -> In c C -> coord c a < gw g -> bvalue arr a false s c q v = ghost_along P g a (sv s arr) c q v.
Proof.
  intros Ha Hc Hs. pose proof (coord_C b3 g a c Ha Hc) as H. rewrite sizeA_N in H. pose proof (size_pos a Ha) as [Hp _].
  unfold bvalue, ghost_along, is_ghost, reflected, image. cbv zeta. rewrite !kind_dirichlet.
  rewrite (proj2 (Z.ltb_lt (coord c a - gw g) 0)) by lia. cbn [orb]. unfold bsource.
  destruct (bc_of g a false =? BC_DIRICHLET).
  - replace (gw g + (-1 - (coord c a - gw g))) with (2 * gw g - 1 - coord c a) by lia. reflexivity.
  - destruct (bc_of g a false =? BC_NEUMANN).
    + rewrite Z.add_0_r. reflexivity.
    + replace (gw g + (coord c a - gw g + sizeN g a)) with (sizeN g a + coord c a) by lia. reflexivity.
Qed.
Lemma bvalue_hi arr a s c q v : In a (dirs b3) -> In c C -> sizeN g a + gw g <= coord c a -> bvalue arr a true s c q v = ghost_along P g a (sv s arr) c q v.
Proof.
  intros Ha Hc Hs. pose proof (coord_C b3 g a c Ha Hc) as H. rewrite sizeA_N in H. pose proof (size_pos a Ha) as [Hp Hw].
  unfold bvalue, ghost_along, is_ghost, reflected, image. cbv zeta. rewrite !kind_dirichlet.
  rewrite (proj2 (Z.ltb_ge (coord c a - gw g) 0)) by lia. rewrite (proj2 (Z.leb_le (sizeN g a) (coord c a - gw g))) by lia. cbn [orb]. unfold bsource.
  destruct (bc_of g a true =? BC_DIRICHLET).
  - replace (gw g + (2 * sizeN g a - 1 - (coord c a - gw g))) with (2 * sizeN g a + 2 * gw g - 1 - coord c a) by lia. reflexivity.
  - destruct (bc_of g a true =? BC_NEUMANN).
    + replace (gw g + (sizeN g a - 1)) with (sizeN g a + gw g - 1) by lia. reflexivity.
    + replace (gw g + (coord c a - gw g - sizeN g a)) with (coord c a - sizeN g a) by lia. reflexivity.
Qed.
Lemma ghost_mid a X c q v : gw g <= coord c a < gw g + sizeN g a -> ghost_along (A := A) P g a X c q v = X c q v.
Proof.
  intros H. unfold ghost_along, is_ghost. cbv zeta. rewrite (proj2 (Z.ltb_ge (coord c a - gw g) 0)) by lia.
  rewrite (proj2 (Z.leb_gt (sizeN g a) (coord c a - gw g))) by lia. reflexivity.
Qed.
Lemma dir_boundary arr a (s s' : store) : In a (dirs b3) ->
  run_kernels [make_boundary b3 P g arr a false; make_boundary b3 P g arr a true] s s' ->
  agreeS (sv s' arr) (ghost_along P g a (sv s arr)) /\ (forall l, la l <> arr -> s' l = s l).
Proof.
  intros Ha Hk. pose proof (size_pos a Ha) as [Hp Hw].
  apply rk_inv in Hk. destruct Hk as (s1 & K1 & Hk). apply rk_inv in Hk. destruct Hk as (s2 & K2 & Hk).
  apply rk_nil_inv in Hk. subst s2.
  apply boundary_spec in K1; auto. apply boundary_spec in K2; auto.
  destruct K1 as (A1 & A2 & A3), K2 as (B1 & B2 & B3). split.
  - intros c q v Hc Hq Hv. pose proof (coord_C b3 g a c Ha Hc) as H. rewrite sizeA_N in H.
    destruct (Z_lt_le_dec (coord c a) (gw g)).
    + rewrite B2 by (auto; cbn; lia). rewrite A1 by auto. apply bvalue_lo; auto.
    + destruct (Z_lt_le_dec (coord c a) (sizeN g a + gw g)).
      * rewrite B2, A2 by (auto; cbn; lia). symmetry. apply ghost_mid. lia.
      * rewrite B1 by auto. rewrite <- bvalue_hi by auto. unfold bvalue. cbv zeta.
        pose proof (bsource_in a true c Ha Hc l0) as HB. 
        set (x := setc a _ c) in *. assert (Hx : In x C) by (apply setc_in; auto; rewrite sizeA_N; lia).
        assert (Hxs : ~ slab_pos a false x) by (unfold slab_pos, x; rewrite coord_setc, Z.eqb_refl by (eapply dir_any; eauto); lia).
        rewrite A2; auto. destruct (_ =? _); auto. apply mirror_dof; auto.
  - intros l Hl. rewrite B3, A3; auto.
Qed.
Lemma image_in a c : In a (dirs b3) -> In c C -> is_ghost (sizeN g a) (coord c a - gw g) = true ->
  gw g <= gw g + image (kind_of_code (bc_of g a false)) (kind_of_code (bc_of g a true)) (sizeN g a) (coord c a - gw g) < gw g + sizeN g a.
Proof.
  intros Ha Hc Hs. pose proof (coord_C b3 g a c Ha Hc) as H. rewrite sizeA_N in H. pose proof (size_pos a Ha) as [Hp Hw].
  unfold is_ghost in Hs. unfold image. destruct (Z.ltb_spec (coord c a - gw g) 0); [|destruct (Z.leb_spec (sizeN g a) (coord c a - gw g))];
  try discriminate; destruct (kind_of_code _); lia.
Qed.
(** The value in a cell depends on values in cells with the same coordinates in
    the other directions and an interior coordinate in direction [a]. *)
Lemma ghost_ext a (X Y : fieldS) c q v : In a (dirs b3) -> In c C -> In q D ->
  (forall n q, gw g <= n < gw g + sizeN g a -> In q D -> X (setc a n c) q v = Y (setc a n c) q v) ->
  ghost_along P g a X c q v = ghost_along P g a Y c q v.
Proof.
  intros Ha Hc Hq H. unfold ghost_along. cbv zeta. destruct (is_ghost (sizeN g a) (coord c a - gw g)) eqn:E.
  - pose proof (image_in a c Ha Hc E) as B. rewrite !H; auto. apply mirror_dof; auto.
  - unfold is_ghost in E. apply orb_false_iff in E. rewrite Z.ltb_ge, Z.leb_gt in E. rewrite <- (setc_coord a c) by (eapply dir_any; eauto).
    apply H; auto. lia.
Qed.
Lemma inside_iff c : inside b3 g c = true <-> forall a, In a (dirs b3) -> gw g <= coord c a < gw g + sizeN g a.
Proof.
  clear Hok junk dt p. unfold inside. rewrite guard_spec. split; intros H a Ha; specialize (H a Ha); [rewrite sizeA_N in H|rewrite sizeA_N]; lia.
Qed.
Lemma inside_C c : inside b3 g c = true -> (b3 = false -> coord c IZ = 0) -> In c C.
Proof.
  intros H Hz. apply In_cellsD. split; auto. intros a Ha. pose proof (size_pos a Ha) as [_ Hw]. rewrite inside_iff in H. specialize (H a Ha). rewrite sizeA_N.
  lia.
Qed.
Definition agreeI (X Y : fieldS) : Prop := forall c q v, In c C -> inside b3 g c = true -> In q D -> In v V -> X c q v = Y c q v.
Notation fillS := (ghosts (A := A) P g b3).
Lemma ghosts_inside X c q v : inside b3 g c = true -> fillS X c q v = X c q v.
Proof.
  intros Hi. rewrite inside_iff in Hi. unfold ghosts.
  assert (G : forall l X, incl l (dirs b3) -> fold_left (fun W a => ghost_along P g a W) l X c q v = X c q v).
  { induction l as [|a l IH]; intros X0 Hl; [reflexivity|]. cbn. rewrite IH by (intros x Hx; apply Hl; right; auto).
    apply ghost_mid. apply Hi. apply Hl. left; auto. }
  apply G. apply incl_refl.
Qed.
(** Only interior values matter. *)
Lemma ghosts_ext X Y : agreeI X Y -> agreeS (fillS X) (fillS Y).
Proof.
  intros H. unfold ghosts.
  (* after treating directions [l], cells that are interior in the remaining
     directions agree *)
  assert (G : forall l r X Y, NoDup (l ++ r) -> (forall a, In a (l ++ r) -> In a (dirs b3)) -> (forall a, In a (dirs b3) -> In a (l ++ r)) ->
    (forall c q v, In c C -> (forall a, In a l -> gw g <= coord c a < gw g + sizeN g a) -> In q D -> In v V -> X c q v = Y c q v) ->
    agreeS (fold_left (fun W a => ghost_along P g a W) l X) (fold_left (fun W a => ghost_along P g a W) l Y)).
  { clear X Y H. induction l as [|a l IH]; intros r X Y Hnd Hin Hin' H; cbn [fold_left].
    - intros c q v Hc Hq Hv. apply H; auto. intros a [].
    - apply (IH (a :: r)).
      + apply NoDup_cons_iff in Hnd. apply (NoDup_Add (a := a) (l := l ++ r)); [apply Add_app|]. tauto.
      + intros x Hx. apply Hin. apply in_app_iff in Hx. cbn in *. rewrite in_app_iff. tauto.
      + intros x Hx. apply Hin' in Hx. cbn in Hx. rewrite in_app_iff in *. cbn. tauto.
      + intros c q v Hc Hl Hq Hv. assert (Ha : In a (dirs b3)) by (apply Hin; left; auto).
        apply ghost_ext; auto. intros n q' Hn Hq'. apply H; auto.
        * apply setc_in; auto. rewrite sizeA_N. pose proof (size_pos a Ha). lia.
        * intros b Hb. assert (Hb' : In b (dirs b3)) by (apply Hin; apply in_app_iff; auto).
          rewrite coord_setc by (eapply dir_any; eauto). destruct (Z.eqb_spec b a); [subst; auto|]. apply Hl. destruct Hb; [congruence|auto]. }
  apply (G (dirs b3) []).
  - rewrite app_nil_r. apply dirs_NoDup.
  - rewrite app_nil_r. auto.
  - rewrite app_nil_r. auto.
  - intros c q v Hc Hi Hq Hv. apply H; auto. apply inside_iff. exact Hi.
Qed.
Lemma boundaries_spec arr (s s' : store) : run_kernels (boundaries b3 P g arr) s s' ->
  agreeS (sv s' arr) (fillS (sv s arr)) /\ (forall l, la l <> arr -> s' l = s l).
Proof.
  unfold boundaries, ghosts.
  assert (G : forall l (s s' : store), incl l (dirs b3) ->
    run_kernels (concat (map (fun a => [make_boundary b3 P g arr a false; make_boundary b3 P g arr a true]) l)) s s' ->
    forall X, agreeS (sv s arr) X ->
    agreeS (sv s' arr) (fold_left (fun W a => ghost_along P g a W) l X) /\ (forall l, la l <> arr -> s' l = s l)).
  { induction l as [|a l IH]; intros t t' Hl Hr X HX; cbn [map concat] in Hr.
    - apply rk_nil_inv in Hr. subst. auto.
    - apply run_kernels_app in Hr. destruct Hr as (t1 & R1 & R2). assert (Ha : In a (dirs b3)) by (apply Hl; left; auto).
      apply dir_boundary in R1; auto. destruct R1 as [A1 A2].
      apply (IH _ _ (fun x Hx => Hl x (or_intror Hx))) with (X := ghost_along P g a X) in R2.
      + destruct R2 as [B1 B2]. split; [exact B1|]. intros l' Hl'. rewrite B2, A2; auto.
      + intros c q v Hc Hq Hv. rewrite A1 by auto. apply ghost_ext; auto. intros n q' Hn Hq'. apply HX; auto.
        apply setc_in; auto. rewrite sizeA_N. pose proof (size_pos a Ha). lia. }
  intros Hr. apply (G (dirs b3) s s' (incl_refl _) Hr). intros c q v _ _ _. reflexivity.
Qed.

(** ** Stages *)
Definition stg (cf : T * T * T) (U0 U1 W : fieldS) : fieldS := fun c q v =>
  let '(c0, c1, c2) := cf in
  add (add (mul c0 (U0 c q v)) (mul c1 (U1 c q v))) (mul (mul c2 dt) (divF (fillS W) c q v)).
Lemma stg_ext cf U0 U0' U1 U1' W W' : agreeI U0 U0' -> agreeI U1 U1' -> agreeI W W' -> agreeI (stg cf U0 U1 W) (stg cf U0' U1' W').
Proof.
  intros H0 H1 HW c q v Hc Hi Hq Hv. unfold stg. destruct cf as [[c0 c1] c2].
  rewrite H0, H1 by auto. rewrite (divF_ext _ _ (ghosts_ext _ _ HW)) by auto. reflexivity.
Qed.
Lemma agreeI_trans X Y Z' : agreeI X Y -> agreeI Y Z' -> agreeI X Z'.
Proof. intros H1 H2 c q v Hc Hi Hq Hv. rewrite H1, H2; auto. Qed.
Lemma agreeI_refl X : agreeI X X. Proof. intros c q v _ _ _ _. reflexivity. Qed.
Definition stA (a : Z) : Prop := a <> aSF /\ a <> aFdiv.
Lemma state_stA a : sdm_state a -> stA a.
Proof. unfold sdm_state, stA, aU, aK, aSF, aFdiv. cbn. lia. Qed.

Lemma stage_spec a aOut a0 a1 cf (s s' : store) : stA a -> stA aOut -> stA a0 -> stA a1 ->
  run_kernels (boundaries b3 P g a ++ fluxes_divergence b3 P p g junk a ++ [update_RK b3 P g dt aOut a0 a1 cf]) s s' ->
  agreeI (sv s' aOut) (stg cf (sv s a0) (sv s a1) (sv s a)) /\
  (forall b, stA b -> b <> aOut -> agreeI (sv s' b) (sv s b)) /\
  agreeI (sv s' aFdiv) (divF (fillS (sv s a))).
Proof.
  intros Ha Ho H0 H1 Hk. apply run_kernels_app in Hk. destruct Hk as (s1 & K1 & Hk). apply run_kernels_app in Hk. destruct Hk as (s2 & K2 & K3).
  apply rk_inv in K3. destruct K3 as (s3 & K3 & K4). apply rk_nil_inv in K4. subst s3.
  apply boundaries_spec in K1. destruct K1 as [A1 A2].
  destruct Ha as [Ha1 Ha2]. apply divergence_spec in K2; auto. destruct K2 as [B1 B2].
  destruct cf as [[c0 c1] c2]. apply (update_spec b3 P g dt aOut a0 a1 c0 c1 c2) in K3; [|apply Ho]. destruct K3 as (U1 & U2 & U3).
  assert (S2 : forall b, stA b -> agreeI (sv s2 b) (sv s b)).
  { intros b [Hb1 Hb2] c q v Hc Hi Hq Hv. unfold SdmProofs.sv at 1. rewrite B2 by (unfold scrS; rewrite la_sloc; tauto).
    destruct (Z.eq_dec b a) as [->|Hne].
    - change (s1 (sloc b3 P a c q v)) with (sv s1 a c q v). rewrite A1 by auto. apply ghosts_inside; auto.
    - apply A2. rewrite la_sloc. exact Hne. }
  assert (SF : agreeI (sv s2 aFdiv) (divF (fillS (sv s a)))).
  { intros c q v Hc Hi Hq Hv. rewrite B1 by auto. apply (divF_ext _ _ A1); auto. }
  split; [|split].
  - intros c q v Hc Hi Hq Hv. rewrite U1 by auto. unfold stg. rewrite (S2 a0), (S2 a1), SF by auto. reflexivity.
  - intros b Hb Hne c q v Hc Hi Hq Hv. rewrite <- (S2 b Hb) by auto. unfold SdmProofs.sv. apply U3. rewrite la_sloc. exact Hne.
  - intros c q v Hc Hi Hq Hv. rewrite <- SF by auto. unfold SdmProofs.sv. apply U3. rewrite la_sloc. intro E. symmetry in E. destruct Ho; auto.
Qed.

Ltac split_app H := rewrite ?app_assoc in H; rewrite <- ?app_assoc in H.
Lemma step_fe a (s s' : store) : stA a -> run_kernels (time_integration b3 P p g dt junk FE a) s s' ->
  agreeI (sv s' a) (stg (one, zero, opp one) (sv s a) (sv s a) (sv s a)).
Proof. intros Ha Hk. cbn [time_integration] in Hk. unfold forward_euler in Hk. apply stage_spec in Hk; auto. apply Hk. Qed.

Lemma run_split3 (k1 k2 k3 r : list (list (prog T unit))) s s' : run_kernels (k1 ++ k2 ++ k3 ++ r) s s' ->
  exists t, run_kernels (k1 ++ k2 ++ k3) s t /\ run_kernels r t s'.
Proof. intros H. replace (k1 ++ k2 ++ k3 ++ r) with ((k1 ++ k2 ++ k3) ++ r) in H by (rewrite <- !app_assoc; reflexivity). apply run_kernels_app. exact H. Qed.
Lemma stA_K n : 1 <= n -> stA (aK n). Proof. unfold stA, aK, aSF, aFdiv. lia. Qed.

Lemma step_rk2 a (s s' : store) : stA a -> a <> aK 1 -> run_kernels (time_integration b3 P p g dt junk RK2 a) s s' ->
  let U := sv s a in let U1 := stg (one, zero, opp one) U U U in
  agreeI (sv s' a) (stg (half, half, opp half) U U1 U1).
Proof.
  intros Ha Hne Hk U U1. cbn [time_integration] in Hk. unfold ssprk2 in Hk.
  apply run_split3 in Hk. destruct Hk as (t & K1 & K2).
  pose proof (stA_K 1 ltac:(lia)) as S1. apply stage_spec in K1; auto. apply stage_spec in K2; auto.
  destruct K1 as (A1 & A2 & _), K2 as (B1 & _ & _).
  eapply agreeI_trans; [exact B1|]. apply stg_ext; [apply A2; auto|exact A1|exact A1].
Qed.
Lemma step_rk3 a (s s' : store) : stA a -> a <> aK 1 -> a <> aK 2 -> run_kernels (time_integration b3 P p g dt junk RK3 a) s s' ->
  let U := sv s a in let U1 := stg (one, zero, opp one) U U U in
  let U2 := stg (lit 3 4, lit 1 4, opp (lit 1 4)) U U1 U1 in
  agreeI (sv s' a) (stg (div one (lit 3 1), div two (lit 3 1), div (opp two) (lit 3 1)) U U2 U2).
Proof.
  intros Ha H1 H2 Hk U U1 U2. cbn [time_integration] in Hk. unfold ssprk3 in Hk.
  pose proof (stA_K 1 ltac:(lia)) as S1. pose proof (stA_K 2 ltac:(lia)) as S2.
  apply run_split3 in Hk. destruct Hk as (t & K1 & Hk). apply run_split3 in Hk. destruct Hk as (t2 & K2 & K3).
  apply stage_spec in K1; auto. apply stage_spec in K2; auto. apply stage_spec in K3; auto.
  destruct K1 as (A1 & A2 & _), K2 as (B1 & B2 & _), K3 as (C1 & _ & _).
  assert (E2 : agreeI (sv t2 (aK 2)) U2) by (eapply agreeI_trans; [exact B1|apply stg_ext; [apply A2; auto|exact A1|exact A1]]).
  eapply agreeI_trans; [exact C1|]. apply stg_ext; [|exact E2|exact E2].
  eapply agreeI_trans; [apply B2; auto|]. apply A2; auto.
Qed.
Lemma step_rk54 a (s s' : store) : stA a -> (forall n, 1 <= n <= 4 -> a <> aK n) -> run_kernels (time_integration b3 P p g dt junk RK54 a) s s' ->
  let U := sv s a in
  let U1 := stg (rk54 0) U U U in
  let U2 := stg (rk54 1) U U1 U1 in
  let U3 := stg (rk54 2) U U2 U2 in
  let U4 := stg (rk54 3) U U3 U3 in
  agreeI (sv s' a) (stg (rk54 5) (stg (rk54 4) U2 U3 U3) U4 U4).
Proof.
  intros Ha Hne Hk U U1 U2 U3 U4. cbn [time_integration] in Hk. unfold ssprk54 in Hk.
  pose proof (stA_K 1 ltac:(lia)) as S1. pose proof (stA_K 2 ltac:(lia)) as S2. pose proof (stA_K 3 ltac:(lia)) as S3. pose proof (stA_K 4 ltac:(lia)) as S4.
  assert (D12 : aK 1 <> aK 2) by (unfold aK; lia). assert (D23 : aK 2 <> aK 3) by (unfold aK; lia). assert (D34 : aK 3 <> aK 4) by (unfold aK; lia).
  assert (D24 : aK 2 <> aK 4) by (unfold aK; lia).
  apply run_split3 in Hk. destruct Hk as (t1 & K1 & Hk). apply run_split3 in Hk. destruct Hk as (t2 & K2 & Hk).
  apply run_split3 in Hk. destruct Hk as (t3 & K3 & Hk). apply run_split3 in Hk. destruct Hk as (t4 & K4 & Hk).
  apply run_kernels_app in Hk. destruct Hk as (t5 & K5 & K6).
  apply rk_inv in K5. destruct K5 as (x & K5 & Kx). apply rk_nil_inv in Kx. subst x.
  apply stage_spec in K1; auto. apply stage_spec in K2; auto. apply stage_spec in K3; auto. apply stage_spec in K4; auto. apply stage_spec in K6; auto.
  destruct K1 as (A1 & A2 & _), K2 as (B1 & B2 & _), K3 as (C1 & C2 & _), K4 as (D1 & D2 & D3), K6 as (F1 & _ & _).
  assert (E1 : agreeI (sv t1 (aK 1)) U1) by exact A1.
  assert (Ea1 : agreeI (sv t1 a) U) by (apply A2; auto; apply Hne; lia).
  assert (E2 : agreeI (sv t2 (aK 2)) U2) by (eapply agreeI_trans; [exact B1|apply stg_ext; assumption]).
  assert (Ea2 : agreeI (sv t2 a) U) by (eapply agreeI_trans; [apply B2; auto; apply Hne; lia|assumption]).
  assert (E3 : agreeI (sv t3 (aK 3)) U3) by (eapply agreeI_trans; [exact C1|apply stg_ext; assumption]).
  assert (E23 : agreeI (sv t3 (aK 2)) U2) by (eapply agreeI_trans; [apply C2; auto|assumption]).
  assert (Ea3 : agreeI (sv t3 a) U) by (eapply agreeI_trans; [apply C2; auto; apply Hne; lia|assumption]).
  assert (E4 : agreeI (sv t4 (aK 4)) U4) by (eapply agreeI_trans; [exact D1|apply stg_ext; assumption]).
  assert (E24 : agreeI (sv t4 (aK 2)) U2) by (eapply agreeI_trans; [apply D2; auto|assumption]).
  assert (E34 : agreeI (sv t4 (aK 3)) U3) by (eapply agreeI_trans; [apply D2; auto|assumption]).
  assert (EF : agreeI (sv t4 aFdiv) (divF (fillS U3))).
  { eapply agreeI_trans; [exact D3|]. intros c q v Hc Hi Hq Hv. apply (divF_ext _ _ (ghosts_ext _ _ E3)); auto. }
  unfold rk54 in K5 at 1. cbn [nth] in K5. apply (update_spec b3 P g dt) in K5; [|apply Ha]. destruct K5 as (G1 & _ & G3).
  assert (E5 : agreeI (sv t5 a) (stg (rk54 4) U2 U3 U3)).
  { intros c q v Hc Hi Hq Hv. rewrite G1 by auto. rewrite E24, E34, EF by auto. reflexivity. }
  assert (E45 : agreeI (sv t5 (aK 4)) U4).
  { intros c q v Hc Hi Hq Hv. rewrite <- E4 by auto. unfold SdmProofs.sv. apply G3. rewrite la_sloc. intro E. symmetry in E. revert E. apply Hne. lia. }
  eapply agreeI_trans; [exact F1|]. apply stg_ext; assumption.
Qed.
End SR.
