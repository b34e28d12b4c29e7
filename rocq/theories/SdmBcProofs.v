(** Effect of the border loops of "wedge" and "jet", for every schedule. *)
From Coq Require Import ZArith List Bool Lia Reals Lra.
From Verif Require Import Arith Par ParProofs GridModel BoundaryModel BoundarySpec BoundaryProofs HydroState HydroKernels CellKernels HydroExec HydroStep2 HydroSpec
  Physics MhdState MhdInit MhdInitSpec HydroInit HydroInitSpec HydroInitProofs HydroInitState MoodKernels MoodProofs TaskModel TaskKernels SdmGeom SdmKernels SdmDofs
  SdmProofs SdmRunSpec SdmRun SdmInit SdmInitSpec SdmInitProofs SdmBc SdmBcSpec.
Import ListNotations.
Open Scope Z_scope.

Section Fill.
Context {T : Type} {A : Arith T}.
Notation store := (store T).
Variable b3 : bool.
Variable P : points T.
Variable g : grid.
Hypothesis Hok : sdm_ok b3 P g.
Notation N := (npts P).
Notation C := (cells b3 g).
Notation D := (dofs b3 P).
Notation V := (vars b3).
Notation sv := (sv b3 P).

Let junk : cell -> cell -> hs T := fun _ _ => HS zero zero zero zero zero.
Lemma slab_iff a hi c : In a (dirs b3) -> In c C -> (in_slab g a hi c = true <-> slab_pos g a hi c).
Proof. exact (in_slab_iff b3 g junk a hi c). Qed.
Lemma opposite_in a q : In a (dirs b3) -> In q D -> In (setc a (N - 1 - coord q a) q) D.
Proof. exact (mirror_dof b3 P junk a q). Qed.
Definition good_rule (a : Z) (hi : bool) (rule : cell -> cell -> fill T) : Prop := forall c q, In c C -> In q D -> slab_pos g a hi c ->
  match rule c q with Fixed _ => True | From n q' _ => gw g <= n < gw g + sizeN g a /\ In q' D end.
Definition fill_value (arr a : Z) (rule : cell -> cell -> fill T) (s : store) (c q : cell) (v : Z) : T :=
  match rule c q with
  | Fixed u => state_var u v
  | From n q' f => let x := sv s arr (setc a n c) q' v in match f with Some sg => mul x (sg v) | None => x end
  end.
Lemma tw_fill arr a rule c q v : tw (fill_task b3 P arr a rule c (q, v)) = [sloc b3 P arr c q v].
Proof. unfold fill_task. destruct (rule c q); reflexivity. Qed.
Lemma fill_spec arr a hi rule (s s' : store) : In a (dirs b3) -> good_rule a hi rule -> par_exec s (fill_face b3 P g arr a hi rule) s' ->
  (forall c q v, In c C -> slab_pos g a hi c -> In q D -> In v V -> sv s' arr c q v = fill_value arr a rule s c q v) /\
  (forall c q v, In c C -> ~ slab_pos g a hi c -> In q D -> In v V -> sv s' arr c q v = sv s arr c q v) /\
  (forall l, la l <> arr -> s' l = s l).
Proof.
  intros Ha Hg Hex. unfold fill_face in Hex. apply tasks_spec in Hex.
  - destruct Hex as [H1 H2]. split; [|split].
    + intros c q v Hc Hs Hq Hv. apply (H1 c (q, v)).
      * apply filter_In. split; auto. apply slab_iff; auto.
      * apply in_prod; auto.
      * unfold fill_task, fill_value. destruct (rule c q); left; reflexivity.
    + intros c q v Hc Hs Hq Hv. apply H2. intros c' [q' v'] Hc' Hk Hin. rewrite tw_fill in Hin. destruct Hin as [E|[]].
      apply filter_In in Hc'. apply in_prod_iff in Hk. destruct Hc' as [Hc' Hs']. apply slab_iff in Hs'; auto.
      apply sloc_inj in E; try (apply In_dofs; tauto). destruct E as (_ & -> & _). contradiction.
    + intros l Hl. apply H2. intros c [q v] Hc Hk Hin. rewrite tw_fill in Hin. destruct Hin as [<-|[]]. rewrite la_sloc in Hl. auto.
  - apply NoDup_filter. apply NoDup_cellsD.
  - intros. apply NoDup_list_prod; [apply NoDup_box|apply NoDup_vars].
  - intros c [q v] _ _. rewrite tw_fill. repeat constructor. intros [].
  - intros c [q v] c' [q' v'] l Hc Hk Hc' Hk' Hw Hw'. apply filter_In in Hc. apply filter_In in Hc'.
    destruct Hc as [Hc Hs]. destruct Hc' as [Hc' Hs']. apply slab_iff in Hs; auto. apply slab_iff in Hs'; auto.
    apply in_prod_iff in Hk. apply in_prod_iff in Hk'. destruct Hk as [Hq Hv]. destruct Hk' as [Hq' Hv'].
    rewrite tw_fill in Hw, Hw'. destruct Hw as [<-|[]]. destruct Hw' as [[E|[]]|Hr].
    + apply sloc_inj in E; try (apply In_dofs; tauto). destruct E as (_ & -> & -> & ->). auto.
    + exfalso. pose proof (Hg c' q' Hc' Hq' Hs') as Hn. unfold fill_task in Hr. destruct (rule c' q') as [u|n q'' f]; [destruct Hr|].
      cbn in Hr. destruct Hr as [E|[]]. apply sloc_inj in E; try (apply In_dofs; tauto). destruct E as (_ & E & _). subst c.
      revert Hs. unfold slab_pos. rewrite coord_setc, Z.eqb_refl by (eapply dir_any; eauto). destruct hi; lia.
Qed.
Lemma coord_range a c : In a (dirs b3) -> In c C -> 0 <= coord c a < sizeN g a + 2 * gw g.
Proof. intros Ha Hc. pose proof (coord_C b3 g a c Ha Hc) as H. rewrite sizeA_N in H. lia. Qed.
Lemma set_in a n c : In a (dirs b3) -> In c C -> gw g <= n < gw g + sizeN g a -> In (setc a n c) C.
Proof. intros Ha Hc Hn. apply (setc_in b3 P g Hok); auto. rewrite sizeA_N. destruct (size_pos b3 P g Hok a Ha). lia. Qed.
Lemma fill_dir arr a rl rh (s s' : store) : In a (dirs b3) -> good_rule a false rl -> good_rule a true rh ->
  run_kernels [fill_face b3 P g arr a false rl; fill_face b3 P g arr a true rh] s s' ->
  (forall c q v, In c C -> In q D -> In v V -> low g a c -> sv s' arr c q v = fill_value arr a rl s c q v) /\
  (forall c q v, In c C -> In q D -> In v V -> high g a c -> sv s' arr c q v = fill_value arr a rh s c q v) /\
  (forall c q v, In c C -> In q D -> In v V -> within g a c -> sv s' arr c q v = sv s arr c q v) /\
  (forall l, la l <> arr -> s' l = s l).
Proof.
  intros Ha Hl Hh Hk. destruct (size_pos b3 P g Hok a Ha) as [Hp Hw].
  apply rk_inv in Hk. destruct Hk as (s1 & K1 & Hk). apply rk_inv in Hk. destruct Hk as (s2 & K2 & Hk). apply rk_nil_inv in Hk. subst s2.
  apply fill_spec in K1; auto. apply fill_spec in K2; auto. destruct K1 as (A1 & A2 & A3), K2 as (B1 & B2 & B3). unfold low, high, within.
  split; [|split; [|split]].
  - intros c q v Hc Hq Hv Hi. rewrite B2 by (auto; cbn; lia). apply A1; auto.
  - intros c q v Hc Hq Hv Hi. rewrite B1 by auto. pose proof (Hh c q Hc Hq Hi) as Hn. unfold fill_value. destruct (rh c q) as [u|n q' f]; [reflexivity|].
    cbv zeta. destruct Hn as [Hn Hq']. rewrite A2; auto; [apply set_in; auto|]. unfold slab_pos. rewrite coord_setc, Z.eqb_refl by (eapply dir_any; eauto). lia.
  - intros c q v Hc Hq Hv Hi. rewrite B2, A2 by (auto; cbn; lia). reflexivity.
  - intros l Hne. rewrite B3, A3; auto.
Qed.
Lemma within_set a b n c : In a (dirs b3) -> In b (dirs b3) -> a <> b -> within g b (setc a n c) <-> within g b c.
Proof. intros Ha Hb Hn. unfold within. rewrite coord_setc by (eapply dir_any; eauto). rewrite (proj2 (Z.eqb_neq b a)) by auto. reflexivity. Qed.
Variable rule : Z -> bool -> cell -> cell -> fill T.
Hypothesis Hrule : forall a hi, In a (dirs b3) -> good_rule a hi (rule a hi).
Notation faces arr l := (concat (map (fun a => [fill_face b3 P g arr a false (rule a false); fill_face b3 P g arr a true (rule a true)]) l)).
Lemma fill_all_list arr l : incl l (dirs b3) -> NoDup l -> forall (s s' : store), run_kernels (faces arr l) s s' ->
  (forall c q v, In c C -> In q D -> In v V -> (forall b, In b l -> within g b c) -> sv s' arr c q v = sv s arr c q v) /\
  (forall l1 a l2, l = l1 ++ a :: l2 -> forall c q v, In c C -> In q D -> In v V -> (forall b, In b l2 -> within g b c) ->
     (low g a c -> sv s' arr c q v = fill_value arr a (rule a false) s' c q v) /\
     (high g a c -> sv s' arr c q v = fill_value arr a (rule a true) s' c q v)) /\
  (forall o, la o <> arr -> s' o = s o).
Proof.
  induction l as [|a l IH]; intros Hi Hnd s s' Hr.
  - cbn in Hr. apply rk_nil_inv in Hr. subst s'. split; [auto|]. split; [|auto]. intros l1 a l2 E. destruct l1; discriminate.
  - change (faces arr (a :: l)) with ([fill_face b3 P g arr a false (rule a false); fill_face b3 P g arr a true (rule a true)] ++ faces arr l) in Hr.
    apply run_kernels_app in Hr. destruct Hr as (s1 & R1 & R2). inversion Hnd as [|? ? Hna Hnd']; subst.
    assert (Ha : In a (dirs b3)) by (apply Hi; left; reflexivity). assert (Hi' : incl l (dirs b3)) by (intros b Hb; apply Hi; right; exact Hb).
    destruct (IH Hi' Hnd' s1 s' R2) as (I1 & I2 & I3). apply fill_dir in R1; auto. destruct R1 as (F1 & F2 & F3 & F4).
    assert (Hsrc : forall n c q v, In c C -> In q D -> In v V -> gw g <= n < gw g + sizeN g a -> (forall b, In b l -> within g b c) ->
              sv s' arr (setc a n c) q v = sv s arr (setc a n c) q v).
    { intros n c q v Hc Hq Hv Hn Hb. rewrite I1; auto; [|apply set_in; auto|].
      - apply F3; auto; [apply set_in; auto|]. unfold within. rewrite coord_setc, Z.eqb_refl by (eapply dir_any; eauto). exact Hn.
      - intros b Hb'. apply within_set; auto. intros ->. contradiction. }
    assert (Hval : forall hi c q v, In c C -> In q D -> In v V -> slab_pos g a hi c -> (forall b, In b l -> within g b c) ->
              fill_value arr a (rule a hi) s c q v = fill_value arr a (rule a hi) s' c q v).
    { intros hi c q v Hc Hq Hv Hs Hb. pose proof (Hrule a hi Ha c q Hc Hq Hs) as Hn. unfold fill_value. destruct (rule a hi c q) as [u|n q' f]; [reflexivity|].
      cbv zeta. destruct Hn as [Hn Hq']. rewrite Hsrc; auto. }
    split; [|split].
    + intros c q v Hc Hq Hv Hb. rewrite I1, F3; auto; [apply Hb; left; reflexivity|]. intros b Hb'. apply Hb. right; exact Hb'.
    + intros l1 b l2 E. destruct l1 as [|b' l1]; cbn in E; injection E as E1 E2; subst.
      * intros c q v Hc Hq Hv Hb. split; intros Hs; rewrite I1; auto.
        -- rewrite F1 by auto. apply (Hval false); auto.
        -- rewrite F2 by auto. apply (Hval true); auto.
      * intros c q v Hc Hq Hv Hb. eapply I2; eauto.
    + intros o Ho. rewrite I3, F4; auto.
Qed.
End Fill.

Local Open Scope R_scope.
Section Wedge.
Variable P : points R.
Variable g : grid.
Variable h : hparams R.
Variable bx : MhdInit.box R.
Hypothesis Hgam : 1 < gamma0 h.
Notation N := (npts P).

Lemma held_state b3 arr s c q u : (forall v, In v (vars b3) -> s (sloc b3 P arr c q v) = state_var u v) ->
  held_at b3 P arr s c q = HS (hD u) (hP u) (hU u) (hV u) (if b3 then hW u else 0).
Proof.
  intros H. unfold held_at. destruct b3; rewrite !H; try (apply In_vars; unfold nbv, ID, IP, IU, IV, IW; lia); reflexivity.
Qed.
Lemma held_copy b3 arr s c q s0 c' q' : (forall v, In v (vars b3) -> s (sloc b3 P arr c q v) = s0 (sloc b3 P arr c' q' v)) ->
  held_at b3 P arr s c q = held_at b3 P arr s0 c' q'.
Proof.
  intros H. unfold held_at. destruct b3; rewrite !H; try (apply In_vars; unfold nbv, ID, IP, IU, IV, IW; lia); reflexivity.
Qed.
Lemma par_conservative b3 gam q : gam = gamma0 h -> (b3 = false -> hW q = 0) ->
  let u := par_cons gam q in HS (hD u) (hP u) (hU u) (hV u) (if b3 then hW u else 0) = conservative (gamma0 h) q.
Proof.
  intros -> Hw. unfold par_cons, conservative, total_energy. cbn. f_equal.
  - field. lra.
  - destruct b3; [reflexivity|]. rewrite (Hw eq_refl). ring.
Qed.
Lemma setc3 a n (c : cell) : In a [IX; IY; IZ] -> coord (setc a n c) a = n.
Proof. destruct c as [[i j] k]. intros [<-|[<-|[<-|[]]]]; reflexivity. Qed.

Lemma wedge_good w t a hi : sdm_ok false P g -> In a (dirs false) -> good_rule false P g a hi (wedge_rule RSLibm P g h bx w t a hi).
Proof.
  intros Hok Ha [[i j] k] [[ix iy] iz] Hc Hq Hs. destruct (size_pos false P g Hok a Ha) as [Hp Hw]. unfold wedge_rule.
  pose proof (coord_range false g a (i, j, k) Ha Hc) as Hr. unfold slab_pos in Hs.
  destruct Ha as [<-|[<-|[]]]; change (IX =? IX)%Z with true; change (IY =? IX)%Z with false; cbn iota; destruct hi.
  - split; [unfold sizeN in *; cbn in *; lia|]. apply (opposite_in false P IX (ix, iy, iz)); auto. left; reflexivity.
  - exact I.
  - destruct (_ <? _)%A; exact I.
  - destruct (_ <? _)%A; [exact I|]. split; [change (sizeN g IY) with (ny g) in *; change (coord (i, j, k) IY) with j in *; lia|]. apply (opposite_in false P IY (ix, iy, iz)); auto. right; left; reflexivity.
Qed.
Lemma jet_good b3 w a hi : sdm_ok b3 P g -> In a (dirs b3) -> good_rule b3 P g a hi (jet_rule b3 P g h bx w a hi).
Proof.
  intros Hok Ha [[i j] k] [[ix iy] iz] Hc Hq Hs. destruct (size_pos b3 P g Hok a Ha) as [Hp Hw]. unfold jet_rule.
  destruct (Z.eqb_spec a IX) as [->|Hn].
  - destruct hi; [|destruct (in_nozzle _ _ _ _); exact I]. split; [unfold sizeN in *; cbn in *; lia|].
    destruct b3; [exact Hq|]. apply (opposite_in false P IX (ix, iy, iz)); auto.
  - split; [destruct hi; lia|exact Hq].
Qed.
Lemma front_spec w t x y z : 0 < sin (wd_angle w) -> cos (wd_angle w) <> 0 ->
  x < wd_x w + y / tan (wd_angle w) + wd_delta RSLibm w t <-> shocked w t (Point x y z).
Proof.
  intros Hs Hc. unfold shocked, wd_delta, tan, RSLibm. cbn -[PI]. replace (PI / (1 + 1)) with (PI / 2) by field. rewrite cos_shift.
  set (a := wd_angle w) in *. set (sp := wd_speed w). set (x0 := wd_x w).
  assert (E : (x0 + y / (sin a / cos a) + sp / sin a * t) * sin a = x0 * sin a + y * cos a + sp * t) by (field; split; lra).
  split; intros H.
  - apply (Rmult_lt_compat_r (sin a)) in H; auto. rewrite E in H. lra.
  - apply (Rmult_lt_reg_r (sin a)); auto. rewrite E. lra.
Qed.
Lemma nozzle_spec b3 w c q : in_nozzle b3 w (py (dof_position P g h bx c q)) (pz (dof_position P g h bx c q)) = true <-> nozzle b3 w (dof_position P g h bx c q).
Proof.
  unfold in_nozzle, nozzle. set (y := py _). set (z := pz _). destruct b3; cbn.
  - destruct (Rlt_dec _ _); split; intros; auto; try discriminate; lra.
  - destruct (Rlt_dec _ _) as [L|L]; cbn.
    + destruct (Rlt_dec y _) as [M|M]; split; intros H; auto; try discriminate.
      * apply Rabs_def1; lra.
      * apply Rabs_def2 in H. lra.
    + split; intros H; [discriminate|]. apply Rabs_def2 in H. lra.
Qed.
End Wedge.
