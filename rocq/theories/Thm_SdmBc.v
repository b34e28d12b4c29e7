(** C84: the special borders of the problems "wedge" and "jet" of the spectral difference
    solver.  Specification: SdmBcSpec.v ([wedge_borders], [jet_borders]: what every ghost cell
    holds; [shocked]: behind the front at time t; [nozzle]; [held_at]: the stored state). *)
From Coq Require Import ZArith List Bool Lia Reals Lra.
From Verif Require Import Arith Par ParProofs GridModel BoundaryModel BoundarySpec BoundaryProofs HydroState HydroKernels CellKernels HydroExec HydroStep2 HydroSpec
  Physics ShockSpec MhdState MhdInit MhdInitSpec HydroInit HydroInitSpec HydroInitProofs HydroInitState HydroInitWrong MoodKernels MoodProofs TaskModel TaskKernels
  SdmGeom SdmKernels SdmDofs SdmProofs SdmRunSpec SdmRun SdmInit SdmInitSpec SdmInitProofs SdmBc SdmBcSpec SdmBcProofs Thm_SdmInit.
Import ListNotations.
Local Open Scope R_scope.

Definition borders_run mpi_build b3 P g h bx pr t arr := run_kernels (sdm_boundaries RSLibm b3 P g h bx mpi_build pr t arr).

(** Wedge, 2D, any schedule, any time: the border values of a shock that moves along its normal;
    interior cells and the other arrays stay as they were. *)
Theorem C84_wedge : forall P g h bx w t arr s s',
  sdm_ok false P g -> 1 < gamma0 h -> wd_gamma w = gamma0 h -> hW (wd_post w) = 0 -> hW (wd_pre w) = 0 ->
  0 < sin (wd_angle w) -> cos (wd_angle w) <> 0 ->
  borders_run false false P g h bx (SWedge w) t arr s s' ->
  wedge_borders P g h bx w t (held_at false P arr s) (held_at false P arr s') /\ (forall l, la l <> arr -> s' l = s l).
Proof.
  intros P g h bx w t arr s s' Hok Hg Hw H1 H2 Hs Hc Hr. unfold borders_run, sdm_boundaries, fill_all in Hr.
  destruct (fill_all_list false P g Hok (wedge_rule RSLibm P g h bx w t) (fun a hi => wedge_good P g h bx w t a hi Hok) arr (dirs false) (incl_refl _)
    ltac:(repeat constructor; cbn; intuition discriminate) s s' Hr) as (I1 & I2 & I3).
  split; [|exact I3]. clear Hr. intros [[i j] k] [[ix iy] iz] Hcc Hq. cbv zeta.
  assert (JX := fun v Hv => I2 [] IX [IY] eq_refl (i, j, k) (ix, iy, iz) v Hcc Hq Hv).
  assert (JY := fun v Hv => I2 [IX] IY [] eq_refl (i, j, k) (ix, iy, iz) v Hcc Hq Hv (fun b (Hb : In b []) => match Hb with end)).
  assert (HB : within g IY (i, j, k) -> forall b, In b [IY] -> within g b (i, j, k)) by (intros Hy b [<-|[]]; exact Hy).
  split; [|split; [|split; [|split; [|split; [|split]]]]].
  - intros Wx Wy. apply held_copy. intros v Hv. apply I1; auto. intros b [<-|[<-|[]]]; auto.
  - intros L Wy. rewrite (held_state P false arr s' _ _ (par_cons (wd_gamma w) (wd_post w))); [exact (par_conservative h Hg false _ _ Hw (fun _ => H1))|].
    intros v Hv. apply (proj1 (JX v Hv (HB Wy)) L).
  - intros L Wy. apply held_copy. intros v Hv. etransitivity; [apply (proj2 (JX v Hv (HB Wy)) L)|].
    unfold fill_value, wedge_rule, last_cell, opposite. cbn -[sv sizeN Z.sub Z.add]. replace (gw g + sizeN g IX - 1)%Z with (nx g + gw g - 1)%Z by (unfold sizeN; cbn; lia). reflexivity.
  - intros L Hlt. rewrite (held_state P false arr s' _ _ (par_cons (wd_gamma w) (wd_post w))); [exact (par_conservative h Hg false _ _ Hw (fun _ => H1))|].
    intros v Hv. etransitivity; [apply (proj1 (JY v Hv) L)|]. unfold fill_value, wedge_rule. change (IY =? IX)%Z with false. cbn iota.
    rewrite spx_pos. cbn [ltb RArith]. unfold dof_position in Hlt. cbn [px] in Hlt. destruct (Rlt_dec _ _); [reflexivity|contradiction].
  - intros L Hge.
    assert (E : forall v, In v (vars false) -> s' (sloc false P arr (i, j, k) (ix, iy, iz) v)
        = s' (sloc false P arr (wall_image g IY (i, j, k)) (opposite P IY (ix, iy, iz)) v) * (if (IV <=? v)%Z then -1 else 1)).
    { intros v Hv. etransitivity; [apply (proj1 (JY v Hv) L)|]. unfold fill_value, wedge_rule. change (IY =? IX)%Z with false. cbn iota.
      rewrite spx_pos. cbn [ltb RArith]. unfold dof_position in Hge. cbn [px] in Hge. destruct (Rlt_dec _ _); [lra|].
      cbn [mul opp one RArith]. reflexivity. }
    unfold held_at, bounced_y. cbn [hD hP hU hV hW].
    rewrite !E by (apply In_vars; unfold nbv, ID, IP, IU, IV; lia). unfold ID, IP, IU, IV. cbn [Z.leb Z.compare Pos.compare Pos.compare_cont].
    f_equal; ring.
  - intros L Hsh. rewrite (held_state P false arr s' _ _ (par_cons (wd_gamma w) (wd_post w))); [exact (par_conservative h Hg false _ _ Hw (fun _ => H1))|].
    intros v Hv. etransitivity; [apply (proj2 (JY v Hv) L)|]. unfold fill_value, wedge_rule. change (IY =? IX)%Z with false. cbn iota.
    rewrite spx_pos, spy_pos. change (ftan RSLibm (wd_angle w)) with (tan (wd_angle w)). cbn [ltb add div RArith].
    destruct (Rlt_dec _ _) as [Hl|Hl]; [reflexivity|]. exfalso. apply Hl. eapply (front_spec w t); eauto.
  - intros L Hsh. rewrite (held_state P false arr s' _ _ (par_cons (wd_gamma w) (wd_pre w))); [exact (par_conservative h Hg false _ _ Hw (fun _ => H2))|].
    intros v Hv. etransitivity; [apply (proj2 (JY v Hv) L)|]. unfold fill_value, wedge_rule. change (IY =? IX)%Z with false. cbn iota.
    rewrite spx_pos, spy_pos. change (ftan RSLibm (wd_angle w)) with (tan (wd_angle w)). cbn [ltb add div RArith].
    destruct (Rlt_dec _ _) as [Hl|Hl]; [|reflexivity]. exfalso. apply Hsh. eapply (front_spec w t) in Hl; eauto.
Qed.
Print Assumptions C84_wedge.

(** Jet, 2D and 3D, any schedule. *)
Theorem C84_jet : forall b3 P g h bx w t arr s s',
  sdm_ok b3 P g -> 1 < gamma0 h -> jt_gamma w = gamma0 h -> (b3 = false -> hW (jt_jet w) = 0 /\ hW (jt_bulk w) = 0) ->
  borders_run false b3 P g h bx (SJet w) t arr s s' ->
  jet_borders b3 P g h bx w (held_at b3 P arr s) (held_at b3 P arr s') /\ (forall l, la l <> arr -> s' l = s l).
Proof.
  intros b3 P g h bx w t arr s s' Hok Hg Hw HW Hr. unfold borders_run, sdm_boundaries, fill_all in Hr.
  destruct (fill_all_list b3 P g Hok (jet_rule b3 P g h bx w) (fun a hi => jet_good P g h bx b3 w a hi Hok) arr (dirs b3) (incl_refl _)
    ltac:(destruct b3; repeat constructor; cbn; intuition discriminate) s s' Hr) as (I1 & I2 & I3).
  split; [|exact I3]. clear Hr. intros c q Hcc Hq. cbv zeta.
  assert (JX := fun v Hv => I2 [] IX (if b3 then [IY; IZ] else [IY]) ltac:(destruct b3; reflexivity) c q v Hcc Hq Hv).
  assert (JY := fun v Hv => I2 [IX] IY (if b3 then [IZ] else []) ltac:(destruct b3; reflexivity) c q v Hcc Hq Hv).
  assert (BX : within g IY c -> (b3 = true -> within g IZ c) -> forall b, In b (if b3 then [IY; IZ] else [IY]) -> within g b c).
  { intros Hy Hz b Hb. destruct b3; cbn in Hb; [destruct Hb as [<-|[<-|[]]]|destruct Hb as [<-|[]]]; auto. }
  assert (BY : (b3 = true -> within g IZ c) -> forall b, In b (if b3 then [IZ] else []) -> within g b c).
  { intros Hz b Hb. destruct b3; cbn in Hb; [destruct Hb as [<-|[]]|destruct Hb]; auto. }
  destruct c as [[i j] k], q as [[ix iy] iz].
  assert (HN : forall v, fill_value b3 P arr IX (jet_rule b3 P g h bx w IX false) s' (i, j, k) (ix, iy, iz) v
      = if in_nozzle b3 w (py (dof_position P g h bx (i, j, k) (ix, iy, iz))) (pz (dof_position P g h bx (i, j, k) (ix, iy, iz)))
        then state_var (par_cons (jt_gamma w) (jt_jet w)) v else state_var (par_cons (jt_gamma w) (jt_bulk w)) v).
  { intros v. unfold fill_value, jet_rule. change (IX =? IX)%Z with true. cbn iota. rewrite spy_pos, spz_pos. unfold dof_position. cbn [py pz].
    destruct (in_nozzle _ _ _ _); reflexivity. }
  assert (Hcopy : forall a (hi : bool) v, a <> IX -> fill_value b3 P arr a (jet_rule b3 P g h bx w a hi) s' (i, j, k) (ix, iy, iz) v
      = s' (sloc b3 P arr (if hi then last_cell g a (i, j, k) else first_cell g a (i, j, k)) (ix, iy, iz) v)).
  { intros a hi v Ha. unfold fill_value, jet_rule. rewrite (proj2 (Z.eqb_neq a IX)) by auto. cbn iota zeta. unfold last_cell, first_cell.
    destruct hi; [replace (gw g + sizeN g a - 1)%Z with (sizeN g a + gw g - 1)%Z by lia|]; reflexivity. }
  split; [|split; [|split; [|split; [|split; [|split; [|split]]]]]].
  - intros Wx Wy Wz. apply held_copy. intros v Hv. apply I1; auto. intros b Hb. destruct b3; cbn in Hb; [destruct Hb as [<-|[<-|[<-|[]]]]|destruct Hb as [<-|[<-|[]]]]; auto.
  - intros L Wy Wz Hn. rewrite (held_state P b3 arr s' _ _ (par_cons (jt_gamma w) (jt_jet w))); [exact (par_conservative h Hg b3 _ _ Hw (fun e => proj1 (HW e)))|].
    intros v Hv. etransitivity; [apply (proj1 (JX v Hv (BX Wy Wz)) L)|]. rewrite HN. apply nozzle_spec in Hn. rewrite Hn. reflexivity.
  - intros L Wy Wz Hn. rewrite (held_state P b3 arr s' _ _ (par_cons (jt_gamma w) (jt_bulk w))); [exact (par_conservative h Hg b3 _ _ Hw (fun e => proj2 (HW e)))|].
    intros v Hv. etransitivity; [apply (proj1 (JX v Hv (BX Wy Wz)) L)|]. rewrite HN. destruct (in_nozzle _ _ _ _) eqn:E; [|reflexivity].
    exfalso. apply Hn. apply nozzle_spec. exact E.
  - intros L Wy Wz. apply held_copy. intros v Hv. etransitivity; [apply (proj2 (JX v Hv (BX Wy Wz)) L)|].
    unfold fill_value, jet_rule, last_cell, opposite. change (IX =? IX)%Z with true. cbn iota zeta.
    replace (gw g + sizeN g IX - 1)%Z with (nx g + gw g - 1)%Z by (unfold sizeN; cbn; lia). destruct b3; reflexivity.
  - intros L Wz. apply held_copy. intros v Hv. etransitivity; [apply (proj1 (JY v Hv (BY Wz)) L)|]. apply (Hcopy IY false). discriminate.
  - intros L Wz. apply held_copy. intros v Hv. etransitivity; [apply (proj2 (JY v Hv (BY Wz)) L)|]. apply (Hcopy IY true). discriminate.
  - intros Eb L. subst b3. apply held_copy. intros v Hv. etransitivity; [apply (proj1 (I2 [IX; IY] IZ [] eq_refl (i, j, k) (ix, iy, iz) v Hcc Hq Hv (fun b (Hb : In b []) => match Hb with end)) L)|].
    apply (Hcopy IZ false). discriminate.
  - intros Eb L. subst b3. apply held_copy. intros v Hv. etransitivity; [apply (proj2 (I2 [IX; IY] IZ [] eq_refl (i, j, k) (ix, iy, iz) v Hcc Hq Hv (fun b (Hb : In b []) => match Hb with end)) L)|].
    apply (Hcopy IZ true). discriminate.
Qed.
Print Assumptions C84_jet.

(** ** Where the special borders are not used *)
Local Open Scope Z_scope.
Lemma general_edge b3 P g arr (s s' : store R) a c q v : sdm_ok b3 P g -> run_kernels (boundaries b3 P g arr) s s' ->
  In a (dirs b3) -> In c (cells b3 g) -> In q (dofs b3 P) -> In v (vars b3) -> (forall b, In b (dirs b3) -> b <> a -> within g b c) ->
  (low g a c -> bc_of g a false = 2 -> sv b3 P s' arr c q v = sv b3 P s arr (first_cell g a c) q v) /\
  (high g a c -> bc_of g a true = 2 -> sv b3 P s' arr c q v = sv b3 P s arr (last_cell g a c) q v).
Proof.
  intros Hok Hr Ha Hc Hq Hv Hw. destruct (boundaries_spec b3 P g (fun _ _ => HS 0 0 0 0 0)%R Hok arr s s' Hr) as [A1 _].
  rewrite (A1 c q v Hc Hq Hv). clear A1 Hr. set (V := sv b3 P s arr).
  assert (Hskip : forall W b c0 q0, within g b c0 -> ghost_along P g b W c0 q0 v = W c0 q0 v).
  { intros W b c0 q0 Hb. unfold ghost_along, within in *. cbv zeta. unfold is_ghost. destruct (Z.ltb_spec (coord c0 b - gw g) 0); [lia|].
    destruct (Z.leb_spec (sizeN g b) (coord c0 b - gw g)); [lia|]. reflexivity. }
  destruct (size_pos b3 P g Hok a Ha) as [Hp Hgw].
  assert (Hlo : forall W q0, low g a c -> bc_of g a false = 2 -> ghost_along P g a W c q0 v = W (first_cell g a c) q0 v).
  { intros W q0 L E. unfold ghost_along, low in *. cbv zeta. rewrite E. unfold is_ghost, reflected, image. destruct (Z.ltb_spec (coord c a - gw g) 0); [|lia]. cbn.
    unfold first_cell. f_equal. f_equal. lia. }
  assert (Hhi : forall W q0, high g a c -> bc_of g a true = 2 -> ghost_along P g a W c q0 v = W (last_cell g a c) q0 v).
  { intros W q0 L E. unfold ghost_along, high in *. cbv zeta. rewrite E. unfold is_ghost, reflected, image. destruct (Z.ltb_spec (coord c a - gw g) 0); [lia|].
    destruct (Z.leb_spec (sizeN g a) (coord c a - gw g)); [|lia]. cbn. unfold last_cell. f_equal. f_equal. lia. }
  assert (Hs : forall b n, In b (dirs b3) -> b <> a -> within g b (setc a n c)).
  { intros b n Hb Hn. apply (within_set b3 g); auto. }
  unfold ghosts. destruct b3; cbn [dirs fold_left] in *.
  - destruct Ha as [<-|[<-|[<-|[]]]].
    + rewrite !Hskip by (apply Hw; [cbn; tauto|discriminate]). auto.
    + rewrite Hskip by (apply Hw; [cbn; tauto|discriminate]). split; intros L E; [rewrite Hlo|rewrite Hhi]; auto; apply Hskip; apply Hs; cbn; try tauto; discriminate.
    + split; intros L E; [rewrite Hlo|rewrite Hhi]; auto; rewrite !Hskip; auto; apply Hs; cbn; try tauto; discriminate.
  - destruct Ha as [<-|[<-|[]]].
    + rewrite !Hskip by (apply Hw; [cbn; tauto|discriminate]). auto.
    + split; intros L E; [rewrite Hlo|rewrite Hhi]; auto; apply Hskip; apply Hs; cbn; try tauto; discriminate.
Qed.
Local Open Scope R_scope.

(** A build with MPI (here on one process) does not know the nozzle: with an outflow border on the
    left, the jet problem starts at rest in the bulk state and the border before the first step
    holds that state too, at every point of the nozzle. *)
Theorem C84_jet_mpi_refuted : forall b3 P g h bx w t s0 s s' c q,
  sdm_ok b3 P g -> 1 < gamma0 h -> jt_gamma w = gamma0 h -> (b3 = false -> hW (jt_bulk w) = 0) ->
  srun b3 P g h bx (SJet w) s0 s -> bc g FACE_XMIN = 2%Z ->
  borders_run true b3 P g h bx (SJet w) t aU s s' ->
  In c (cells b3 g) -> In q (dofs b3 P) -> low g IX c -> within g IY c -> (b3 = true -> within g IZ c) ->
  held_at b3 P aU s' c q = conservative (gamma0 h) (jt_bulk w) /\
  (nozzle b3 w (dof_position P g h bx c q) -> conservative (gamma0 h) (jt_jet w) <> conservative (gamma0 h) (jt_bulk w) ->
   ~ jet_borders b3 P g h bx w (held_at b3 P aU s) (held_at b3 P aU s')).
Proof.
  intros b3 P g h bx w t s0 s s' c q Hok Hg Hw HW Hi Hb Hr Hc Hq L Wy Wz.
  assert (E : held_at b3 P aU s' c q = conservative (gamma0 h) (jt_bulk w)).
  { assert (Hf : In (first_cell g IX c) (cells b3 g)).
    { apply (set_in b3 P g Hok); auto; [destruct b3; cbn; auto|]. destruct (size_pos b3 P g Hok IX) as [? ?]; [destruct b3; cbn; auto|]. lia. }
    destruct (C83_state b3 P g h bx (SJet w) s0 s (first_cell g IX c) q Hg (conj Hw HW) Hi Hf Hq) as (r & Hr1 & Hr2).
    cbn in Hr1. transitivity (held_at b3 P aU s (first_cell g IX c) q).
    - apply held_copy. intros v Hv. refine (proj1 (general_edge b3 P g aU s s' IX c q v Hok Hr _ Hc Hq Hv _) L Hb); [destruct b3; cbn; auto|].
      intros b Hb1 Hb2. destruct b3; cbn in Hb1; [destruct Hb1 as [<-|[<-|[<-|[]]]]|destruct Hb1 as [<-|[<-|[]]]]; auto; contradiction.
    - change (sheld b3 P s (first_cell g IX c) q = conservative (gamma0 h) (jt_bulk w)). rewrite Hr2, Hr1. f_equal.
      destruct (jt_bulk w) as [d p u v z]. unfold planar. cbn in *. destruct b3; [reflexivity|]. rewrite HW; auto. }
  split; [exact E|]. intros Hn Hd J. apply Hd. rewrite <- E. symmetry. apply (J c q Hc Hq); auto.
Qed.
Print Assumptions C84_jet_mpi_refuted.

(** In 3D, and in a build with MPI in 2D, the wedge problem has no moving front: with an outflow
    border at the top, ghost points that the front has passed keep the state of the last cell. *)
Theorem C84_wedge_front_refuted : forall (mpi b3 : bool) P g h bx w t arr s s' c q,
  mpi = true \/ b3 = true -> sdm_ok b3 P g -> bc g FACE_YMAX = 2%Z ->
  borders_run mpi b3 P g h bx (SWedge w) t arr s s' ->
  In c (cells b3 g) -> In q (dofs b3 P) -> within g IX c -> high g IY c -> (b3 = true -> within g IZ c) ->
  held_at b3 P arr s' c q = held_at b3 P arr s (last_cell g IY c) q.
Proof.
  intros mpi b3 P g h bx w t arr s s' c q Hm Hok Hb Hr Hc Hq Wx L Wz.
  assert (Hr' : run_kernels (boundaries b3 P g arr) s s').
  { unfold borders_run, sdm_boundaries in Hr. destruct mpi; [exact Hr|]. destruct Hm as [Hm|Hm]; [discriminate|]. rewrite Hm in *. exact Hr. }
  apply held_copy. intros v Hv. refine (proj2 (general_edge b3 P g arr s s' IY c q v Hok Hr' _ Hc Hq Hv _) L Hb); [destruct b3; cbn; auto|].
  intros b Hb1 Hb2. destruct b3; cbn in Hb1; [destruct Hb1 as [<-|[<-|[<-|[]]]]|destruct Hb1 as [<-|[<-|[]]]]; auto; contradiction.
Qed.
Print Assumptions C84_wedge_front_refuted.

(** ** Examples *)
Definition bgrid : grid := Grid 4 4 4 1 5 (fun _ => 2%Z).
Definition bwedge : wedge R := Wedge (7 / 5) (1 / 10) (PI / 3) 10 (HS 8 (233 / 2) 7 (- 4) 0) (HS (7 / 5) 1 0 0 0).
Definition bjet : jet R := Jet (7 / 5) (HS 5 (4 / 10) 800 0 0) (HS (5 / 10) (4 / 10) 0 0 0) (1 / 2) (1 / 2).
Lemma bok b3 : sdm_ok b3 ipts bgrid.
Proof. repeat split; cbn; lia. Qed.
Lemma brun mpi b3 pr t arr (s : store R) : exists s', borders_run mpi b3 ipts bgrid ipar ibox pr t arr s s'.
Proof. eexists. apply run_kernels_seq. Qed.
Lemma bcell (b3 : bool) (i j k : Z) : (0 <= i < 6 -> 0 <= j < 6 -> (if b3 then 0 <= k < 6 else k = 0) -> In (i, j, k) (cells b3 bgrid))%Z.
Proof.
  intros Hi Hj Hk. apply In_cellsD. split; [|intros ->; exact Hk].
  intros a. destruct b3; cbn; intros Ha; repeat (destruct Ha as [<- | Ha]; [cbn; lia|]); contradiction.
Qed.

Example C84_wedge_case : exists s', borders_run false false ipts bgrid ipar ibox (SWedge bwedge) (1 / 10) aU (fun _ => 1) s' /\
  held_at false ipts aU s' (2, 5, 0)%Z (1, 0, 0)%Z = conservative (7 / 5) (wd_post bwedge) /\
  held_at false ipts aU s' (3, 0, 0)%Z (1, 0, 0)%Z = HS 1 1 1 (-1) 0.
Proof.
  destruct (brun false false (SWedge bwedge) (1 / 10) aU (fun _ => 1)) as (s' & Hr). exists s'. split; [exact Hr|].
  assert (S3 : 0 < sqrt 3) by (apply sqrt_lt_R0; lra). assert (S4 : sqrt 3 * sqrt 3 = 3) by (apply sqrt_sqrt; lra). assert (S5 : sqrt 3 < 2) by (apply Rsqr_incrst_0; unfold Rsqr; lra).
  assert (Hs : 0 < sin (wd_angle bwedge)) by (cbn; rewrite sin_PI3; lra).
  assert (Hc : cos (wd_angle bwedge) <> 0) by (cbn; rewrite cos_PI3; lra).
  destruct (C84_wedge ipts bgrid ipar ibox bwedge (1 / 10) aU _ s' (bok false) ltac:(cbn; lra) eq_refl eq_refl eq_refl Hs Hc Hr) as [W _].
  split.
  - destruct (W (2, 5, 0)%Z (1, 0, 0)%Z (bcell false 2 5 0 ltac:(lia) ltac:(lia) ltac:(cbn; lia)) (idof false)) as (_ & _ & _ & _ & _ & W6 & _).
    apply W6; [cbn; unfold high; cbn; lia|]. unfold shocked, dof_position. cbn. rewrite sin_PI3, cos_PI3. lra.
  - destruct (W (3, 0, 0)%Z (1, 0, 0)%Z (bcell false 3 0 0 ltac:(lia) ltac:(lia) ltac:(cbn; lia)) (idof false)) as (_ & _ & _ & _ & W5 & _).
    rewrite W5; [|unfold low; cbn; lia|unfold dof_position; cbn; lra].
    destruct (W (3, 1, 0)%Z (1, 1, 0)%Z (bcell false 3 1 0 ltac:(lia) ltac:(lia) ltac:(cbn; lia)) ltac:(vm_compute; tauto)) as (W1 & _).
    change (wall_image bgrid IY (3, 0, 0)%Z) with (3, 1, 0)%Z. change (opposite ipts IY (1, 0, 0)%Z) with (1, 1, 0)%Z.
    rewrite W1 by (unfold within; cbn; lia). reflexivity.
Qed.
Example C84_jet_case : exists s', borders_run false true ipts bgrid ipar ibox (SJet bjet) 0 aU (fun _ => 1) s' /\
  held_at true ipts aU s' (0, 3, 3)%Z (1, 0, 0)%Z = conservative (7 / 5) (jt_jet bjet) /\
  held_at true ipts aU s' (0, 1, 3)%Z (1, 0, 0)%Z = conservative (7 / 5) (jt_bulk bjet).
Proof.
  destruct (brun false true (SJet bjet) 0 aU (fun _ => 1)) as (s' & Hr). exists s'. split; [exact Hr|].
  destruct (C84_jet true ipts bgrid ipar ibox bjet 0 aU _ s' (bok true) ltac:(cbn; lra) eq_refl ltac:(discriminate) Hr) as [W _].
  split.
  - destruct (W (0, 3, 3)%Z (1, 0, 0)%Z (bcell true 0 3 3 ltac:(lia) ltac:(lia) ltac:(cbn; lia)) (idof true)) as (_ & W2 & _).
    apply W2; try (intros; unfold low, within; cbn; lia). unfold nozzle, dof_position. cbn. lra.
  - destruct (W (0, 1, 3)%Z (1, 0, 0)%Z (bcell true 0 1 3 ltac:(lia) ltac:(lia) ltac:(cbn; lia)) (idof true)) as (_ & _ & W3 & _).
    apply W3; try (intros; unfold low, within; cbn; lia). unfold nozzle, dof_position. cbn. lra.
Qed.
Example C84_jet_mpi_case : exists s s', srun true ipts bgrid ipar ibox (SJet bjet) (fun _ => 7) s /\
  borders_run true true ipts bgrid ipar ibox (SJet bjet) 0 aU s s' /\
  ~ jet_borders true ipts bgrid ipar ibox bjet (held_at true ipts aU s) (held_at true ipts aU s').
Proof.
  destruct (irun true ipts bgrid ipar ibox (SJet bjet) (fun _ => 7)) as (s & Hi). exists s.
  destruct (brun true true (SJet bjet) 0 aU s) as (s' & Hr). exists s'. split; [exact Hi|split; [exact Hr|]].
  destruct (C84_jet_mpi_refuted true ipts bgrid ipar ibox bjet 0 _ s s' (0, 3, 3)%Z (1, 0, 0)%Z (bok true) ltac:(cbn; lra) eq_refl ltac:(discriminate) Hi eq_refl Hr
    (bcell true 0 3 3 ltac:(lia) ltac:(lia) ltac:(cbn; lia)) (idof true)) as [_ H]; try (intros; unfold low, within; cbn; lia).
  apply H; [unfold nozzle, dof_position; cbn; lra|]. unfold conservative. cbn. intros E. injection E. intros. lra.
Qed.
Example C84_wedge_front_case : exists s', borders_run false true ipts bgrid ipar ibox (SWedge bwedge) (1 / 10) aU (fun _ => 1) s' /\
  shocked bwedge (1 / 10) (dof_position ipts bgrid ipar ibox (2, 5, 3)%Z (1, 0, 0)%Z) /\
  held_at true ipts aU s' (2, 5, 3)%Z (1, 0, 0)%Z <> conservative (7 / 5) (wd_post bwedge).
Proof.
  destruct (brun false true (SWedge bwedge) (1 / 10) aU (fun _ => 1)) as (s' & Hr). exists s'. split; [exact Hr|]. split.
  - assert (S3 : 0 < sqrt 3) by (apply sqrt_lt_R0; lra). assert (S4 : sqrt 3 * sqrt 3 = 3) by (apply sqrt_sqrt; lra). assert (S5 : sqrt 3 < 2) by (apply Rsqr_incrst_0; unfold Rsqr; lra).
    unfold shocked, dof_position. cbn. rewrite sin_PI3, cos_PI3. lra.
  - rewrite (C84_wedge_front_refuted false true ipts bgrid ipar ibox bwedge (1 / 10) aU _ s' _ _ (or_intror eq_refl) (bok true) eq_refl Hr
      (bcell true 2 5 3 ltac:(lia) ltac:(lia) ltac:(cbn; lia)) (idof true)); try (intros; unfold high, within; cbn; lia).
    unfold held_at, conservative. cbn. intros E. injection E. intros. lra.
Qed.
