(** What the initial condition loops of the spectral difference solver leave at the solution
    points, for every schedule. *)
From Coq Require Import ZArith List Bool Lia Reals Lra.
From Verif Require Import Arith Par ParProofs GridModel HydroState HydroKernels CellKernels HydroSpec Physics MhdState MhdInit MhdInitSpec
  HydroInit HydroInitSpec HydroInitProofs HydroInitState HydroInitWrong MoodKernels MoodProofs TaskModel TaskKernels HydroExec HydroStep2 SdmGeom SdmDofs SdmKernels SdmProofs SdmInit SdmInitSpec.
Import ListNotations.
Open Scope Z_scope.

Section Exec.
Context {T : Type} {A : Arith T}.
Notation store := (store T).
Variable m : slibm T.
Variable b3 : bool.
Variable P : points T.
Variable g : grid.
Variable h : hparams T.
Variable bx : MhdInit.box T.
Variable pr : sproblem T.

(** At most one assignment to each variable. *)
Lemma NoDup_cons_assign d e mu mv mw : NoDup (map fst (cons_assign (T:=T) b3 d e mu mv mw)).
Proof. destruct b3; cbn; repeat constructor; cbn; unfold ID, IP, IU, IV, IW; intuition discriminate. Qed.
Lemma spoint_cases c q : (exists d e mu mv mw, spoint m b3 P g h bx pr c q = cons_assign b3 d e mu mv mw) \/ spoint m b3 P g h bx pr c q = [].
Proof.
  destruct c as [[i j] k], q as [[ix iy] iz]. cbn [spoint].
  destruct pr as [ |a|a|n xt yt|rnd a|a|a|a|a t| ].
  - left. unfold ssod. destruct (_ <? _)%A; eauto 8.
  - left. unfold himplode, himplode_state. eauto 8.
  - left. unfold hblast. destruct (hblast_inside _ _ _ _ _); eauto 8.
  - destruct b3; [right; reflexivity|left]. unfold hfour, prim_to_cons. eauto 8.
  - unfold hkh. destruct (kh_rand a); [left; unfold hkh_assign; eauto 8|]. destruct (kh_sine_rob a); [|right; reflexivity].
    left. unfold hkh_assign. destruct b3; eauto 8.
  - left. unfold sgresho. destruct (hgresho_profile _ _ _). eauto 8.
  - left. unfold swedge, put_state. destruct (_ <? _)%A; eauto 8.
  - left. unfold sjet, put_state. eauto 8.
  - left. unfold svortex, hvortex. eauto 8.
  - left. unfold sshu. destruct (_ <? _)%A; eauto 8.
Qed.
Lemma NoDup_spoint c q : NoDup (map fst (spoint m b3 P g h bx pr c q)).
Proof. destruct (spoint_cases c q) as [(d & e & mu & mv & mw & ->)| ->]; [apply NoDup_cons_assign|constructor]. Qed.

Lemma init_spec (s s' : store) : run_kernels (init_sdm m b3 P g h bx pr) s s' ->
  (forall c q v x, In c (cells b3 g) -> In q (dofs b3 P) -> In (v, x) (spoint m b3 P g h bx pr c q) -> s' (sloc b3 P aU c q v) = x) /\
  (forall c q, In c (cells b3 g) -> In q (dofs b3 P) -> spoint m b3 P g h bx pr c q = [] -> forall v, s' (sloc b3 P aU c q v) = s (sloc b3 P aU c q v)).
Proof.
  intros Hr. unfold init_sdm in Hr. apply rk_inv in Hr. destruct Hr as (s1 & Hex & Hr). apply rk_nil_inv in Hr. subst s1.
  apply tasks_spec in Hex.
  - destruct Hex as [H1 H2]. split.
    + intros c q v x Hc Hq Hin. apply (H1 c q); auto. cbn [init_task tw tv tr].
      revert Hin. generalize (spoint m b3 P g h bx pr c q). intros l Hin. induction l as [|[a b] l IH]; [contradiction|].
      cbn. destruct Hin as [E|Hin]; [left; injection E as -> ->; reflexivity|right; auto].
    + intros c q Hc Hq E v. apply H2. intros c' q' Hc' Hq' Hin. cbn [init_task tw] in Hin. apply in_map_iff in Hin.
      destruct Hin as ([a b] & Eq & Hin). apply sloc_inj in Eq; try (apply In_dofs; auto). destruct Eq as (_ & <- & <- & _).
      rewrite E in Hin. contradiction.
  - apply NoDup_cellsD.
  - intros c _. apply NoDup_box.
  - intros c q Hc Hq. cbn [init_task tw]. pose proof (NoDup_spoint c q) as Hn. rewrite <- (map_map fst (sloc b3 P aU c q)).
    apply FinFun.Injective_map_NoDup; [|exact Hn]. intros v v' E. apply sloc_inj in E; try (apply In_dofs; auto). tauto.
  - intros c q c' q' l Hc Hq Hc' Hq' Hl [Hl'|[]]. cbn [init_task tw] in Hl, Hl'. apply in_map_iff in Hl, Hl'.
    destruct Hl as (a & <- & _), Hl' as (a' & E & _). apply sloc_inj in E; try (apply In_dofs; auto). destruct E as (_ & -> & -> & _). auto.
Qed.
End Exec.

Local Open Scope R_scope.
Section Real.
Variable b3 : bool.
Variable P : points R.
Variable g : grid.
Variable h : hparams R.
Variable bx : MhdInit.box R.
Hypothesis Hgam : 1 < gamma0 h.
Local Notation gam := (gamma0 h).
Local Notation heldof := (held_of b3).
Local Notation run pr := (run_kernels (init_sdm RSLibm b3 P g h bx pr)).

Lemma sheld_init pr (s s' : store R) c q u : run pr s s' -> In c (cells b3 g) -> In q (dofs b3 P) ->
  heldof (spoint RSLibm b3 P g h bx pr c q) u -> sheld b3 P s' c q = u.
Proof.
  intros Hr Hc Hq (d & e & mu & mv & mw & El & ->). destruct (init_spec _ _ _ _ _ _ _ _ _ Hr) as [H _].
  assert (Hin : forall v x, In (v, x) (cons_assign b3 d e mu mv mw) -> s' (sloc b3 P aU c q v) = x).
  { intros v x Hin. apply (H c q); auto. rewrite El. exact Hin. }
  unfold sheld. rewrite (Hin ID d), (Hin IP e), (Hin IU mu), (Hin IV mv); try (destruct b3; cbn; tauto).
  destruct b3; [rewrite (Hin IW mw); [reflexivity|cbn; tauto]|reflexivity].
Qed.
Lemma sheld_nothing pr (s s' : store R) c q : run pr s s' -> In c (cells b3 g) -> In q (dofs b3 P) ->
  spoint RSLibm b3 P g h bx pr c q = [] -> sheld b3 P s' c q = sheld b3 P s c q.
Proof.
  intros Hr Hc Hq E. destruct (init_spec _ _ _ _ _ _ _ _ _ Hr) as [_ H]. unfold sheld. rewrite !(H c q Hc Hq E). reflexivity.
Qed.

Lemma spx_pos i n : spx P g h bx i n = xmin bx + (IZR (i + nx g * mpi bx IX - gw g) + solp P n) * dx h.
Proof. unfold spx, ofZ. cbn. field. Qed.
Lemma spy_pos i n : spy P g h bx i n = ymin bx + (IZR (i + ny g * mpi bx IY - gw g) + solp P n) * dy h.
Proof. unfold spy, ofZ. cbn. field. Qed.
Lemma spz_pos i n : spz P g h bx i n = zmin bx + (IZR (i + nz g * mpi bx IZ - gw g) + solp P n) * dz h.
Proof. unfold spz, ofZ. cbn. field. Qed.

(** The assignments at the point X. *)
Definition sat (pr : sproblem R) (c q : cell) (X : point) : list (Z * R) :=
  let x := px X in let y := py X in let z := pz X in
  match pr with
  | SSod => ssod b3 h x
  | SImplode a => himplode b3 h bx a x y z
  | SBlast a => hblast b3 h a x y z
  | SFourQuadrant n xt yt => if b3 then [] else hfour b3 h n xt yt (x + dx h / 2) (y + dy h / 2)
  | SKelvinHelmholtz rnd a => hkh RHLibm b3 h bx (rnd c q) a x y z
  | SGresho a => sgresho RSLibm b3 h a x y
  | SWedge a => swedge RSLibm b3 a x y
  | SJet a => sjet b3 a
  | SVortex a t => svortex RSLibm b3 h bx a t x y
  | SShuOsher => sshu RSLibm b3 h x
  end.
Lemma spoint_sat pr c q : spoint RSLibm b3 P g h bx pr c q = sat pr c q (dof_position P g h bx c q).
Proof.
  destruct c as [[i j] k], q as [[ix iy] iz]. unfold spoint, sat, dof_position. cbn [px py pz].
  rewrite spx_pos, spy_pos, spz_pos. destruct pr; try reflexivity.
  destruct b3; [reflexivity|]. f_equal; unfold spx4, spy4, ofZ; cbn; field.
Qed.

Lemma planar_held d e mu mv u : held_of false (cons_assign false d e mu mv zero) u -> heldof (cons_assign b3 d e mu mv zero) u.
Proof.
  intros (d' & e' & mu' & mv' & mw' & El & ->). cbn in El. injection El as <- <- <- <-.
  exists d, e, mu, mv, 0. split; [reflexivity|]. destruct b3; reflexivity.
Qed.
Lemma sgresho_held q X : gr_rho0 q <> 0 -> heldof (sgresho RSLibm b3 h q (px X) (py X)) (conservative gam (gresho_actual false h q X)).
Proof.
  intros H0. pose proof (gresho_held false h Hgam q X H0) as Hh. unfold sgresho. unfold hgresho in Hh. cbv zeta in Hh |- *. cbn [sm RSLibm] in *.
  destruct (hgresho_profile _ _ _) as [up pr]. cbn iota in Hh. apply planar_held.
  match type of Hh with held_of _ (cons_assign _ ?d ?e ?mu ?mv _) _ => 
    match goal with |- held_of _ (cons_assign _ _ ?e' _ _ _) _ => replace e' with e end; [exact Hh|] end.
  destruct b3; [|reflexivity]. cbn. rewrite Rmult_0_l, Rplus_0_r. reflexivity.
Qed.
Lemma svortex_held q X : heldof (hvortex RHLibm b3 h q (px X) (py X)) (conservative gam (vortex_actual h q (px X) (py X))).
Proof. pose proof (vortex_held false h Hgam q X eq_refl) as Hh. unfold hvortex in *. cbv zeta in *. apply planar_held. exact Hh. Qed.
Lemma vortex_actual_gas q x y : iv_p q = iv_rho q * iv_T q -> 0 < iv_T q -> 0 < vortex_T gam q x y -> vortex_actual h q x y = vortex_gas gam q x y.
Proof.
  intros H1 H2 H3. pose proof (vortex_pressure h Hgam q x y H1 H2 H3) as Hp. unfold vortex_actual. cbv zeta. rewrite <- Hp.
  destruct (vortex_gas gam q x y) eqn:E. cbn. unfold vortex_gas in E. injection E as <- <- <- <- <-. reflexivity.
Qed.
Lemma par_cons_held gam' q : gam' = gam -> (b3 = false -> hW q = 0) ->
  heldof (put_state b3 (par_cons gam' q)) (conservative gam (planar b3 q)).
Proof.
  intros -> Hw. unfold put_state, par_cons, planar. cbn [hD hP hU hV hW]. apply held_cons; cbn -[IZR]; try reflexivity.
  - unfold total_energy. cbn [hD hP hU hV hW]. destruct b3; [|rewrite (Hw eq_refl)]; cbn; field; lra.
  - destruct b3; [reflexivity|ring].
Qed.

Definition sreaches (pr : sproblem R) (X : point) (l : list (Z * R)) : Prop :=
  exists q, sprescribed b3 h bx pr X q /\ heldof l (conservative gam q).
Lemma moved_centre_at q t X : sgood b3 h bx (SVortex q t) X ->
  sprescribed b3 h bx (SVortex q t) X (vortex_gas gam (moved_centre RSLibm bx q t) (px X) (py X)).
Proof.
  destruct t as [t|]; [|intros _; reflexivity].
  intros (_ & _ & _ & Hx0 & Hy0 & Hx & Hy & Hx1 & Hy1). cbn [sprescribed]. unfold vortex_at.
  assert (Hm : forall x L, 0 < L -> 0 <= x -> exists n, Rfmod x L = x + IZR n * L /\ 0 <= x + IZR n * L < L).
  { intros x L HL Hp. exists (- Int_part (x / L))%Z.
    assert (Hq : 0 <= x / L) by (apply Rmult_le_pos; [lra|left; apply Rinv_0_lt_compat; lra]).
    split.
    - unfold Rfmod. destruct (Rle_dec 0 (x / L)); [|contradiction]. rewrite opp_IZR. ring.
    - rewrite opp_IZR. destruct (base_Int_part (x / L)) as [H1 H2]. assert (E : x = x / L * L) by (field; lra).
      rewrite E at 1 3. split; nra. }
  destruct (Hm (iv_x q + t * iv_u q) (xmax bx)) as (n & En & Hn); auto.
  destruct (Hm (iv_y q + t * iv_v q) (ymax bx)) as (l & El & Hl); auto.
  exists n, l. rewrite Hx0, Hy0. rewrite !Rminus_0_r. split; [exact Hn|]. split; [exact Hl|].
  f_equal. unfold moved_centre, RSLibm, ffmod. cbn -[Rfmod]. rewrite Hx0, Hy0, !Rminus_0_r, En, El. reflexivity.
Qed.
Lemma all_sreach pr c q X : sgood b3 h bx pr X -> sreaches pr X (sat pr c q X).
Proof.
  destruct pr as [ |a|a|n xt yt|rnd a|a|a|a|a t| ]; intros Hg; unfold sat.
  - unfold ssod. cbn. destruct (Rlt_dec (px X) (1 / 2)) as [L|L].
    + exists (HS 1 1 0 0 0). split; [left; split; [lra|reflexivity]|]. apply held_cons; unfold total_energy; cbn; try (destruct b3); field; lra.
    + exists (HS (/ 8) (/ 10) 0 0 0). split; [right; split; [lra|reflexivity]|]. apply held_cons; unfold total_energy; cbn; try (destruct b3); field; lra.
  - destruct (implode_reaches b3 h bx Hgam a X Hg) as (r & Hp & Hh). exists r. auto.
  - destruct (blast_reaches b3 h bx Hgam a X) as (r & Hp & Hh). exists r. auto.
  - contradiction.
  - destruct (kh_reaches b3 h bx Hgam (fun _ => rnd c q) a c X) as (r & Hp & Hh).
    + destruct Hg as [[H1 H2]|H1]; [left; split; auto|right; auto].
    + exists r. split; [exact Hp|exact Hh].
  - destruct Hg as (H0 & H1 & H2 & H3). exists (gresho_gas gam a X). split; [reflexivity|].
    replace (gresho_gas gam a X) with (gresho_actual false h a X); [apply sgresho_held; auto|].
    unfold gresho_actual, gresho_gas. rewrite H1, H2, H3. f_equal; ring.
  - destruct Hg as (H1 & H2 & H3). unfold swedge, RSLibm. cbn -[tan put_state par_cons].
    assert (E : tan (wd_angle a) * (px X - wd_x a) < py X <-> behind_front a X).
    { unfold behind_front, tan. assert (Hi : tan (wd_angle a) * (px X - wd_x a) * cos (wd_angle a) = (px X - wd_x a) * sin (wd_angle a)) by (unfold tan; field; lra).
      unfold tan in Hi. rewrite <- Hi. split; intros HH; [apply Rmult_lt_compat_r; auto|apply Rmult_lt_reg_r in HH; auto]. }
    destruct (Rlt_dec (tan (wd_angle a) * (px X - wd_x a)) (py X)) as [L|L].
    + exists (planar b3 (wd_post a)). split; [left; split; [tauto|reflexivity]|apply par_cons_held; auto; intros; apply H3; auto].
    + exists (planar b3 (wd_pre a)). split; [right; split; [tauto|reflexivity]|apply par_cons_held; auto; intros; apply H3; auto].
  - destruct Hg as (H1 & H2). exists (planar b3 (jt_bulk a)). split; [reflexivity|]. apply par_cons_held; auto.
  - exists (vortex_gas gam (moved_centre RSLibm bx a t) (px X) (py X)). split; [apply moved_centre_at; exact Hg|].
    destruct Hg as (H1 & H2 & H3 & _). unfold svortex. rewrite <- vortex_actual_gas.
    + apply svortex_held.
    + destruct t; exact H1.
    + destruct t; exact H2.
    + apply H3. reflexivity.
  - unfold sshu, RSLibm, ofZ. cbn -[IZR sqrt]. assert (Hd : forall x, x / 1 = x) by (intros; field). rewrite !Hd.
    destruct (Rlt_dec (px X) (-4)) as [L|L].
    + exists shu_left. split; [left; split; [lra|reflexivity]|]. unfold shu_left. apply held_cons; unfold total_energy; cbn [hD hP hU hV hW]; try (destruct b3); field; lra.
    + exists (shu_right (px X)). split; [right; split; [lra|reflexivity]|]. unfold shu_right. apply held_cons; unfold total_energy; cbn [hD hP hU hV hW]; try (destruct b3); field; lra.
Qed.
End Real.
