(** Every access of a step of the spectral difference solver is to allocated memory. *)
From Coq Require Import ZArith List Bool Lia.
From Verif Require Import Arith Par ParProofs GridModel BoundaryModel HydroState HydroKernels CellKernels HydroExec HydroSpec MoodKernels MoodProofs
  MoodSafeSpec MoodSafe TaskModel TaskKernels SdmGeom EulerModel SdmKernels SdmDofs SdmProofs SdmRunSpec SdmRun SdmSafeSpec.
Import ListNotations.
Open Scope Z_scope.

Section S.
Context {T : Type} {A : Arith T}.
Variable b3 : bool.
Variable P : points T.
Variable p : hparams T.
Variable g : grid.
Variable dt : T.
Variable junk : cell -> cell -> hs T.
Variable ti : integrator.
Hypothesis Hok : sdm_ok b3 P g.
Notation N := (npts P).
Notation Al := (allocatedS b3 N g ti).
Notation ok ps := (forall q, In q ps -> accesses_in Al q).

Definition okS (a : Z) : Prop :=
  a = aU \/ a = aFdiv \/ (a = aK 1 /\ ti <> FE) \/ (a = aK 2 /\ (ti = RK3 \/ ti = RK54)) \/ (In a [aK 3; aK 4] /\ ti = RK54).
Lemma box_in c a v : In c (cells b3 g) ->
  let l := at_cell a c v in 0 <= li l < isize g /\ 0 <= lj l < jsize g /\ (if b3 then 0 <= lk l < ksize g else lk l = 0).
Proof.
  intros Hc. apply In_cellsD in Hc. destruct Hc as [Hc Hz]. destruct c as [[i j] k]. cbn.
  repeat split; try apply (Hc IX); try apply (Hc IY); try (apply (Hc IX); destruct b3; cbn; auto); try (apply (Hc IY); destruct b3; cbn; auto).
  all: try (destruct b3; cbn; auto). apply (Hc IZ). cbn; auto.
Qed.
Lemma al_s a c q v : okS a -> In c (cells b3 g) -> in_box b3 (fun _ => N) q -> 0 <= v < nbv b3 -> Al (sloc b3 P a c q v).
Proof.
  intros Ha Hc Hq Hv. destruct q as [[x y] z]. unfold sloc. destruct (box_in c a (DofMap b3 N x y z v) Hc) as (B1 & B2 & B3).
  split; [auto|split; [auto|split; [auto|]]]. right. rewrite lv_at_cell, la_at_cell. split; [|exact Ha].
  rewrite DofMap_mixed. pose proof (mixed_range b3 (fun _ => N) x y z v (nbv b3) Hq Hv) as H. cbn beta in H. unfold vol, nbv in H.
  destruct b3; [replace (N * N * N) with (N * (N * N)) by ring|]; exact H.
Qed.
Lemma al_f dir c q v : In dir (dirs b3) -> In c (cells b3 g) -> in_box b3 (mF N dir) q -> 0 <= v < nbv b3 -> Al (floc b3 P dir c q v).
Proof.
  intros Hd Hc Hq Hv. destruct q as [[x y] z]. unfold floc. destruct (box_in c aSF (DofMapFlux b3 N dir x y z v) Hc) as (B1 & B2 & B3).
  split; [auto|split; [auto|split; [auto|]]]. left. rewrite lv_at_cell, la_at_cell. split; [reflexivity|].
  rewrite DofMapFlux_mixed by auto. pose proof (mixed_range b3 (mF N dir) x y z v (nbv b3) Hq Hv) as H. unfold vol, nbv in H.
  apply dirs_cases in Hd. unfold mF in *. destruct Hd as [->|[->|[-> Hb]]]; try destruct b3; try discriminate; cbn [IX IY IZ Z.eqb Pos.eqb] in *; unfold IX, IY, IZ in *; cbn [Z.eqb Pos.eqb] in *;
  match goal with H : 0 <= _ < ?a |- 0 <= _ < ?b => replace b with a by ring; exact H end.
Qed.
Lemma ok_loop (ts : cell -> list (task T)) cs : incl cs (cells b3 g) ->
  (forall c t l, In c cs -> In t (ts c) -> In l (tr t) \/ In l (tw t) -> Al l) -> ok (tasks_loop cs ts).
Proof. intros Hi H q Hq. eapply tasks_safe; eauto. Qed.
Ltac keys := match goal with H : In _ (map _ _) |- _ => apply in_map_iff in H; destruct H as (k & <- & Hk) end.
Ltac locs H := match type of H with
  | In _ (map _ _) => apply in_map_iff in H; let n := fresh "n" in let Hn := fresh "Hn" in destruct H as (n & <- & Hn); try apply In_zrange in Hn
  end.
Lemma vars_range v : In v (vars b3) -> 0 <= v < nbv b3. Proof. apply In_vars. Qed.

Lemma erase_sol_ok a : okS a -> ok (erase_sol (T := T) b3 P g a).
Proof.
  intros Ha. apply ok_loop; [apply incl_refl|]. intros c t l Hc Ht Hl. keys. destruct k as [q v]. apply in_prod_iff in Hk. cbn in Hl.
  destruct Hl as [[]|[<-|[]]]. apply al_s; auto; [apply In_dofs; tauto|apply In_vars; tauto].
Qed.
Lemma erase_flux_ok : ok (erase_flux (T := T) b3 P g).
Proof.
  apply ok_loop; [apply incl_refl|]. intros c t l Hc Ht Hl. keys. destruct k as [q v]. apply in_prod_iff in Hk. cbn in Hl.
  destruct Hl as [[]|[<-|[]]]. apply al_f; auto; [apply IX_dirs| |apply In_vars; tauto]. apply In_box. apply Hk.
Qed.
Lemma interp_ok dir aIn : In dir (dirs b3) -> okS aIn -> ok (interp b3 P p g dir aIn).
Proof.
  intros Hd Ha. apply ok_loop; [apply incl_refl|]. intros c t l Hc Ht Hl. keys. destruct k as [q v]. apply in_prod_iff in Hk. cbn in Hl.
  destruct Hl as [Hl|Hl]; locs Hl.
  - apply al_s; auto; [apply line_sol; tauto|apply In_vars; tauto].
  - apply al_f; auto; [apply line_flux; try tauto; lia|apply In_vars; tauto].
Qed.
Lemma flux_ok dir : In dir (dirs b3) -> ok (compute_flux b3 P p g junk dir).
Proof.
  intros Hd. pose proof (HN b3 P g Hok) as HN. apply ok_loop; [apply incl_refl|]. intros c t l Hc Ht Hl. keys. rewrite flux_tr_tw in Hl.
  assert (Hl' : In l (tw (flux_task b3 P p junk dir c k))) by tauto. clear Hl.
  pose proof (coord_C b3 g dir c Hd Hc) as Hcc.
  unfold flux_keys in Hk. apply in_app_iff in Hk. destruct Hk as [Hk|Hk].
  - apply in_map_iff in Hk. destruct Hk as ([q n] & <- & Hk). apply in_prod_iff in Hk. destruct Hk as [Hq Hn]. apply In_zrange in Hn.
    cbn in Hl'. apply in_map_iff in Hl'. destruct Hl' as (v & <- & Hv). apply al_f; auto; [apply line_flux; auto; lia|apply In_vars; auto].
  - destruct (Z.ltb_spec 0 (coord c dir)); [|destruct Hk]. apply in_map_iff in Hk. destruct Hk as (q & <- & Hq). cbn in Hl'.
    apply in_app_iff in Hl'. destruct Hl' as [Hl|Hl]; apply in_map_iff in Hl; destruct Hl as (v & <- & Hv).
    + apply al_f; auto; [apply along_in; auto; lia|apply line_flux; auto; lia|apply In_vars; auto].
    + apply al_f; auto; [apply line_flux; auto; lia|apply In_vars; auto].
Qed.
Lemma derivative_ok dir : In dir (dirs b3) -> ok (derivative b3 P p g dir).
Proof.
  intros Hd. apply ok_loop; [apply incl_refl|]. intros c t l Hc Ht Hl. keys. destruct k as [q v]. apply in_prod_iff in Hk. cbn in Hl.
  assert (F : okS aFdiv) by (unfold okS; auto). rewrite in_app_iff in Hl.
  destruct Hl as [[Hl|Hl]|Hl]; locs Hl.
  - apply al_f; auto; [apply line_flux; try tauto; lia|apply In_vars; tauto].
  - apply al_s; auto; [apply line_sol; tauto|apply In_vars; tauto].
  - apply al_s; auto; [apply line_sol; tauto|apply In_vars; tauto].
Qed.
Lemma divergence_ok aIn : okS aIn -> forall ps, In ps (fluxes_divergence b3 P p g junk aIn) -> ok ps.
Proof.
  intros Ha ps Hp. unfold fluxes_divergence in Hp. rewrite !in_app_iff in Hp. destruct Hp as [[<-|[]]|[Hp|Hp]].
  - apply erase_sol_ok. unfold okS; auto.
  - apply in_concat in Hp. destruct Hp as (l & Hl & Hp). apply in_map_iff in Hl. destruct Hl as (dir & <- & Hd).
    destruct Hp as [<-|[<-|[<-|[<-|[]]]]]; [apply erase_flux_ok|apply interp_ok; auto|apply flux_ok; auto|apply derivative_ok; auto].
  - assert (Hp' : ps = erase_flux b3 P g) by (clear - Hp; destruct b3; [destruct Hp|destruct Hp as [<-|[]]; reflexivity]).
    rewrite Hp'. apply erase_flux_ok.
Qed.
Lemma update_ok aOut a0 a1 cf : okS aOut -> okS a0 -> okS a1 -> ok (update_RK b3 P g dt aOut a0 a1 cf).
Proof.
  intros H1 H2 H3. destruct cf as [[c0 c1] c2]. apply ok_loop; [apply incl_refl|]. intros c t l Hc Ht Hl. keys. destruct k as [q v].
  apply In_update_keys in Hk. destruct Hk as (_ & Hq & Hv). apply In_dofs in Hq. apply In_vars in Hv.
  assert (F : okS aFdiv) by (unfold okS; auto). cbn in Hl. destruct Hl as [[<-|[<-|[<-|[]]]]|[<-|[]]]; apply al_s; auto.
Qed.
Lemma boundaries_ok arr : okS arr -> forall ps, In ps (boundaries (T := T) b3 P g arr) -> ok ps.
Proof.
  intros Ha ps Hp. unfold boundaries in Hp. apply in_concat in Hp. destruct Hp as (l & Hl & Hp). apply in_map_iff in Hl. destruct Hl as (a & <- & Hd).
  assert (G : forall hi, ok (make_boundary (T := T) b3 P g arr a hi)).
  { intros hi. unfold make_boundary. apply ok_loop; [intros c Hc; apply filter_In in Hc; apply Hc|].
    intros c t l Hc Ht Hl. apply filter_In in Hc. destruct Hc as [Hc Hs]. keys. destruct k as [q v]. apply in_prod_iff in Hk. destruct Hk as [Hq Hv]. apply In_vars in Hv.
    cbn in Hl. destruct Hl as [[<-|[]]|[<-|[]]].
    - assert (Hq' : in_box b3 (fun _ => N) (if bc_of g a hi =? BC_DIRICHLET then setc a (N - 1 - coord q a) q else q)).
      { apply In_dofs. destruct (_ =? _); auto. apply mirror_dof; auto. }
      apply al_s; auto. assert (Hsp : slab_pos g a hi c).
      { unfold in_slab in Hs. unfold slab_pos. destruct hi; lia. }
      pose proof (bsource_in b3 P g junk Hok a hi c Hd Hc Hsp) as Hb.
      pose proof (size_pos b3 P g Hok a Hd) as [Hsz Hw]. pose proof (dir_any b3 a Hd) as Hany.
      apply In_cellsD. apply In_cellsD in Hc. destruct Hc as [Hc Hz]. split.
      + intros d Hdd. rewrite coord_setc by (auto; eapply dir_any; eauto). destruct (Z.eqb_spec d a) as [->|]; [rewrite sizeA_N; lia|apply Hc; auto].
      + intros Hb3. rewrite coord_setc by auto. destruct (Z.eqb_spec IZ a) as [<-|]; [|auto]. rewrite Hb3 in Hd. destruct Hd as [Hd|[Hd|[]]]; discriminate.
    - apply al_s; auto. apply In_dofs; auto. }
  destruct Hp as [<-|[<-|[]]]; apply G.
Qed.
Theorem sdm_safe a s : a = aU -> loops_safe Al (time_integration b3 P p g dt junk ti a) s.
Proof.
  intros ->. apply static_loops. intros ps q Hps. revert q.
  assert (U : okS aU) by (unfold okS; auto).
  unfold time_integration in Hps. apply in_app_iff in Hps. destruct Hps as [Hps|Hps]; [eapply boundaries_ok; eauto|].
  assert (K1 : ti <> FE -> okS (aK 1)) by (unfold okS; tauto).
  assert (K2 : ti = RK3 \/ ti = RK54 -> okS (aK 2)) by (unfold okS; tauto).
  assert (K3 : ti = RK54 -> okS (aK 3)) by (unfold okS; cbn [In]; tauto).
  assert (K4 : ti = RK54 -> okS (aK 4)) by (unfold okS; cbn [In]; tauto).
  destruct ti eqn:Et; rewrite <- Et.
  - unfold forward_euler in Hps. rewrite !in_app_iff in Hps. destruct Hps as [Hps|[<-|[]]]; [eapply divergence_ok; eauto|apply update_ok; auto].
  - specialize (K1 ltac:(congruence)). unfold ssprk2 in Hps. rewrite !in_app_iff in Hps.
    destruct Hps as [Hps|[[<-|[]]|[Hps|[Hps|[<-|[]]]]]]; try (eapply divergence_ok; [|eassumption]; assumption); try (eapply boundaries_ok; [|eassumption]; assumption); apply update_ok; auto.
  - specialize (K1 ltac:(congruence)). specialize (K2 ltac:(auto)). unfold ssprk3 in Hps. rewrite !in_app_iff in Hps.
    destruct Hps as [Hps|[[<-|[]]|[Hps|[Hps|[[<-|[]]|[Hps|[Hps|[<-|[]]]]]]]]];
    try (eapply divergence_ok; [|eassumption]; assumption); try (eapply boundaries_ok; [|eassumption]; assumption); apply update_ok; auto.
  - specialize (K1 ltac:(congruence)). specialize (K2 ltac:(auto)). specialize (K3 ltac:(auto)). specialize (K4 ltac:(auto)). unfold ssprk54 in Hps. rewrite !in_app_iff in Hps.
    repeat (destruct Hps as [Hps|Hps]; [
      first [ eapply divergence_ok; [|eassumption]; assumption | eapply boundaries_ok; [|eassumption]; assumption
            | destruct Hps as [<-|[]]; apply update_ok; assumption ]|]).
    destruct Hps as [<-|[]]; apply update_ok; assumption.
Qed.

(** The result depends only on the interior of the array that is advanced. *)
Theorem sdm_det a (s t s' t' : store T) : sdm_state a -> (ti <> FE -> a = aU) ->
  agreeI b3 P g (sv b3 P s a) (sv b3 P t a) ->
  run_kernels (time_integration b3 P p g dt junk ti a) s s' -> run_kernels (time_integration b3 P p g dt junk ti a) t t' ->
  agreeI b3 P g (sv b3 P s' a) (sv b3 P t' a).
Proof.
  intros Ha Hau H Hs Ht. pose proof (state_stA a Ha) as HsA.
  assert (Sym : forall X Y, agreeI b3 P g X Y -> agreeI b3 P g Y X) by (intros X Y E c q v H1 H2 H3 H4; symmetry; auto).
  assert (X : forall cf U0 U0' U1 U1' W W', agreeI b3 P g U0 U0' -> agreeI b3 P g U1 U1' -> agreeI b3 P g W W' ->
     agreeI b3 P g (stg b3 P p g dt junk cf U0 U1 W) (stg b3 P p g dt junk cf U0' U1' W')).
  { intros. apply stg_ext; assumption. }
  assert (Go : forall (Y : store T -> fieldS), agreeI b3 P g (sv b3 P s' a) (Y s) -> agreeI b3 P g (sv b3 P t' a) (Y t) ->
     agreeI b3 P g (Y s) (Y t) -> agreeI b3 P g (sv b3 P s' a) (sv b3 P t' a)).
  { intros Y E1 E2 E3. eapply agreeI_trans; [exact E1|]. eapply agreeI_trans; [exact E3|]. apply Sym. exact E2. }
  destruct ti.
  - apply step_fe in Hs; auto. apply step_fe in Ht; auto. eapply (Go (fun s => stg b3 P p g dt junk (one, zero, opp one) (sv b3 P s a) (sv b3 P s a) (sv b3 P s a))); auto.
  - rewrite Hau in * by discriminate. apply step_rk2 in Hs; auto; [|discriminate]. apply step_rk2 in Ht; auto; [|discriminate].
    pose proof (X (one, zero, opp one) _ _ _ _ _ _ H H H) as E1. cbv zeta in Hs, Ht.
    pose proof (X (half, half, opp half) _ _ _ _ _ _ H E1 E1) as E2.
    eapply agreeI_trans; [exact Hs|]. eapply agreeI_trans; [exact E2|]. apply Sym. exact Ht.
  - rewrite Hau in * by discriminate. apply step_rk3 in Hs; auto; try discriminate. apply step_rk3 in Ht; auto; try discriminate.
    pose proof (X (one, zero, opp one) _ _ _ _ _ _ H H H) as E1.
    pose proof (X (lit 3 4, lit 1 4, opp (lit 1 4)) _ _ _ _ _ _ H E1 E1) as E2.
    pose proof (X (div one (lit 3 1), div two (lit 3 1), div (opp two) (lit 3 1)) _ _ _ _ _ _ H E2 E2) as E3.
    eapply agreeI_trans; [exact Hs|]. eapply agreeI_trans; [exact E3|]. apply Sym. exact Ht.
  - rewrite Hau in * by discriminate.
    assert (D : forall n, 1 <= n <= 4 -> aU <> aK n) by (intros n Hn; unfold aU, aK; lia).
    apply step_rk54 in Hs; auto. apply step_rk54 in Ht; auto.
    pose proof (X (rk54 0) _ _ _ _ _ _ H H H) as E1.
    pose proof (X (rk54 1) _ _ _ _ _ _ H E1 E1) as E2.
    pose proof (X (rk54 2) _ _ _ _ _ _ H E2 E2) as E3.
    pose proof (X (rk54 3) _ _ _ _ _ _ H E3 E3) as E4.
    pose proof (X (rk54 4) _ _ _ _ _ _ E2 E3 E3) as E5.
    pose proof (X (rk54 5) _ _ _ _ _ _ E5 E4 E4) as E6.
    eapply agreeI_trans; [exact Hs|]. eapply agreeI_trans; [exact E6|]. apply Sym. exact Ht.
Qed.
End S.
