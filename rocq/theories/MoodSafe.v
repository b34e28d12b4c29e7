(** Schedule independence and memory safety of the MOOD time step. *)
From Coq Require Import ZArith List Bool Lia.
From Verif Require Import Arith Par ParProofs GridModel BoundaryModel BoundarySpec BoundaryProofs
  HydroState RiemannModel HydroPoint HydroKernels CellKernels HydroField HydroExec HydroSpec HydroProofs2
  HydroStep2 HydroSafe2 MoodPoly MoodKernels MoodProofs MoodStage MoodSpec MoodRun MoodSafeSpec.
Import ListNotations.
Open Scope Z_scope.
Open Scope prog_scope.

(** ** Dynamic safety from footprints *)
Section Dyn.
Context {T : Type}.
Variable P : loc -> Prop.

Lemma accesses_next (q : prog T unit) : accesses_in P q -> next_in P q.
Proof. destruct q; cbn; intros (H1 & H2 & H3); cbn in *; tauto. Qed.
Lemma accesses_step (s s' : store T) q q' : tstep s q s' q' -> accesses_in P q -> accesses_in P q'.
Proof. intros H (H1 & H2 & H3). destruct H; cbn in *; repeat split; try tauto; try apply H1; try apply H2; try apply H3. Qed.

(** Threads that are either safe whatever they read, or start by reading a
    location that no thread modifies and are safe for the value found there. *)
Definition guarded (N : loc -> Prop) (s : store T) (q : prog T unit) : Prop :=
  accesses_in P q \/ exists l k, q = Rd l k /\ P l /\ N l /\ accesses_in P (k (s l)).
Lemma guarded_safe (N : loc -> Prop) (s : store T) ps :
  (forall q, In q ps -> guarded N s q /\ writes_in (fun l => ~ N l) q /\ no_rmw q) ->
  loop_safe P s ps.
Proof.
  intros H s' ps' Hstar.
  assert (G : forall c c', pstar c c' -> forall s0, (forall l, N l -> fst c l = s0 l) ->
     (forall q, In q (snd c) -> guarded N s0 q /\ writes_in (fun l => ~ N l) q /\ no_rmw q) ->
     forall q, In q (snd c') -> guarded N s0 q).
  { intros c c' Hc. induction Hc as [c|c1 c2 c3 Hs Hss IH]; intros s0 He Hg q Hq; [apply Hg; auto|].
    destruct Hs as [t t' pre p0 p1 post Ht]. cbn [fst snd] in *.
    apply (IH s0); auto.
    - intros l Hl. destruct (Hg p0) as (_ & Hw & Hr); [apply in_app_iff; right; left; auto|].
      destruct Ht; cbn [writes_in] in Hw; auto.
      + rewrite upd_other; auto. intros E. subst. tauto.
      + cbn in Hr. tauto.
    - intros r Hr. assert (Hin : In r (pre ++ p0 :: post) \/ r = p1).
      { apply in_app_iff in Hr. destruct Hr as [Hr|[Hr|Hr]]; [left|right|left]; auto; apply in_app_iff; cbn; auto. }
      destruct Hin as [Hin| ->]; [apply Hg; auto|].
      destruct (Hg p0) as (Hgd & Hw & Hrm); [apply in_app_iff; right; left; auto|].
      split; [|split].
      + left. destruct Hgd as [Hgd|(l & k & -> & Hl & Hn & Ha)]; [eapply accesses_step; eauto|].
        inversion Ht; subst. rewrite (He l Hn). exact Ha.
      + destruct Ht; cbn in *; auto; try apply Hw; tauto.
      + destruct Ht; cbn in *; auto; try apply Hrm; tauto. }
  intros q Hq. destruct (G _ _ Hstar s (fun _ _ => eq_refl) H q Hq) as [Ha|(l & k & -> & Hl & _)].
  - apply accesses_next; auto.
  - exact Hl.
Qed.
Lemma static_safe (s : store T) ps : (forall q, In q ps -> accesses_in P q) -> loop_safe P s ps.
Proof.
  intros H s' ps' Hstar.
  assert (G : forall c c', pstar c c' -> (forall q : prog T unit, In q (snd c) -> accesses_in P q) ->
     forall q : prog T unit, In q (snd c') -> accesses_in P q).
  { intros c c' Hc. induction Hc as [c|c1 c2 c3 Hs Hss IH]; intros Hg q Hq; [apply Hg; auto|].
    apply IH; auto. destruct Hs as [t t' pre p0 p1 post Ht]. cbn [snd] in *. intros r Hr.
    apply in_app_iff in Hr. destruct Hr as [Hr|[Hr|Hr]].
    - apply Hg. apply in_app_iff; auto.
    - subst r. eapply accesses_step; eauto. apply Hg. apply in_app_iff; right; left; auto.
    - apply Hg. apply in_app_iff; right; right; auto. }
  intros q Hq. apply accesses_next. eapply G; eauto.
Qed.
Lemma loops_safe_app k1 : forall (k2 : list (list (prog T unit))) s, loops_safe P k1 s ->
  (forall s', run_kernels k1 s s' -> loops_safe P k2 s') -> loops_safe P (k1 ++ k2) s.
Proof.
  induction k1 as [|ps k1 IH]; intros k2 s H1 H2; cbn [app loops_safe].
  - apply H2. constructor.
  - destruct H1 as [H1 H1']. split; auto. intros s' Hs'. apply IH; auto.
    intros s'' Hs''. apply H2. econstructor; eauto.
Qed.
Lemma static_loops (kers : list (list (prog T unit))) : (forall ps q, In ps kers -> In q ps -> accesses_in P q) ->
  forall s, loops_safe P kers s.
Proof.
  induction kers as [|ps kers IH]; intros H s; cbn [loops_safe]; auto. split.
  - apply static_safe. intros q Hq. apply (H ps q); auto. left; auto.
  - intros s' _. apply IH. intros ps' q Hp. apply H. right; auto.
Qed.
End Dyn.

Section MSafe.
Context {T : Type} {A : Arith T}.
Variable m : mcfg T.
Variable p : hparams T.
Variable g : grid.
Variable dt : T.
Variable junk : cell -> Z -> hs T.
Variable junkR : cell -> Z -> nat -> T.
Notation b3 := (d3 m).
Notation store := (store T).

Lemma mood_dims : mood_ok m g -> 0 < gw g /\ gw g <= nx g /\ gw g <= ny g /\ (b3 = true -> gw g <= nz g) /\
  nbvar g = nv b3.
Proof.
  intros (_ & _ & Hg & Hn & _). rewrite Hn. destruct b3; unfold grid_ok3d, grid_ok2d, nv in *; repeat split; try tauto; try discriminate.
Qed.

(** ** Determinism *)
Lemma boundaries_det a ps : mood_ok m g -> In ps (boundaries m g a) -> ker_det (T := T) ps.
Proof.
  intros Hok Hps. pose proof (mood_dims Hok) as (Hw & Hx & Hy & Hz & _).
  unfold boundaries in Hps. destruct b3.
  - apply in_map_iff in Hps. destruct Hps as (f & <- & _). specialize (Hz eq_refl).
    intros s1 s2 s1' s2' He H1 H2 l.
    refine (face3_det false g f a _ _ _ _ _ s1 s2 s1' s2' He H1 H2 l); try lia.
    destruct f; left; lia.
  - apply in_map_iff in Hps. destruct Hps as (f & <- & Hf).
    intros s1 s2 s1' s2' He H1 H2 l.
    refine (face2_det false g f a _ _ _ _ s1 s2 s1' s2' He H1 H2 l); try lia.
    cbn [In] in Hf. destruct f; try (left; lia); intuition discriminate.
Qed.
Lemma cell_det Ws body : (forall c, In c (cellsD b3 g) -> cellprog Ws c (body c)) ->
  ker_det (T := T) (md_for (cellsD b3 g) body).
Proof. intros H s1 s2 s1' s2' He H1 H2. eapply cellwise_det; eauto. apply NoDup_cellsD. Qed.

Ltac inW := unfold cellW; rewrite la_at_cell, at_of_at_cell; split; [|reflexivity]; ma; cbn [In]; auto.
Lemma stage_det aIn ps : stateA aIn -> In ps (stage_fluxes m p g dt junk junkR aIn) -> ker_det ps.
Proof.
  intros Ha [<-|[<-|[<-|[<-|[]]]]].
  - apply (cell_det (polyArrays m)). intros c Hc. apply reconstruct_acc.
    + intros o v _ _ _. unfold cellR. rewrite la_at_cell, (In_polyArrays m junkR). ma. intros H; exfalso; lia.
    + intros ic v _ Hic _. unfold cellW. rewrite la_at_cell, at_of_at_cell, (In_polyArrays m junkR). split; auto.
      unfold polyA, aPoly. lia.
  - apply (cell_det fluxArrays). intros c Hc. apply fluxes_acc.
    + intros dir ic v n _ _ _ Hic _. nofp.
    + intros dir v Hd _ _. unfold cellW. rewrite la_at_cell, at_of_at_cell. eauto using aFlux_in.
  - apply (cell_det [aFlags]). intros c Hc. apply flags_acc.
    + intros v _ _. nofp.
    + intros dir n v _ Hd _ _. apply aFlux_in in Hd. nofp.
    + inW.
  - apply (cell_det fluxArrays). intros c Hc. apply recompute_acc.
    + nofp.
    + intros dir n v _ _ _. nofp.
    + intros dir v Hd _. unfold cellW. rewrite la_at_cell, at_of_at_cell. eauto using aFlux_in.
Qed.
Ltac upd_acc2 := intros c Hc; apply acc_if; intros Hi; [|apply acc_skip];
  repeat first [apply acc_bind; [first [apply acc_ldv; intros; nofp
    | apply acc_load_faces; intros ? ? ? HHd ? ?; apply aFlux_in in HHd; nofp]|intros ?]];
  apply acc_putv; intros; unfold cellW; rewrite la_at_cell, at_of_at_cell; cbn; auto.
Lemma update_det a b : stateA a -> stateA b -> a <> b -> ker_det (update m g a b).
Proof. intros Ha Hb Hn. apply (cell_det [b]). upd_acc2. Qed.
Lemma update2_det a b c : stateA a -> stateA b -> stateA c -> a <> c -> b <> c -> ker_det (update_ssprk2 m g a b c).
Proof. intros Ha Hb Hc0 Hn Hn'. rename c into d. apply (cell_det [d]). upd_acc2. Qed.
Lemma updatew_det a b c x y z : stateA a -> stateA b -> stateA c -> a <> c -> b <> c ->
  ker_det (update_weight m g a b c x y z).
Proof. intros Ha Hb Hc0 Hn Hn'. rename c into d. apply (cell_det [d]). upd_acc2. Qed.
Lemma copy_det dst src : dst <> src -> ker_det (T := T) (copy m g dst src).
Proof.
  intros Hn. apply (cell_det [dst]). intros [[i j] k] Hc. apply acc_for. intros v Hv.
  apply acc_bind; [apply acc_rd; intros H|intros x; apply acc_wr; split; cbn; auto].
  cbn in H. destruct H as [H|[]]. congruence.
Qed.


Lemma io_state aIn aOut : io aIn aOut -> stateA aIn /\ stateA aOut /\ aIn <> aOut /\ aIn <> aRK1 /\ aIn <> aRK2 /\
  aOut <> aRK1 /\ aOut <> aRK2.
Proof. intros [[-> ->]|[-> ->]]; ma; lia. Qed.

Theorem time_integration_det ti aIn aOut (s s1 s2 : store) : mood_ok m g -> io aIn aOut ->
  run_kernels (time_integration m p g dt junk junkR ti aIn aOut) s s1 ->
  run_kernels (time_integration m p g dt junk junkR ti aIn aOut) s s2 -> forall l, s1 l = s2 l.
Proof.
  intros Hok Hio. apply kers_det; [|reflexivity]. intros ps Hps.
  destruct (io_state _ _ Hio) as (SI & SO & N0 & N1 & N2 & N3 & N4).
  assert (S1 : stateA aRK1) by (ma; lia). assert (S2 : stateA aRK2) by (ma; lia).
  assert (N5 : aRK1 <> aRK2) by (ma; lia).
  unfold time_integration, forward_euler, ssprk2, ssprk3, ssprk54 in Hps.
  rewrite !in_app_iff in Hps.
  destruct Hps as [H|[[<-|[]]|H]]; [eauto using boundaries_det|apply copy_det; congruence|].
  destruct ti; rewrite ?in_app_iff in H; cbn [In] in H;
  repeat match goal with
  | H : _ \/ _ |- _ => destruct H as [H|H]
  | H : False |- _ => destruct H
  end; subst;
  lazymatch goal with
  | H : In _ (boundaries _ _ _) |- _ => eauto using boundaries_det
  | H : In _ (stage_fluxes _ _ _ _ _ _ _) |- _ => eauto using stage_det
  | |- ker_det (copy _ _ _ _) => apply copy_det; congruence
  | |- ker_det (update _ _ _ _) => apply update_det; auto
  | |- ker_det (update_ssprk2 _ _ _ _ _) => apply update2_det; auto
  | |- _ => apply updatew_det; auto
  end.
Qed.

(** ** Memory safety *)
Variable ti : integrator.
Notation P := (allocatedM m g ti).
Definition okA (a : Z) : Prop :=
  In a [aU; aU2] \/ (a = aRK1 /\ ti <> FE) \/ (a = aRK2 /\ (ti = RK3 \/ ti = RK54)).
Lemma okA_state a : okA a -> stateA a.
Proof. unfold okA. ma. cbn [In]. intuition lia. Qed.

Lemma box c : In c (cellsD b3 g) -> forall a v, let l := at_cell a c v in
  0 <= li l < isize g /\ 0 <= lj l < jsize g /\ (if b3 then 0 <= lk l < ksize g else lk l = 0).
Proof.
  intros Hc a v. apply In_cellsD in Hc. destruct Hc as [Hc Hz]. destruct c as [[i j] k]. cbn.
  repeat split; try apply (Hc IX); try apply (Hc IY); try (destruct b3; cbn; auto).
  apply (Hc IZ). cbn. auto.
Qed.
Lemma alloc_state a c v : mood_ok m g -> okA a -> In c (cellsD b3 g) -> 0 <= v < nv b3 -> P (at_cell a c v).
Proof.
  intros Hok Ha Hc Hv. destruct (mood_dims Hok) as (_ & _ & _ & _ & Hn).
  destruct (box c Hc a v) as (B1 & B2 & B3). split; [auto|split; [auto|split; [auto|]]].
  right. rewrite lv_at_cell, la_at_cell, Hn. split; auto. unfold okA in Ha. cbn [In] in *. intuition.
Qed.
Lemma alloc_flux dir c v : mood_ok m g -> In dir (dirs b3) -> In c (cellsD b3 g) -> 0 <= v < nv b3 -> P (at_cell (aFlux dir) c v).
Proof.
  intros Hok Hd Hc Hv. destruct (mood_dims Hok) as (_ & _ & _ & _ & Hn).
  destruct (box c Hc (aFlux dir) v) as (B1 & B2 & B3). split; [auto|split; [auto|split; [auto|]]].
  right. rewrite lv_at_cell, la_at_cell, Hn. split; auto. apply dirs_cases in Hd.
  destruct Hd as [->|[->|[-> Hd]]]; cbn; auto 6.
Qed.
Lemma alloc_poly ic c v : mood_ok m g -> 0 <= ic < Z.of_nat (ncoefs m) -> In c (cellsD b3 g) -> 0 <= v < nv b3 ->
  P (at_cell (aPoly ic) c v).
Proof.
  intros Hok Hic Hc Hv. destruct (mood_dims Hok) as (_ & _ & _ & _ & Hn).
  destruct (box c Hc (aPoly ic) v) as (B1 & B2 & B3). split; [auto|split; [auto|split; [auto|]]].
  right. rewrite lv_at_cell, la_at_cell, Hn. split; eauto 6.
Qed.
Lemma alloc_flag c : In c (cellsD b3 g) -> P (at_cell aFlags c 0).
Proof.
  intros Hc. destruct (box c Hc aFlags 0) as (B1 & B2 & B3). split; [auto|split; [auto|split; [auto|]]].
  left. rewrite la_at_cell, lv_at_cell. auto.
Qed.
(** Neighbours of interior and face cells are cells of the arrays. *)
Lemma near dir n c : mood_ok m g -> In c (cellsD b3 g) -> interior m g c = true -> In dir (dirs b3) -> -1 <= n <= 1 ->
  In (along_dir dir n c) (cellsD b3 g).
Proof.
  intros Hok Hc Hi Hd Hn. destruct (mood_dims Hok) as (Hw & _). apply In_cellsD in Hc. destruct Hc as [_ Hz].
  apply In_cellsD. split.
  - unfold interior in Hi. rewrite guard_spec in Hi. intros a Ha. rewrite (coord_along dir n c a b3) by auto.
    specialize (Hi a Ha). destruct (a =? dir); lia.
  - intros E. rewrite E in Hd. rewrite coord_along_Z; auto.
Qed.
Lemma load_faces_safe c : mood_ok m g -> In c (cellsD b3 g) -> interior m g c = true -> acc (T := T) P P (load_faces m c).
Proof. intros Hok Hc Hi. apply acc_load_faces. intros. apply alloc_flux; auto. apply near; auto. lia. Qed.
Lemma boundaries_safe a : mood_ok m g -> okA a -> forall s, loops_safe (T := T) P (boundaries m g a) s.
Proof.
  intros Hok Ha. destruct (mood_dims Hok) as (Hw & Hx & Hy & Hz & Hn). apply static_loops. intros ps q Hps Hq.
  assert (M : forall R : loc -> Prop, accesses_in R q -> (forall l, R l -> P l) -> accesses_in P q).
  { intros R (R1 & R2 & R3) HR. repeat split.
    - eapply reads_in_mono; eauto.
    - eapply writes_in_mono; eauto.
    - eapply rmws_in_mono; eauto. }
  assert (Hin : forall l, la l = a -> 0 <= lv l < nbvar g -> In (at_of l) (cellsD b3 g) -> P l).
  { intros l E Hv Hc. rewrite (at_cell_eta l), E. apply alloc_state; auto. rewrite <- Hn. auto. }
  unfold boundaries in Hps. destruct b3 eqn:Eb.
  - apply (M (alloc3d g a)); [eapply fill3_safe; eauto; try lia; specialize (Hz eq_refl); lia|].
    intros l (L1 & L2 & L3 & L4 & L5). apply Hin; auto.
    destruct l as [a' i j k v]. cbn [at_of li lj lk cellsD] in *. apply In_cells3.
    cbn. unfold isize, jsize, ksize, imax, imin, jmax, jmin, kmax, kmin. lia.
  - apply (M (alloc2d g a)); [eapply fill2_safe; eauto; lia|].
    intros l (L1 & L2 & L3 & L4 & L5). apply Hin; auto.
    destruct l as [a' i j k v]. cbn [at_of li lj lk cellsD] in *. apply In_cells2.
    cbn. unfold isize, jsize, imax, imin, jmax, jmin. lia.
Qed.
Lemma copy_safe dst src : mood_ok m g -> okA dst -> okA src -> forall q, In q (copy m g dst src) -> accesses_in (T := T) P q.
Proof.
  intros Hok H1 H2 q Hq. unfold copy, deep_copy in Hq. apply in_map_iff in Hq. destruct Hq as ([[i j] k] & <- & Hc).
  destruct (mood_dims Hok) as (_ & _ & _ & _ & Hn).
  apply acc_accesses. apply acc_for. intros v Hv. apply In_zrange in Hv. rewrite Hn in Hv.
  apply acc_bind; [apply acc_rd|intros x; apply acc_wr]; apply (alloc_state _ (i, j, k)); auto.
Qed.
Ltac cells Hq := apply in_map_iff in Hq; let c := fresh "c" in let Hc := fresh "Hc" in
  destruct Hq as (c & <- & Hc); apply acc_accesses.
Lemma stage_safe aIn (s : store) : mood_ok m g -> okA aIn -> ltb zero zero = false ->
  loops_safe P (stage_fluxes m p g dt junk junkR aIn) s.
Proof.
  intros Hok Ha H0. destruct (mood_dims Hok) as (Hw & _).
  assert (Hw1 : 1 <= gw g) by lia.
  unfold stage_fluxes. cbn [loops_safe]. split; [|intros s1 K1; split; [|intros s2 K2; split; [|intros s3 K3; split; auto]]].
  - apply static_safe. intros q Hq. cells Hq. apply reconstruct_acc.
    + intros o v Hr Ho Hv. apply alloc_state; auto. apply In_cellsD in Hc. destruct Hc as [_ Hz]. destruct o as [[x y] z].
      apply recon_shift; auto. cbn [In]. destruct Ho; auto.
    + intros ic v Hr Hic Hv. apply alloc_poly; auto.
  - apply static_safe. intros q Hq. cells Hq. apply fluxes_acc.
    + intros dir ic v n Hd Hf Hn Hic Hv. apply alloc_poly; auto. apply In_cellsD in Hc. destruct Hc as [Hc Hz].
      destruct Hn as [->| ->].
      * replace (along_dir dir 0 c) with c; [apply In_cellsD; split; auto|].
        unfold along_dir, unit_vec. destruct (dir =? IX); [|destruct (dir =? IY)]; symmetry; apply shift_0.
      * apply (face_guard_back m g junk junkR dir); auto.
    + intros dir v Hd Hf Hv. apply alloc_flux; auto.
  - apply static_safe. intros q Hq. cells Hq. apply flags_acc.
    + intros v Hi Hv. apply alloc_state; auto.
    + intros dir n v Hi Hd Hn Hv. apply alloc_flux; auto. apply near; auto. lia.
    + apply alloc_flag; auto.
  - apply (flags_spec m p g junk junkR) in K3; [|apply okA_state; auto]. destruct K3 as (F1 & _).
    apply (guarded_safe P (fun l => la l = aFlags)). intros q Hq. apply in_map_iff in Hq. destruct Hq as (c & <- & Hc).
    assert (Hacc : acc (fun _ => True) (fun l => In (la l) fluxArrays) (recompute_body m p dt aIn c)).
    { apply recompute_acc; auto. intros dir v Hd _. rewrite la_at_cell. eauto using aFlux_in. }
    destruct Hacc as (A1 & _ & A3). split; [|split; auto].
    + destruct (interior m g c) eqn:Hi.
      * left. apply acc_accesses. apply recompute_acc; [apply alloc_flag; auto| |].
        -- intros dir n v Hd Hn Hv. apply alloc_state; auto. apply near; auto. lia.
        -- intros dir v Hd Hv. apply alloc_flux; auto.
      * right. exists (at_cell aFlags c 0). eexists. split; [reflexivity|]. split; [apply alloc_flag; auto|].
        split; [apply la_at_cell|]. rewrite F1 by auto. unfold flagF. rewrite Hi. cbn [bind].
        apply acc_accesses. apply acc_for. intros dir _. rewrite H0. apply acc_skip.
    + revert A3. apply writes_in_mono. intros l Hl E. rewrite E in Hl. ma. cbn [In] in Hl. lia.
Qed.
Ltac upd_safe := intros q Hq; cells Hq; apply acc_if; intros Hi; [|apply acc_skip];
  repeat (apply acc_bind; [first [apply acc_ldv; intros; apply alloc_state; auto|apply load_faces_safe; auto]|intros ?]);
  apply acc_putv; intros; apply alloc_state; auto.
Lemma update_safe a b : mood_ok m g -> okA a -> okA b -> forall q, In q (update m g a b) -> accesses_in (T := T) P q.
Proof. intros Hok Ha Hb. upd_safe. Qed.
Lemma update2_safe a b d : mood_ok m g -> okA a -> okA b -> okA d ->
  forall q, In q (update_ssprk2 m g a b d) -> accesses_in (T := T) P q.
Proof. intros Hok Ha Hb Hd. upd_safe. Qed.
Lemma updatew_safe a b d x y z : mood_ok m g -> okA a -> okA b -> okA d ->
  forall q, In q (update_weight m g a b d x y z) -> accesses_in (T := T) P q.
Proof. intros Hok Ha Hb Hd. upd_safe. Qed.

Theorem time_integration_safe aIn aOut (s : store) : mood_ok m g -> io aIn aOut -> ltb zero zero = false ->
  loops_safe P (time_integration m p g dt junk junkR ti aIn aOut) s.
Proof.
  intros Hok Hio H0.
  assert (OI : okA aIn) by (left; destruct Hio as [[-> _]|[-> _]]; cbn; auto).
  assert (OO : okA aOut) by (left; destruct Hio as [[_ ->]|[_ ->]]; cbn; auto).
  assert (one_loop : forall ps, (forall q, In q ps -> accesses_in (T := T) P q) -> forall s, loops_safe P [ps] s).
  { intros ps Hps. apply static_loops. intros ps' q [<-|[]]. apply Hps. }
  unfold time_integration.
  apply loops_safe_app; [apply boundaries_safe; auto|intros t1 _].
  apply loops_safe_app; [apply one_loop, copy_safe; auto|intros t2 _].
  assert (O1 : ti <> FE -> okA aRK1) by (unfold okA; auto).
  assert (O2 : ti = RK3 -> okA aRK2) by (unfold okA; auto).
  cut (forall t, t = ti -> loops_safe P (match t with
    | FE => forward_euler m p g dt junk junkR aIn aOut | RK2 => ssprk2 m p g dt junk junkR aIn aOut
    | RK3 => ssprk3 m p g dt junk junkR aIn aOut | RK54 => ssprk54 m g aIn aOut end) t2).
  { intros H. apply H. reflexivity. }
  intros t Ht.
  assert (O1' : t <> FE -> okA aRK1) by (intros H; apply O1; congruence).
  assert (O2' : t = RK3 -> okA aRK2) by (intros H; apply O2; congruence).
  destruct t; unfold forward_euler, ssprk2, ssprk3, ssprk54;
  try (specialize (O1' ltac:(discriminate))); try (specialize (O2' eq_refl));
  repeat match goal with
  | |- loops_safe _ ?k _ =>
    lazymatch k with
    | ?a ++ _ =>
      apply loops_safe_app; [|intros ? _]; [lazymatch a with
      | stage_fluxes _ _ _ _ _ _ _ => apply stage_safe; solve [auto]
      | boundaries _ _ _ => apply boundaries_safe; solve [auto]
      | [copy _ _ _ _] => apply one_loop, copy_safe; solve [auto]
      | [update _ _ _ _] => apply one_loop, update_safe; solve [auto]
      | [update_ssprk2 _ _ _ _ _] => apply one_loop, update2_safe; solve [auto]
      | _ => apply one_loop, updatew_safe; solve [auto]
      end|]
    | [copy _ _ _ _] => apply one_loop, copy_safe; solve [auto]
    | [update _ _ _ _] => apply one_loop, update_safe; solve [auto]
    | [update_ssprk2 _ _ _ _ _] => apply one_loop, update2_safe; solve [auto]
    | _ => apply one_loop, updatew_safe; solve [auto]
    end
  end.
Qed.
End MSafe.
