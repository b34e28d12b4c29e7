(** Fluxes, flags, recomputation and updates of the MOOD solver; one stage. *)
From Coq Require Import ZArith List Bool Lia.
From Verif Require Import Arith Par ParProofs GridModel BoundaryModel BoundarySpec BoundaryProofs
  HydroState RiemannModel HydroPoint HydroKernels CellKernels HydroField HydroExec HydroSpec HydroProofs2
  HydroStep2 MoodPoly MoodKernels MoodProofs.
Import ListNotations.
Open Scope Z_scope.
Open Scope prog_scope.

(** Arrays holding conservative states. *)
Definition stateA (a : Z) : Prop := a = aU \/ a = aU2 \/ a = aRK1 \/ a = aRK2.
Definition fluxArrays : list Z := [aFx; aFy; aFz].
Ltac ma := unfold stateA, polyA, fluxArrays, aFlags, aRK1, aRK2, aPoly, aFx, aFy, aFz, aU, aU2 in *.
Ltac nofp := unfold cellR; rewrite la_at_cell; ma; cbn [In]; let H := fresh in intros H; exfalso; cbn [In] in *; lia.
Lemma aFlux_in b d : In d (dirs b) -> In (aFlux d) fluxArrays.
Proof. intros H. apply dirs_cases in H. destruct H as [->|[->|[-> _]]]; cbn; auto. Qed.

Section MS.
Context {T : Type} {A : Arith T}.
Notation store := (store T).
Variable m : mcfg T.
Variable p : hparams T.
Variable g : grid.
Variable dt : T.
Variable junk : cell -> Z -> hs T.
Variable junkR : cell -> Z -> nat -> T.
Notation b3 := (d3 m).
Notation NC := (ncoefs m).

Lemma polyS_frame (s s' : store) c : (forall l, polyA m (la l) -> s' l = s l) -> polyS m s' c = polyS m s c.
Proof.
  intros H. assert (E : forall v, stored m s' c v = stored m s c v).
  { intros v. apply map_ext_in. intros ic Hic. apply In_zrange in Hic. apply H. rewrite la_at_cell.
    unfold polyA, aPoly. lia. }
  unfold polyS. rewrite !E. reflexivity.
Qed.

(** ** A loop over the directions in which each turn may store one flux *)
Lemma dirs_loop (body : Z -> prog T unit) (val : Z -> option (hs T)) c (s : store) ds :
  NoDup ds -> incl ds (dirs b3) ->
  (forall dir (s0 : store), In dir ds -> (forall l, ~ In (la l) fluxArrays -> s0 l = s l) ->
     exec (body dir) s0 = match val dir with Some q => exec (putv b3 (aFlux dir) c q) s0 | None => s0 end) ->
  forall s0, (forall l, ~ In (la l) fluxArrays -> s0 l = s l) ->
  (forall dir, In dir ds -> stF b3 (fv (exec (for_each ds body) s0) (aFlux dir)) c =
     match val dir with Some q => wn b3 q | None => stF b3 (fv s0 (aFlux dir)) c end) /\
  (forall l, (forall dir, In dir ds -> la l <> aFlux dir) -> exec (for_each ds body) s0 l = s0 l) /\
  (forall l, (forall dir, In dir ds -> val dir <> None -> la l <> aFlux dir) -> exec (for_each ds body) s0 l = s0 l).
Proof.
  intros Hnd. induction ds as [|d ds IH]; intros Hincl Hb s0 Hs0.
  - split; [intros dir []|]. split; intros; reflexivity.
  - inversion Hnd as [|d' ds' Hd Hds]; subst. cbn [for_each].
    assert (Hin : In d (dirs b3)) by (apply Hincl; left; auto).
    assert (Hincl' : incl ds (dirs b3)) by (intros x Hx; apply Hincl; right; auto).
    set (s1 := match val d with Some q => exec (putv b3 (aFlux d) c q) s0 | None => s0 end).
    assert (E1 : exec (body d) s0 = s1) by (apply Hb; auto; left; auto).
    assert (Ho : forall l, la l <> aFlux d -> s1 l = s0 l).
    { intros l Hl. unfold s1. destruct (val d); [apply putv_other; auto|reflexivity]. }
    assert (Hs1 : forall l, ~ In (la l) fluxArrays -> s1 l = s l).
    { intros l Hl. rewrite Ho; [auto|]. intros E. apply Hl. rewrite E. eapply aFlux_in; eauto. }
    destruct (IH Hds Hincl' (fun dir s2 Hdir H2 => Hb dir s2 (or_intror Hdir) H2) s1 Hs1) as (I1 & I2 & I3).
    assert (EE : exec (bind (body d) (fun _ => for_each ds body)) s0 = exec (for_each ds body) s1).
    { rewrite exec_bind, E1. reflexivity. }
    rewrite EE. split; [|split].
    + intros dir [<-|Hdir].
      * rewrite (stF_frame b3 s1).
        2:{ intros v. apply I2. intros d2 Hd2. rewrite la_at_cell. intros E. apply Hd.
            rewrite (aFlux_inj b3 d d2); auto. }
        unfold s1. destruct (val d); [apply putv_same|reflexivity].
      * rewrite I1 by auto. destruct (val dir); [reflexivity|].
        apply stF_frame. intros v. apply Ho. rewrite la_at_cell. intros E. apply Hd.
        rewrite <- (aFlux_inj b3 dir d); auto.
    + intros l Hl. rewrite I2 by (intros d2 Hd2; apply Hl; right; auto). apply Ho. apply Hl. left; auto.
    + intros l Hl. rewrite I3 by (intros d2 Hd2 Hv2; apply Hl; [right; auto|auto]).
      unfold s1. destruct (val d) eqn:Ev; [|reflexivity]. apply putv_other. left. apply Hl; [left; auto|congruence].
Qed.

(** ** Fluxes *)
Lemma fluxes_acc (R W : loc -> Prop) c :
  (forall dir icoef v n, In dir (dirs b3) -> face_guard m g dir c = true -> n = 0 \/ n = -1 ->
     0 <= icoef < Z.of_nat NC -> 0 <= v < nv b3 -> R (at_cell (aPoly icoef) (along_dir dir n c) v)) ->
  (forall dir v, In dir (dirs b3) -> face_guard m g dir c = true -> 0 <= v < nv b3 -> W (at_cell (aFlux dir) c v)) ->
  acc R W (fluxes_body m p g dt junk c).
Proof.
  intros HR HW. unfold fluxes_body. apply acc_for. intros dir Hd. apply acc_if; intros Hf; [|apply acc_skip].
  apply acc_bind.
  { apply acc_load_poly. intros ic v Hic Hv.
    replace c with (along_dir dir 0 c); [apply HR; auto|].
    unfold along_dir, unit_vec. destruct (dir =? IX); [|destruct (dir =? IY)]; apply shift_0. }
  intros PR. apply acc_bind; [apply acc_load_poly; intros; apply HR; auto|]. intros PL.
  apply acc_putv. intros; apply HW; auto.
Qed.

Definition highS (s : store) (dir : Z) (c : cell) : hs T :=
  high_flux m p dt (polyS m s (along_dir dir (-1) c)) (polyS m s c) dir (junk c dir).

Lemma fluxes_spec (s s' : store) : par_exec s (compute_fluxes m p g dt junk) s' ->
  (forall dir c, In dir (dirs b3) -> In c (cellsD b3 g) ->
     stF b3 (fv s' (aFlux dir)) c =
     if face_guard m g dir c then wn b3 (highS s dir c) else stF b3 (fv s (aFlux dir)) c) /\
  (forall l, ~ In (la l) fluxArrays -> s' l = s l) /\
  (forall l, ~ In (at_of l) (cellsD b3 g) -> s' l = s l).
Proof.
  intros Hex. unfold compute_fluxes in Hex.
  assert (Hok : forall c, In c (cellsD b3 g) -> cellprog fluxArrays c (fluxes_body m p g dt junk c)).
  { intros c Hc. apply fluxes_acc.
    - intros dir ic v n _ _ _ Hic _. nofp.
    - intros dir v Hd _ _. unfold cellW. rewrite la_at_cell, at_of_at_cell. eauto using aFlux_in. }
  destruct (cellwise_spec _ _ _ s s' (NoDup_cellsD b3 g) Hok Hex) as [H1 H2].
  split; [|split].
  - intros dir c Hd Hc.
    assert (Hb : forall dir (s0 : store), In dir (dirs b3) -> (forall l, ~ In (la l) fluxArrays -> s0 l = s l) ->
      exec (if face_guard m g dir c then
          PR <- load_poly m c ;; PL <- load_poly m (along_dir dir (-1) c) ;;
          putv b3 (aFlux dir) c (high_flux m p dt PL PR dir (junk c dir)) else skip) s0 =
      match (if face_guard m g dir c then Some (highS s dir c) else None) with
      | Some q => exec (putv b3 (aFlux dir) c q) s0 | None => s0 end).
    { intros d s0 Hd' Hs0. destruct (face_guard m g d c); [|reflexivity].
      rewrite exec_load_poly, exec_load_poly. unfold highS.
      rewrite !(polyS_frame s s0) by (intros l Hl; apply Hs0; ma; cbn [In]; lia). reflexivity. }
    destruct (dirs_loop _ _ c s (dirs b3) (dirs_NoDup b3) (fun x H => H) Hb s (fun l _ => eq_refl)) as (D1 & _ & _).
    specialize (D1 dir Hd).
    rewrite (stF_frame b3 (exec (fluxes_body m p g dt junk c) s)).
    2:{ intros v. rewrite H1; rewrite ?la_at_cell, ?at_of_at_cell; eauto using aFlux_in. }
    unfold fluxes_body. rewrite D1. destruct (face_guard m g dir c); reflexivity.
  - intros l Hl. apply H2. tauto.
  - intros l Hl. apply H2. tauto.
Qed.

(** ** Flags *)
Definition facesF (F : Z -> cell -> hs T) (c : cell) : list (hs T * hs T) :=
  map (fun dir => (F dir c, F dir (along_dir dir 1 c))) (dirs b3).
Definition fluxS (s : store) (dir : Z) (c : cell) : hs T := stF b3 (fv s (aFlux dir)) c.

Lemma exec_load_faces {B} c (f : _ -> prog T B) (s : store) :
  exec (bind (load_faces m c) f) s = exec (f (facesF (fluxS s) c)) s.
Proof.
  unfold load_faces, facesF. apply (exec_load_all _ (fun dir => (fluxS s dir c, fluxS s dir (along_dir dir 1 c)))).
  intros dir k Hd. rewrite exec_assoc, exec_ldv, exec_assoc, exec_ldv. reflexivity.
Qed.
Lemma acc_load_faces (R W : loc -> Prop) c :
  (forall dir n v, In dir (dirs b3) -> n = 0 \/ n = 1 -> 0 <= v < nv b3 -> R (at_cell (aFlux dir) (along_dir dir n c) v)) ->
  acc R W (load_faces m c).
Proof.
  intros H. apply acc_load_all. intros dir Hd. apply acc_bind.
  { apply acc_ldv. intros v Hv. replace c with (along_dir dir 0 c); [apply H; auto|].
    unfold along_dir, unit_vec. destruct (dir =? IX); [|destruct (dir =? IY)]; apply shift_0. }
  intros f. apply acc_bind; [apply acc_ldv; intros; apply H; auto|]. intros; apply acc_ret.
Qed.
Lemma flags_acc (R W : loc -> Prop) aIn c :
  (forall v, interior m g c = true -> 0 <= v < nv b3 -> R (at_cell aIn c v)) ->
  (forall dir n v, interior m g c = true -> In dir (dirs b3) -> n = 0 \/ n = 1 -> 0 <= v < nv b3 ->
     R (at_cell (aFlux dir) (along_dir dir n c) v)) ->
  W (at_cell aFlags c 0) -> acc R W (flags_body m p g aIn c).
Proof.
  intros H1 H2 HW. unfold flags_body. apply acc_bind; [apply acc_wr; auto|intros _].
  apply acc_if; intros Hi; [|apply acc_skip].
  apply acc_bind; [apply acc_ldv; intros; apply H1; auto|intros u].
  apply acc_bind; [apply acc_load_faces; intros; apply H2; auto|intros fs]. apply acc_wr; auto.
Qed.
(** Flag of a cell from its state and the fluxes. *)
Definition flagF (V : cell -> Z -> T) (F : Z -> cell -> hs T) (c : cell) : T :=
  if interior m g c then flag_value m p (stF b3 V c) (facesF F c) else zero.

Lemma facesF_ext (F F' : Z -> cell -> hs T) c :
  (forall dir n, In dir (dirs b3) -> n = 0 \/ n = 1 -> F dir (along_dir dir n c) = F' dir (along_dir dir n c)) ->
  facesF F c = facesF F' c.
Proof.
  intros H. apply map_ext_in. intros dir Hd.
  assert (E : along_dir dir 0 c = c).
  { unfold along_dir, unit_vec. destruct (dir =? IX); [|destruct (dir =? IY)]; apply shift_0. }
  rewrite <- E at 1 3. rewrite !H by auto. reflexivity.
Qed.

Lemma flags_spec aIn (s s' : store) : stateA aIn -> par_exec s (compute_flags m p g aIn) s' ->
  (forall c, In c (cellsD b3 g) -> s' (at_cell aFlags c 0) = flagF (fv s aIn) (fluxS s) c) /\
  (forall l, la l <> aFlags -> s' l = s l) /\
  (forall l, ~ In (at_of l) (cellsD b3 g) -> s' l = s l).
Proof.
  intros Ha Hex. unfold compute_flags in Hex.
  assert (Hok : forall c, In c (cellsD b3 g) -> cellprog [aFlags] c (flags_body m p g aIn c)).
  { intros c Hc. apply flags_acc.
    - intros v _ _. nofp.
    - intros dir n v _ Hd _ _. apply aFlux_in in Hd. nofp.
    - unfold cellW. rewrite la_at_cell, at_of_at_cell. cbn. auto. }
  destruct (cellwise_spec _ _ _ s s' (NoDup_cellsD b3 g) Hok Hex) as [H1 H2].
  split; [|split].
  - intros c Hc. rewrite H1; rewrite ?la_at_cell, ?at_of_at_cell; [|cbn; auto|auto].
    unfold flags_body, flagF. rewrite exec_wr. destruct (interior m g c).
    + rewrite exec_ldv, exec_load_faces. unfold exec; cbn [run wr snd]. rewrite upd_cell_same. cbn [Z.eqb].
      f_equal.
      * apply stF_frame. intros v. apply upd_cell_other. left. rewrite la_at_cell. ma. lia.
      * apply facesF_ext. intros dir n Hd _. unfold fluxS. apply stF_frame. intros v. apply upd_cell_other.
        left. rewrite la_at_cell. apply aFlux_in in Hd. ma. cbn [In] in Hd. lia.
    + unfold exec; cbn [run skip snd]. rewrite upd_cell_same. reflexivity.
  - intros l Hl. apply H2. cbn. intuition.
  - intros l Hl. apply H2. tauto.
Qed.

(** ** Recomputation *)
Lemma recompute_acc (R W : loc -> Prop) aIn c :
  R (at_cell aFlags c 0) ->
  (forall dir n v, In dir (dirs b3) -> n = 0 \/ n = -1 -> 0 <= v < nv b3 -> R (at_cell aIn (along_dir dir n c) v)) ->
  (forall dir v, In dir (dirs b3) -> 0 <= v < nv b3 -> W (at_cell (aFlux dir) c v)) ->
  acc R W (recompute_body m p dt aIn c).
Proof.
  intros HF HR HW. unfold recompute_body. apply acc_bind; [apply acc_rd; auto|]. intros flag.
  apply acc_for. intros dir Hd. apply acc_if; intros _; [|apply acc_skip].
  apply acc_bind; [apply acc_ldv; intros; apply HR; auto|intros uL].
  apply acc_bind.
  { apply acc_ldv. intros v Hv. replace c with (along_dir dir 0 c); [apply HR; auto|].
    unfold along_dir, unit_vec. destruct (dir =? IX); [|destruct (dir =? IY)]; apply shift_0. }
  intros uR. apply acc_putv. intros; apply HW; auto.
Qed.
Definition lowF (V : cell -> Z -> T) (dir : Z) (c : cell) : hs T :=
  low_flux m p dt (stF b3 V (along_dir dir (-1) c)) (stF b3 V c) dir (HS zero zero zero zero zero).

Lemma recompute_spec aIn (s s' : store) : stateA aIn -> par_exec s (recompute m p g dt aIn) s' ->
  (forall dir c, In dir (dirs b3) -> In c (cellsD b3 g) ->
     stF b3 (fv s' (aFlux dir)) c =
     if ltb zero (s (at_cell aFlags c 0)) then wn b3 (lowF (fv s aIn) dir c) else stF b3 (fv s (aFlux dir)) c) /\
  (forall l, ~ In (la l) fluxArrays -> s' l = s l) /\
  (forall l, ~ In (at_of l) (cellsD b3 g) -> s' l = s l).
Proof.
  intros Ha Hex. unfold recompute in Hex.
  assert (Hok : forall c, In c (cellsD b3 g) -> cellprog fluxArrays c (recompute_body m p dt aIn c)).
  { intros c Hc. apply recompute_acc.
    - nofp.
    - intros dir n v _ _ _. nofp.
    - intros dir v Hd _. unfold cellW. rewrite la_at_cell, at_of_at_cell. eauto using aFlux_in. }
  destruct (cellwise_spec _ _ _ s s' (NoDup_cellsD b3 g) Hok Hex) as [H1 H2].
  split; [|split].
  - intros dir c Hd Hc. set (flag := s (at_cell aFlags c 0)).
    assert (Hb : forall dir (s0 : store), In dir (dirs b3) -> (forall l, ~ In (la l) fluxArrays -> s0 l = s l) ->
      exec (if ltb zero flag then
          uL <- ldv b3 aIn (along_dir dir (-1) c) ;; uR <- ldv b3 aIn c ;;
          putv b3 (aFlux dir) c (low_flux m p dt uL uR dir (HS zero zero zero zero zero)) else skip) s0 =
      match (if ltb zero flag then Some (lowF (fv s aIn) dir c) else None) with
      | Some q => exec (putv b3 (aFlux dir) c q) s0 | None => s0 end).
    { intros d s0 Hd' Hs0. destruct (ltb zero flag); [|reflexivity].
      rewrite exec_ldv, exec_ldv. unfold lowF.
      assert (Es : forall c0, stF b3 (fv s0 aIn) c0 = stF b3 (fv s aIn) c0).
      { intros c0. apply stF_frame. intros v. apply Hs0. rewrite la_at_cell. ma. cbn [In]. lia. }
      rewrite !Es. reflexivity. }
    destruct (dirs_loop _ _ c s (dirs b3) (dirs_NoDup b3) (fun x H => H) Hb s (fun l _ => eq_refl)) as (D1 & _ & _).
    specialize (D1 dir Hd).
    rewrite (stF_frame b3 (exec (recompute_body m p dt aIn c) s)).
    2:{ intros v. rewrite H1; rewrite ?la_at_cell, ?at_of_at_cell; eauto using aFlux_in. }
    unfold recompute_body. rewrite exec_rd. fold flag. rewrite D1. destruct (ltb zero flag); reflexivity.
  - intros l Hl. apply H2. tauto.
  - intros l Hl. apply H2. tauto.
Qed.

(** ** Updates *)
Lemma update_gen aNew (F : cell -> store -> hs T) (body : cell -> prog T unit) (s s' : store) :
  stateA aNew ->
  (forall c, cellprog [aNew] c (body c)) ->
  (forall c s0, exec (body c) s0 = if interior m g c then exec (putv b3 aNew c (F c s0)) s0 else s0) ->
  par_exec s (md_for (cellsD b3 g) body) s' ->
  (forall c, In c (cellsD b3 g) -> interior m g c = true -> stF b3 (fv s' aNew) c = wn b3 (F c s)) /\
  (forall l, la l <> aNew \/ interior m g (at_of l) = false -> s' l = s l) /\
  (forall l, ~ In (at_of l) (cellsD b3 g) -> s' l = s l).
Proof.
  intros Ha Hok He Hex.
  destruct (cellwise_spec [aNew] _ _ s s' (NoDup_cellsD b3 g) (fun c _ => Hok c) Hex) as [H1 H2].
  split; [|split].
  - intros c Hc Hi. rewrite (stF_frame b3 (exec (body c) s)).
    2:{ intros v. rewrite H1; rewrite ?la_at_cell, ?at_of_at_cell; cbn; auto. }
    rewrite He, Hi. apply putv_same.
  - intros l Hl. destruct (Z.eq_dec (la l) aNew) as [E|N]; [|apply H2; cbn; intuition].
    destruct Hl as [Hl|Hl]; [contradiction|].
    destruct (in_dec cell_eq_dec (at_of l) (cellsD b3 g)) as [Hc|Hc]; [|apply H2; tauto].
    rewrite H1 by (cbn; auto). rewrite He, Hl. reflexivity.
  - intros l Hl. apply H2. tauto.
Qed.

Definition updF (V : cell -> Z -> T) (F : Z -> cell -> hs T) (c : cell) : hs T :=
  each (fun sel => add_faces sel (facesF F c) (sel (stF b3 V c))).
Definition updF2 (V W : cell -> Z -> T) (F : Z -> cell -> hs T) (c : cell) : hs T :=
  each (fun sel => mul half (add_faces sel (facesF F c) (add (sel (stF b3 V c)) (sel (stF b3 W c))))).
Definition updFw (V W : cell -> Z -> T) (F : Z -> cell -> hs T) (a b w : T) (c : cell) : hs T :=
  each (fun sel => add (add (mul a (sel (stF b3 V c))) (mul b (sel (stF b3 W c)))) (mul w (faces_only sel (facesF F c)))).

Ltac upd_acc := intros c; apply acc_if; intros _; [|apply acc_skip];
  repeat first [apply acc_bind; [first [apply acc_ldv; intros; nofp
    | apply acc_load_faces; intros ? ? ? HHd ? ?; apply aFlux_in in HHd; nofp]|intros ?]];
  apply acc_putv; intros; unfold cellW; rewrite la_at_cell, at_of_at_cell; cbn; auto.

Lemma update_spec aOld aNew (s s' : store) : stateA aOld -> stateA aNew -> aOld <> aNew ->
  par_exec s (update m g aOld aNew) s' ->
  (forall c, In c (cellsD b3 g) -> interior m g c = true -> stF b3 (fv s' aNew) c = wn b3 (updF (fv s aOld) (fluxS s) c)) /\
  (forall l, la l <> aNew \/ interior m g (at_of l) = false -> s' l = s l) /\
  (forall l, ~ In (at_of l) (cellsD b3 g) -> s' l = s l).
Proof.
  intros H1 H2 Hne Hex. apply (update_gen aNew (fun c s0 => updF (fv s0 aOld) (fluxS s0) c)) in Hex; auto.
  - upd_acc.
  - intros c s0. destruct (interior m g c); [|reflexivity]. rewrite exec_ldv, exec_load_faces. reflexivity.
Qed.
Lemma update_ssprk2_spec aOld aRK aNew (s s' : store) :
  stateA aOld -> stateA aRK -> stateA aNew -> aOld <> aNew -> aRK <> aNew ->
  par_exec s (update_ssprk2 m g aOld aRK aNew) s' ->
  (forall c, In c (cellsD b3 g) -> interior m g c = true ->
     stF b3 (fv s' aNew) c = wn b3 (updF2 (fv s aOld) (fv s aRK) (fluxS s) c)) /\
  (forall l, la l <> aNew \/ interior m g (at_of l) = false -> s' l = s l) /\
  (forall l, ~ In (at_of l) (cellsD b3 g) -> s' l = s l).
Proof.
  intros H1 H1' H2 Hne Hne' Hex.
  apply (update_gen aNew (fun c s0 => updF2 (fv s0 aOld) (fv s0 aRK) (fluxS s0) c)) in Hex; auto.
  - upd_acc.
  - intros c s0. destruct (interior m g c); [|reflexivity]. rewrite exec_ldv, exec_ldv, exec_load_faces. reflexivity.
Qed.
Lemma update_weight_spec aOld aRK aNew a b w (s s' : store) :
  stateA aOld -> stateA aRK -> stateA aNew -> aOld <> aNew -> aRK <> aNew ->
  par_exec s (update_weight m g aOld aRK aNew a b w) s' ->
  (forall c, In c (cellsD b3 g) -> interior m g c = true ->
     stF b3 (fv s' aNew) c = wn b3 (updFw (fv s aOld) (fv s aRK) (fluxS s) a b w c)) /\
  (forall l, la l <> aNew \/ interior m g (at_of l) = false -> s' l = s l) /\
  (forall l, ~ In (at_of l) (cellsD b3 g) -> s' l = s l).
Proof.
  intros H1 H1' H2 Hne Hne' Hex.
  apply (update_gen aNew (fun c s0 => updFw (fv s0 aOld) (fv s0 aRK) (fluxS s0) a b w c)) in Hex; auto.
  - upd_acc.
  - intros c s0. destruct (interior m g c); [|reflexivity]. rewrite exec_ldv, exec_ldv, exec_load_faces. reflexivity.
Qed.

(** ** One stage *)
(** Fluxes after the four loops: [P] gives the polynomials that the flux loop
    finds. *)
Definition highP (P : cell -> hs (list T)) (dir : Z) (c : cell) : hs T :=
  wn b3 (high_flux m p dt (P (along_dir dir (-1) c)) (P c) dir (junk c dir)).
Definition flagP (P : cell -> hs (list T)) (V : cell -> Z -> T) (c : cell) : bool :=
  ltb zero (flagF V (highP P) c).
Definition finalF (P : cell -> hs (list T)) (V : cell -> Z -> T) (dir : Z) (c : cell) : hs T :=
  if flagP P V c then wn b3 (lowF V dir c) else highP P dir c.

Lemma face_guard_in dir c : 1 <= gw g -> face_guard m g dir c = true -> (b3 = false -> coord c IZ = 0) ->
  In c (cellsD b3 g).
Proof.
  intros Hg Hf Hz. apply In_cellsD. split; [|auto]. unfold face_guard in Hf. rewrite guard_spec in Hf.
  intros a Ha. specialize (Hf a Ha). destruct (a =? dir); lia.
Qed.
Lemma face_guard_back dir c : 1 <= gw g -> In dir (dirs b3) -> face_guard m g dir c = true -> (b3 = false -> coord c IZ = 0) ->
  In (along_dir dir (-1) c) (cellsD b3 g).
Proof.
  intros Hg Hd Hf Hz. apply In_cellsD. split.
  - unfold face_guard in Hf. rewrite guard_spec in Hf.
    intros a Ha. rewrite (coord_along dir _ c a b3) by auto. specialize (Hf a Ha). destruct (a =? dir); lia.
  - intros H. rewrite H in Hd. rewrite coord_along_Z; auto.
Qed.
Lemma interior_face dir n c : In dir (dirs b3) -> n = 0 \/ n = 1 -> interior m g c = true ->
  face_guard m g dir (along_dir dir n c) = true.
Proof.
  intros Hd Hn Hi. unfold interior in Hi. unfold face_guard. rewrite guard_spec in *. intros a Ha.
  rewrite (coord_along dir n c a b3) by auto. specialize (Hi a Ha). destruct (a =? dir); lia.
Qed.
Lemma along_flat dir n c : In dir (dirs b3) -> (b3 = false -> coord c IZ = 0) ->
  (b3 = false -> coord (along_dir dir n c) IZ = 0).
Proof. intros Hd H E. rewrite E in Hd. rewrite coord_along_Z; auto. Qed.
Lemma cell_flat c : In c (cellsD b3 g) -> b3 = false -> coord c IZ = 0.
Proof. intros H. apply In_cellsD in H. apply H. Qed.

Definition scratchA (a : Z) : Prop := In a fluxArrays \/ a = aFlags \/ polyA m a.

Lemma flagF_ext V F F' c : (b3 = false -> coord c IZ = 0) ->
  (forall dir c', In dir (dirs b3) -> face_guard m g dir c' = true -> (b3 = false -> coord c' IZ = 0) -> F dir c' = F' dir c') ->
  flagF V F c = flagF V F' c.
Proof.
  intros Hz H. unfold flagF. destruct (interior m g c) eqn:Hi; [|reflexivity].
  rewrite (facesF_ext F F'); [reflexivity|]. intros dir n Hd Hn. apply H; auto.
  - apply interior_face; auto.
  - apply along_flat; auto.
Qed.

Lemma stage_spec aIn (s s' : store) : (0 < NC)%nat -> 1 <= gw g -> stateA aIn ->
  run_kernels (stage_fluxes m p g dt junk junkR aIn) s s' ->
  let P := polyAfter m g junkR s aIn in
  (forall dir c, In dir (dirs b3) -> In c (cellsD b3 g) -> face_guard m g dir c = true ->
     fluxS s' dir c = finalF P (fv s aIn) dir c) /\
  (forall l, ~ scratchA (la l) -> s' l = s l) /\
  (forall l, ~ In (at_of l) (cellsD b3 g) -> s' l = s l) /\
  (forall c, In c (cellsD b3 g) -> polyS m s' c = P c) /\
  (forall c, In c (cellsD b3 g) -> s' (at_cell aFlags c 0) = flagF (fv s aIn) (highP P) c).
Proof.
  intros HNC Hg Ha Hk P. unfold stage_fluxes in Hk.
  apply rk_inv in Hk. destruct Hk as (s1 & K1 & Hk).
  apply rk_inv in Hk. destruct Hk as (s2 & K2 & Hk).
  apply rk_inv in Hk. destruct Hk as (s3 & K3 & Hk).
  apply rk_inv in Hk. destruct Hk as (s4 & K4 & Hk). apply rk_nil_inv in Hk. subst s4.
  apply reconstruct_spec in K1; auto. 2:{ ma. lia. } destruct K1 as (R1 & R2 & R3).
  apply fluxes_spec in K2. destruct K2 as (F1 & F2 & F3).
  apply flags_spec in K3; auto. destruct K3 as (G1 & G2 & G3).
  apply recompute_spec in K4; auto. destruct K4 as (C1 & C2 & C3).
  assert (EV1 : forall c, stF b3 (fv s1 aIn) c = stF b3 (fv s aIn) c).
  { intros c. apply stF_frame. intros v. apply R2. rewrite la_at_cell. ma. lia. }
  assert (EV2 : forall c, stF b3 (fv s2 aIn) c = stF b3 (fv s aIn) c).
  { intros c. rewrite <- EV1. apply stF_frame. intros v. apply F2. rewrite la_at_cell. ma. cbn [In]. lia. }
  assert (EV3 : forall c, stF b3 (fv s3 aIn) c = stF b3 (fv s aIn) c).
  { intros c. rewrite <- EV2. apply stF_frame. intros v. apply G2. rewrite la_at_cell. ma. lia. }
  assert (EF : forall dir c, In dir (dirs b3) -> face_guard m g dir c = true -> (b3 = false -> coord c IZ = 0) ->
     fluxS s2 dir c = highP P dir c).
  { intros dir c Hd Hf Hz. unfold fluxS. rewrite F1 by (auto; eapply face_guard_in; eauto). rewrite Hf.
    unfold highP, highS. rewrite !R1 by (first [eapply face_guard_in; eauto; fail | eapply face_guard_back; eauto]).
    reflexivity. }
  assert (EG : forall c, In c (cellsD b3 g) -> s3 (at_cell aFlags c 0) = flagF (fv s aIn) (highP P) c).
  { intros c Hc. rewrite G1 by auto.
    assert (flagF (fv s2 aIn) (fluxS s2) c = flagF (fv s aIn) (fluxS s2) c) as ->.
    { unfold flagF. destruct (interior m g c); [|reflexivity]. rewrite EV2. reflexivity. }
    apply flagF_ext; [apply cell_flat; auto|auto]. }
  split; [|split; [|split; [|split]]].
  - intros dir c Hd Hc Hf. unfold fluxS. rewrite C1 by auto. rewrite EG by auto.
    unfold finalF, flagP. destruct (ltb zero _).
    + f_equal. unfold lowF. rewrite !EV3. reflexivity.
    + rewrite <- EF by (auto; apply cell_flat; auto). apply stF_frame. intros v. apply G2. rewrite la_at_cell.
      apply aFlux_in in Hd. ma. cbn [In] in Hd. lia.
  - intros l Hl. unfold scratchA in Hl. rewrite C2, G2, F2, R2 by tauto. reflexivity.
  - intros l Hl. rewrite C3, G3, F3, R3 by tauto. reflexivity.
  - intros c Hc. unfold P. rewrite <- (R1 c Hc).
    rewrite (polyS_frame s3), (polyS_frame s2), (polyS_frame s1); [reflexivity|..]; intros l Hl.
    + apply F2. ma. cbn [In]. lia.
    + apply G2. ma. lia.
    + apply C2. ma. cbn [In]. lia.
  - intros c Hc. rewrite <- EG by auto. apply C2. rewrite la_at_cell. ma. cbn [In]. lia.
Qed.
End MS.
