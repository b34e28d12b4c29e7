(** Schedule independence and memory safety of the 2D step. *)
From Coq Require Import ZArith List Bool Lia.
From Verif Require Import Arith Par ParProofs GridModel BoundaryModel BoundarySpec BoundaryProofs
  HydroState RiemannModel HydroPoint HydroKernels CellKernels HydroField HydroExec HydroSpec HydroProofs2.
Import ListNotations.
Open Scope Z_scope.

(** A loop over [cells] whose body at [c] reads within [R c] and writes within [W c]. *)
Definition ck {T} (cells : list (Z * Z * Z)) (R W : Z * Z * Z -> loc -> Prop) (ps : list (prog T unit)) : Prop :=
  exists body, ps = md_for cells body /\ forall c, In c cells -> acc (R c) (W c) (body c).

Lemma ck_det {T} Ws cells (ps : list (prog T unit)) (s1 s2 s1' s2' : store T) :
  NoDup cells -> ck cells (cellR Ws) (cellW Ws) ps -> (forall l, s1 l = s2 l) ->
  par_exec s1 ps s1' -> par_exec s2 ps s2' -> forall l, s1' l = s2' l.
Proof.
  intros Hnd (body & -> & Hok) He H1 H2. eapply cellwise_det; eauto.
Qed.
Lemma ck_safe {T} P cells (ps : list (prog T unit)) q :
  ck cells (fun _ => P) (fun _ => P) ps -> In q ps -> accesses_in P q.
Proof.
  intros (body & -> & Hok) Hq. apply in_map_iff in Hq. destruct Hq as (c & <- & Hc).
  apply acc_accesses. apply Hok. exact Hc.
Qed.

(** Kernel sequences in which every loop is deterministic. *)
Definition ker_det {T} (ps : list (prog T unit)) : Prop :=
  forall s1 s2 s1' s2' : store T, (forall l, s1 l = s2 l) -> par_exec s1 ps s1' -> par_exec s2 ps s2' ->
  forall l, s1' l = s2' l.
Lemma kers_det {T} (kers : list (list (prog T unit))) : (forall ps, In ps kers -> ker_det ps) ->
  forall s1 s2 s1' s2' : store T, (forall l, s1 l = s2 l) -> run_kernels kers s1 s1' -> run_kernels kers s2 s2' ->
  forall l, s1' l = s2' l.
Proof.
  induction kers as [|ps kers IH]; intros Hd s1 s2 s1' s2' He H1 H2.
  - inversion H1; inversion H2; subst; auto.
  - inversion H1 as [|? ? ? sa ? Ha Hka]; subst. inversion H2 as [|? ? ? sb ? Hb Hkb]; subst.
    apply (IH (fun ps H => Hd ps (or_intror H)) sa sb); auto.
    apply (Hd ps (or_introl eq_refl) s1 s2); auto.
Qed.

Lemma interior2_faces g i j : interior2 g i j = true ->
  faces2 g i j = true /\ faces2 g (i + 1) j = true /\ faces2 g i (j + 1) = true.
Proof. intros H. apply interior2_spec in H. rewrite !faces2_spec. lia. Qed.

Section Safe2.
Context {T : Type} {A : Arith T}.
Variable p : hparams T.
Variable g : grid.
Variable dt : T.
Variable ge : bool.
Variable junk : Z * Z * Z -> Z -> hs T.
Variables R W : Z * Z * Z -> loc -> Prop.

Ltac start := let i := fresh "i" in let j := fresh "j" in let k := fresh "k" in let Hc := fresh "Hc" in
  eexists; split; [reflexivity|]; intros [[i j] k] Hc; apply In_cells2 in Hc; cbn [fst snd] in Hc;
  let Hi := fresh "Hi" in let Hj := fresh "Hj" in destruct Hc as (Hi & Hj & ->).

Lemma deep_copy_ck dst src :
  (forall i j v, 0 <= i < isize g -> 0 <= j < jsize g -> 0 <= v < nbvar g -> R (i, j, 0) (Loc src i j 0 v)) ->
  (forall i j v, 0 <= i < isize g -> 0 <= j < jsize g -> 0 <= v < nbvar g -> W (i, j, 0) (Loc dst i j 0 v)) ->
  ck (T:=T) (cells2 g) R W (deep_copy g (cells2 g) dst src).
Proof. clear p dt ge junk.
  intros HR HW. start. apply acc_for. intros v Hv. apply In_zrange in Hv.
  apply acc_bind; [apply acc_rd, HR; auto|intros x; apply acc_wr, HW; auto].
Qed.

Lemma convert2_ck aIn :
  (forall i j v, 0 <= i < isize g -> 0 <= j < jsize g -> 0 <= v < 4 -> R (i, j, 0) (Loc aIn i j 0 v)) ->
  (forall i j v, 0 <= i < isize g -> 0 <= j < jsize g -> 0 <= v < 4 -> W (i, j, 0) (Loc aQ i j 0 v)) ->
  ck (cells2 g) R W (convert2 p g aIn).
Proof. clear dt ge junk.
  intros HR HW. start. apply acc_if; intros _; [|apply acc_skip].
  apply acc_bind; [apply acc_load2; auto|intros u; apply acc_put2; auto].
Qed.

Lemma fluxes2_ck : 2 <= gw g ->
  (forall i j i' j' v, faces2 g i j = true -> 0 <= i' < isize g -> 0 <= j' < jsize g -> 0 <= v < 4 ->
     R (i, j, 0) (Loc aQ i' j' 0 v)) ->
  (forall i j i' j' v, ge = true -> faces2 g i j = true -> 0 <= i' < isize g -> 0 <= j' < jsize g -> 0 <= v < 2 ->
     R (i, j, 0) (Loc aG i' j' 0 v)) ->
  (forall i j v, faces2 g i j = true -> 0 <= v < 4 -> W (i, j, 0) (Loc aFx i j 0 v) /\ W (i, j, 0) (Loc aFy i j 0 v)) ->
  ck (cells2 g) R W (compute_and_store_fluxes2 p g dt ge junk).
Proof.
  intros Hg HR HG HW. start. apply fluxes_body2_acc.
  - intros i' j' v H1 H2 H3 H4 Hf Hv. apply HR; auto; apply faces2_spec in Hf; lia.
  - intros i' j' v Hge H1 H2 Hf Hv. apply HG; auto; apply faces2_spec in Hf; lia.
  - intros v Hf Hv. apply HW; auto.
Qed.

Lemma update2_ck aOut :
  (forall i j v, interior2 g i j = true -> 0 <= v < 4 ->
     R (i, j, 0) (Loc aOut i j 0 v) /\ W (i, j, 0) (Loc aOut i j 0 v)) ->
  (forall i j i' j' v, interior2 g i j = true -> faces2 g i' j' = true -> 0 <= v < 4 ->
     R (i, j, 0) (Loc aFx i' j' 0 v) /\ R (i, j, 0) (Loc aFy i' j' 0 v)) ->
  ck (T:=T) (cells2 g) R W (update2 g aOut).
Proof. clear p dt ge junk.
  intros HO HF. start. apply acc_if; intros Hin; [|apply acc_skip].
  destruct (interior2_faces g i j Hin) as (F1 & F2 & F3).
  do 3 (apply acc_bind; [apply acc_accum2; intros v Hv; destruct (HO i j v Hin Hv); repeat split; auto; eapply HF; eauto|intros _]).
  apply acc_accum2; intros v Hv; destruct (HO i j v Hin Hv); repeat split; auto; eapply HF; eauto.
Qed.

Lemma compute_slopes2_ck : 2 <= gw g ->
  (forall i j i' j' v, srange2 g i j = true -> 0 <= i' < isize g -> 0 <= j' < jsize g -> 0 <= v < 4 ->
     R (i, j, 0) (Loc aQ i' j' 0 v)) ->
  (forall i j v, srange2 g i j = true -> 0 <= v < 4 -> W (i, j, 0) (Loc aSx i j 0 v) /\ W (i, j, 0) (Loc aSy i j 0 v)) ->
  ck (cells2 g) R W (compute_slopes2 p g).
Proof. clear dt ge junk.
  intros Hg HR HW. start. apply acc_if; intros Hs; [|apply acc_skip].
  change (srange2 g i j = true) in Hs. pose proof Hs as Hs'. apply srange2_spec in Hs'.
  apply acc_bind; [apply acc_fetch2; intros; apply HR; auto; lia|intros [q [X Y]]].
  apply acc_bind; [apply acc_put2; intros; apply HW; auto|intros _]. apply acc_put2; intros; apply HW; auto.
Qed.

Lemma trace2_ck d aF : 2 <= gw g ->
  (forall i j a i' j' v, faces2 g i j = true -> a = aQ \/ a = aSx \/ a = aSy ->
     0 <= i' < isize g -> 0 <= j' < jsize g -> 0 <= v < 4 -> R (i, j, 0) (Loc a i' j' 0 v)) ->
  (forall i j i' j' v, ge = true -> faces2 g i j = true -> 0 <= i' < isize g -> 0 <= j' < jsize g -> 0 <= v < 2 ->
     R (i, j, 0) (Loc aG i' j' 0 v)) ->
  (forall i j v, faces2 g i j = true -> 0 <= v < 4 -> W (i, j, 0) (Loc aF i j 0 v)) ->
  ck (cells2 g) R W (trace_and_fluxes2 p g dt ge junk d aF).
Proof.
  intros Hg HR HG HW. start. apply trace_body2_acc.
  - intros a i' j' v Ha H1 H2 Hf Hv. apply HR; auto; apply faces2_spec in Hf; lia.
  - intros i' j' v Hge H1 H2 Hf Hv. apply HG; auto; apply faces2_spec in Hf; lia.
  - intros v Hf Hv. apply HW; auto.
Qed.

Lemma update_dir2_ck d aOut aF :
  (forall i j v, interior2 g i j = true -> 0 <= v < 4 ->
     R (i, j, 0) (Loc aOut i j 0 v) /\ W (i, j, 0) (Loc aOut i j 0 v)) ->
  (forall i j i' j' v, interior2 g i j = true -> faces2 g i' j' = true -> 0 <= v < 4 ->
     R (i, j, 0) (Loc aF i' j' 0 v)) ->
  ck (T:=T) (cells2 g) R W (update_dir2 g d aOut aF).
Proof. clear p dt ge junk.
  intros HO HF. start. apply acc_if; intros Hin; [|apply acc_skip].
  destruct (interior2_faces g i j Hin) as (F1 & F2 & F3).
  destruct d; [| |apply acc_skip].
  all: apply acc_bind; [|intros _]; apply acc_accum2; intros v Hv; destruct (HO i j v Hin Hv); repeat split; auto.
Qed.

Lemma gravity2_ck aIn aOut :
  (forall i j v, interior2 g i j = true -> 0 <= v < 4 ->
     R (i, j, 0) (Loc aIn i j 0 v) /\ R (i, j, 0) (Loc aOut i j 0 v) /\ W (i, j, 0) (Loc aOut i j 0 v)) ->
  (forall i j v, interior2 g i j = true -> 0 <= v < 2 -> R (i, j, 0) (Loc aG i j 0 v)) ->
  ck (cells2 g) R W (gravity_term2 p g dt aIn aOut).
Proof. clear ge junk.
  intros HO HG. start. apply acc_if; intros Hin; [|apply acc_skip].
  apply acc_bind; [apply acc_rd, HO; auto; unfold ID; lia|intros r].
  apply acc_bind; [apply acc_load2; intros; apply HO; auto|intros u].
  do 2 (apply acc_bind; [apply acc_rd, HG; auto; unfold IX, IY; lia|intros ?]).
  do 2 (apply acc_bind; [apply acc_wr, HO; auto; unfold IU, IV; lia|intros ?]).
  apply acc_wr, HO; auto; unfold IE; lia.
Qed.
End Safe2.

Section Godunov2.
Context {T : Type} {A : Arith T}.
Variable p : hparams T.
Variable g : grid.
Variable dt : T.
Variable ge : bool.
Variable junk : Z * Z * Z -> Z -> hs T.
Notation godunov2 := (godunov2 p g dt ge junk).

Lemma in_godunov2 impl aIn aOut ps : impl = 0 \/ impl = 1 \/ impl = 2 -> In ps (godunov2 impl aIn aOut) ->
  In ps (make_boundaries_serial2d false g aIn) \/
  ps = deep_copy g (cells2 g) aOut aIn \/ ps = convert2 p g aIn \/
  (impl = 0 /\ (ps = compute_and_store_fluxes2 p g dt ge junk \/ ps = update2 g aOut)) \/
  (impl = 1 /\ (ps = compute_slopes2 p g \/ (exists d, ps = trace_and_fluxes2 p g dt ge junk d aFx)
                \/ exists d, ps = update_dir2 g d aOut aFx)) \/
  (ge = true /\ ps = gravity_term2 p g dt aIn aOut).
Proof.
  intros Himpl H. unfold HydroKernels.godunov2, scheme2 in H. apply in_app_iff in H.
  destruct H as [H|[H|[H|H]]]; auto.
  destruct Himpl as [->|[->| ->]]; cbn [Z.eqb Pos.eqb] in H.
  - apply in_app_iff in H. destruct H as [H|H].
    + cbn [In] in H. intuition.
    + destruct ge; cbn [In] in H; intuition.
  - apply in_app_iff in H. destruct H as [H|H].
    + cbn [In] in H. destruct H as [<-|[<-|[<-|[<-|[<-|[]]]]]];
        right; right; right; right; left; split; auto; eauto.
    + destruct ge; cbn [In] in H; intuition.
  - destruct H.
Qed.

Lemma no_race_all2 : hydro_grid2 g -> forall f, In f [FACE_XMIN; FACE_XMAX; FACE_YMIN; FACE_YMAX] -> no_race_f g f.
Proof.
  intros (H1 & H2 & H3 & H4) f Hf. cbn [In] in Hf. intuition; subst; left; lia.
Qed.

Theorem godunov2_det impl aIn aOut (s s1 s2 : store T) :
  impl = 0 \/ impl = 1 \/ impl = 2 -> arr_ok aIn aOut -> hydro_grid2 g ->
  run_kernels (godunov2 impl aIn aOut) s s1 -> run_kernels (godunov2 impl aIn aOut) s s2 ->
  forall l, s1 l = s2 l.
Proof.
  intros Himpl Ha Hg H1 H2.
  pose proof Hg as (G1 & G2 & G3 & G4).
  unfold HydroKernels.godunov2 in H1, H2.
  apply run_kernels_app in H1. destruct H1 as (sa & H1a & H1b).
  apply run_kernels_app in H2. destruct H2 as (sb & H2a & H2b).
  assert (He : forall l, sa l = sb l).
  { apply (fill2_det false g aIn s sa sb); auto; try lia. apply no_race_all2; auto. }
  revert sa sb s1 s2 He H1b H2b H1a H2a. intros sa sb s1 s2 He H1b H2b _ _.
  revert H1b H2b. apply kers_det; auto. intros ps Hps.
  assert (Hin : In ps (godunov2 impl aIn aOut)) by (unfold HydroKernels.godunov2; apply in_app_iff; right; exact Hps).
  assert (Hd : forall Ws, ck (cells2 g) (cellR Ws) (cellW Ws) ps -> ker_det ps).
  { intros Ws Hck x1 x2 x1' x2' Hx E1 E2. eapply ck_det; eauto. apply NoDup_cells2. }
  (* kernels after the boundary fill *)
  assert (Hcase : ps = deep_copy g (cells2 g) aOut aIn \/ ps = convert2 p g aIn \/
    (ps = compute_and_store_fluxes2 p g dt ge junk \/ ps = update2 g aOut) \/
    (ps = compute_slopes2 p g \/ (exists d, ps = trace_and_fluxes2 p g dt ge junk d aFx)
                \/ exists d, ps = update_dir2 g d aOut aFx) \/ ps = gravity_term2 p g dt aIn aOut).
  { clear - Hps Himpl. destruct Hps as [<-|[<-|H]]; auto.
    destruct Himpl as [->|[->| ->]]; cbn [Z.eqb Pos.eqb] in H.
    - apply in_app_iff in H. destruct H as [H|H]; [cbn [In] in H; intuition|destruct ge; cbn [In] in H; intuition].
    - apply in_app_iff in H. destruct H as [H|H]; [|destruct ge; cbn [In] in H; intuition].
      cbn [In] in H. destruct H as [<-|[<-|[<-|[<-|[<-|[]]]]]]; right; right; right; left; eauto.
    - destruct H. }
  clear Hps Hin He.
  destruct Hcase as [->|[->|[[->| ->]|[[->|[(d & ->)|(d & ->)]]| ->]]]].
  - apply (Hd [aOut]). apply deep_copy_ck; fp.
  - apply (Hd [aQ]). apply convert2_ck; fp.
  - apply (Hd [aFx; aFy]). apply fluxes2_ck; try lia; fp.
  - apply (Hd [aOut]). apply update2_ck; fp.
  - apply (Hd [aSx; aSy]). apply compute_slopes2_ck; try lia; fp.
  - apply (Hd [aFx]). apply trace2_ck; try lia; fp.
  - apply (Hd [aOut]). apply update_dir2_ck; fp.
  - apply (Hd [aOut]). apply gravity2_ck; fp.
Qed.

Theorem godunov2_safe impl aIn aOut ps q :
  impl = 0 \/ impl = 1 \/ impl = 2 -> arr_ok aIn aOut -> hydro_grid2 g ->
  In ps (godunov2 impl aIn aOut) -> In q ps -> accesses_in (allocated2 g impl ge) q.
Proof.
  intros Himpl Ha (G1 & G2 & G3 & G4) Hps Hq.
  apply in_godunov2 in Hps; auto.
  destruct Hps as [Hb|Hps].
  { assert (H : accesses_in (alloc2d g aIn) q) by (eapply fill2_safe; eauto; lia).
    assert (M : forall l, alloc2d g aIn l -> allocated2 g impl ge l).
    { intros l (M1 & M2 & M3 & M4 & M5). split; [unfold in_box2; auto|].
      left. split; auto. unfold state_array. rewrite M1. destruct Ha as [[-> _]|[-> _]]; auto. }
    destruct H as (R1 & R2 & R3). repeat split.
    - eapply reads_in_mono; eauto.
    - eapply writes_in_mono; eauto.
    - eapply rmws_in_mono; eauto. }
  assert (Hs : forall a i j v, state_array false impl a -> 0 <= i < isize g -> 0 <= j < jsize g -> 0 <= v < 4 ->
     allocated2 g impl ge (Loc a i j 0 v)).
  { intros a i j v Hs Hi Hj Hv. unfold isize, jsize, imax, imin, jmax, jmin in *. split; [unfold in_box2; cbn [li lj lk]; lia|].
    left. cbn [la lv]. split; auto. lia. }
  assert (HG : forall i j v, ge = true -> 0 <= i < isize g -> 0 <= j < jsize g -> 0 <= v < 2 ->
     allocated2 g impl ge (Loc aG i j 0 v)).
  { intros i j v Hs' Hi Hj Hv. unfold isize, jsize, imax, imin, jmax, jmin in *. split; [unfold in_box2; cbn [li lj lk]; lia|].
    right. cbn [la lv]. auto. }
  assert (Hf : forall i j, faces2 g i j = true -> 0 <= i < isize g /\ 0 <= j < jsize g).
  { intros i j H. apply faces2_spec in H. lia. }
  assert (Hi : forall i j, interior2 g i j = true -> 0 <= i < isize g /\ 0 <= j < jsize g).
  { intros i j H. apply interior2_spec in H. lia. }
  assert (Hsr : forall i j, srange2 g i j = true -> 0 <= i < isize g /\ 0 <= j < jsize g).
  { intros i j H. apply srange2_spec in H. lia. }
  assert (SI : state_array false impl aIn) by (unfold state_array; destruct Ha as [[-> _]|[-> _]]; auto).
  assert (SO : state_array false impl aOut) by (unfold state_array; destruct Ha as [[_ ->]|[_ ->]]; auto).
  assert (SQ : state_array false impl aQ) by (unfold state_array; auto).
  assert (SF : impl = 0 \/ impl = 1 -> state_array false impl aFx) by (clear; unfold state_array; intuition).
  assert (SFy : impl = 0 -> state_array false impl aFy) by (clear; unfold state_array; intuition).
  assert (SSx : impl = 1 -> state_array false impl aSx) by (clear; unfold state_array; intuition).
  assert (SSy : impl = 1 -> state_array false impl aSy) by (clear; unfold state_array; intuition).
  Local Ltac bnd Hf Hi Hsr := repeat match goal with H : faces2 _ _ _ = true |- _ => apply Hf in H
     | H : interior2 _ _ _ = true |- _ => apply Hi in H | H : srange2 _ _ _ = true |- _ => apply Hsr in H end;
     subst; auto; lia.
  revert Hq.
  destruct Hps as [->|[->|[(H0 & [->| ->])|[(H1 & [->|[(d & ->)|(d & ->)]])|(Hge & ->)]]]];
    eapply ck_safe.
  - apply deep_copy_ck; intros; apply Hs; bnd Hf Hi Hsr.
  - apply convert2_ck; intros; apply Hs; bnd Hf Hi Hsr.
  - apply fluxes2_ck; [lia| | |]; intros; [apply Hs|apply HG|split; apply Hs]; bnd Hf Hi Hsr.
  - apply update2_ck; intros; split; apply Hs; bnd Hf Hi Hsr.
  - apply compute_slopes2_ck; [lia| |]; intros; [apply Hs|split; apply Hs]; bnd Hf Hi Hsr.
  - apply trace2_ck; [lia| | |]; intros; [apply Hs|apply HG|apply Hs]; try bnd Hf Hi Hsr.
    intuition; subst; auto.
  - apply update_dir2_ck; intros; try split; apply Hs; bnd Hf Hi Hsr.
  - apply gravity2_ck; intros; [repeat split; apply Hs|apply HG]; bnd Hf Hi Hsr.
Qed.
End Godunov2.
