(** Schedule independence and memory safety of the 3D step. *)
From Coq Require Import ZArith List Bool Lia.
From Verif Require Import Arith Par ParProofs GridModel BoundaryModel BoundarySpec BoundaryProofs
  HydroState RiemannModel HydroPoint HydroKernels CellKernels HydroField HydroExec HydroSpec HydroProofs2 HydroSafe2 HydroProofs3.
Import ListNotations.
Open Scope Z_scope.

Lemma interior3_faces g i j k : interior3 g i j k = true ->
  faces3 g i j k = true /\ faces3 g (i + 1) j k = true /\ faces3 g i (j + 1) k = true /\ faces3 g i j (k + 1) = true.
Proof. intros H. apply interior3_spec in H. rewrite !faces3_spec. lia. Qed.

Section Safe3.
Context {T : Type} {A : Arith T}.
Variable p : hparams T.
Variable g : grid.
Variable dt : T.
Variable ge : bool.
Variable junk : Z * Z * Z -> Z -> hs T.
Variables R W : Z * Z * Z -> loc -> Prop.

Ltac start := let i := fresh "i" in let j := fresh "j" in let k := fresh "k" in let Hc := fresh "Hc" in
  eexists; split; [reflexivity|]; intros [[i j] k] Hc; apply In_cells3 in Hc; cbn [fst snd] in Hc;
  let Hi := fresh "Hi" in let Hj := fresh "Hj" in let Hk := fresh "Hk" in destruct Hc as (Hi & Hj & Hk).

Lemma deep_copy3_ck dst src :
  (forall i j k v, 0 <= i < isize g -> 0 <= j < jsize g -> 0 <= k < ksize g -> 0 <= v < nbvar g -> R (i, j, k) (Loc src i j k v)) ->
  (forall i j k v, 0 <= i < isize g -> 0 <= j < jsize g -> 0 <= k < ksize g -> 0 <= v < nbvar g -> W (i, j, k) (Loc dst i j k v)) ->
  ck (T:=T) (cells3 g) R W (deep_copy g (cells3 g) dst src).
Proof. clear p dt ge junk.
  intros HR HW. start. apply acc_for. intros v Hv. apply In_zrange in Hv.
  apply acc_bind; [apply acc_rd, HR; auto|intros x; apply acc_wr, HW; auto].
Qed.

Lemma convert3_ck aIn :
  (forall i j k v, 0 <= i < isize g -> 0 <= j < jsize g -> 0 <= k < ksize g -> 0 <= v < 5 -> R (i, j, k) (Loc aIn i j k v)) ->
  (forall i j k v, 0 <= i < isize g -> 0 <= j < jsize g -> 0 <= k < ksize g -> 0 <= v < 5 -> W (i, j, k) (Loc aQ i j k v)) ->
  ck (cells3 g) R W (convert3 p g aIn).
Proof. clear dt ge junk.
  intros HR HW. start. apply acc_if; intros _; [|apply acc_skip].
  apply acc_bind; [apply acc_load3; auto|intros u; apply acc_put3; auto].
Qed.

Lemma fluxes3_ck : 2 <= gw g ->
  (forall i j k i' j' k' v, faces3 g i j k = true -> 0 <= i' < isize g -> 0 <= j' < jsize g -> 0 <= k' < ksize g -> 0 <= v < 5 ->
     R (i, j, k) (Loc aQ i' j' k' v)) ->
  (forall i j k i' j' k' v, ge = true -> faces3 g i j k = true -> 0 <= i' < isize g -> 0 <= j' < jsize g -> 0 <= k' < ksize g -> 0 <= v < 3 ->
     R (i, j, k) (Loc aG i' j' k' v)) ->
  (forall i j k v, faces3 g i j k = true -> 0 <= v < 5 -> W (i, j, k) (Loc aFx i j k v) /\ W (i, j, k) (Loc aFy i j k v) /\ W (i, j, k) (Loc aFz i j k v)) ->
  ck (cells3 g) R W (compute_and_store_fluxes3 p g dt ge junk).
Proof.
  intros Hg HR HG HW. start. apply fluxes_body3_acc.
  - intros i' j' k' v H1 H2 H3 H4 H5 H6 Hf Hv. apply HR; auto; apply faces3_spec in Hf; lia.
  - intros i' j' k' v Hge H1 H2 H3 Hf Hv. apply HG; auto; apply faces3_spec in Hf; lia.
  - intros v Hf Hv. apply HW; auto.
Qed.

Lemma update3_ck aOut :
  (forall i j k v, interior3 g i j k = true -> 0 <= v < 5 ->
     R (i, j, k) (Loc aOut i j k v) /\ W (i, j, k) (Loc aOut i j k v)) ->
  (forall i j k i' j' k' v, interior3 g i j k = true -> faces3 g i' j' k' = true -> 0 <= v < 5 ->
     R (i, j, k) (Loc aFx i' j' k' v) /\ R (i, j, k) (Loc aFy i' j' k' v) /\ R (i, j, k) (Loc aFz i' j' k' v)) ->
  ck (T:=T) (cells3 g) R W (update3 g aOut).
Proof. clear p dt ge junk.
  intros HO HF. start. apply acc_if; intros Hin; [|apply acc_skip].
  destruct (interior3_faces g i j k Hin) as (F1 & F2 & F3 & F4).
  do 5 (apply acc_bind; [apply acc_accum3; intros v Hv; destruct (HO i j k v Hin Hv); repeat split; auto; eapply HF; eauto|intros _]).
  apply acc_accum3; intros v Hv; destruct (HO i j k v Hin Hv); repeat split; auto; eapply HF; eauto.
Qed.

Lemma compute_slopes3_ck : 2 <= gw g ->
  (forall i j k i' j' k' v, srange3 g i j k = true -> 0 <= i' < isize g -> 0 <= j' < jsize g -> 0 <= k' < ksize g -> 0 <= v < 5 ->
     R (i, j, k) (Loc aQ i' j' k' v)) ->
  (forall i j k v, srange3 g i j k = true -> 0 <= v < 5 -> W (i, j, k) (Loc aSx i j k v) /\ W (i, j, k) (Loc aSy i j k v) /\ W (i, j, k) (Loc aSz i j k v)) ->
  ck (cells3 g) R W (compute_slopes3 p g junk).
Proof. clear dt ge.
  intros Hg HR HW. start. apply acc_if; intros Hs; [|apply acc_skip].
  change (srange3 g i j k = true) in Hs. pose proof Hs as Hs'. apply srange3_spec in Hs'.
  apply acc_bind; [apply acc_fetch3; intros; apply HR; auto; lia|intros [q [[X Y] Z]]].
  do 2 (apply acc_bind; [apply acc_put3; intros; apply HW; auto|intros _]). apply acc_put3; intros; apply HW; auto.
Qed.

Lemma trace3_ck d aF : 2 <= gw g ->
  (forall i j k a i' j' k' v, faces3 g i j k = true -> a = aQ \/ a = aSx \/ a = aSy \/ a = aSz ->
     0 <= i' < isize g -> 0 <= j' < jsize g -> 0 <= k' < ksize g -> 0 <= v < 5 -> R (i, j, k) (Loc a i' j' k' v)) ->
  (forall i j k i' j' k' v, ge = true -> faces3 g i j k = true -> 0 <= i' < isize g -> 0 <= j' < jsize g -> 0 <= k' < ksize g -> 0 <= v < 3 ->
     R (i, j, k) (Loc aG i' j' k' v)) ->
  (forall i j k v, faces3 g i j k = true -> 0 <= v < 5 -> W (i, j, k) (Loc aF i j k v)) ->
  ck (cells3 g) R W (trace_and_fluxes3 p g dt ge junk d aF).
Proof.
  intros Hg HR HG HW. start. apply trace_body3_acc.
  - intros a i' j' k' v Ha H1 H2 H3 Hf Hv. apply HR; auto; apply faces3_spec in Hf; lia.
  - intros i' j' k' v Hge H1 H2 H3 Hf Hv. apply HG; auto; apply faces3_spec in Hf; lia.
  - intros v Hf Hv. apply HW; auto.
Qed.

Lemma update_dir3_ck d aOut aF :
  (forall i j k v, interior3 g i j k = true -> 0 <= v < 5 ->
     R (i, j, k) (Loc aOut i j k v) /\ W (i, j, k) (Loc aOut i j k v)) ->
  (forall i j k i' j' k' v, interior3 g i j k = true -> faces3 g i' j' k' = true -> 0 <= v < 5 ->
     R (i, j, k) (Loc aF i' j' k' v)) ->
  ck (T:=T) (cells3 g) R W (update_dir3 g d aOut aF).
Proof. clear p dt ge junk.
  intros HO HF. start. apply acc_if; intros Hin; [|apply acc_skip].
  destruct (interior3_faces g i j k Hin) as (F1 & F2 & F3 & F4).
  destruct d.
  all: apply acc_bind; [|intros _]; apply acc_accum3; intros v Hv; destruct (HO i j k v Hin Hv); repeat split; auto.
Qed.

Lemma gravity3_ck aIn aOut :
  (forall i j k v, interior3 g i j k = true -> 0 <= v < 5 ->
     R (i, j, k) (Loc aIn i j k v) /\ R (i, j, k) (Loc aOut i j k v) /\ W (i, j, k) (Loc aOut i j k v)) ->
  (forall i j k v, interior3 g i j k = true -> 0 <= v < 3 -> R (i, j, k) (Loc aG i j k v)) ->
  ck (cells3 g) R W (gravity_term3 g dt aIn aOut).
Proof. clear p ge junk.
  intros HO HG. start. apply acc_if; intros Hin; [|apply acc_skip].
  apply acc_bind; [apply acc_rd, HO; auto; unfold ID; lia|intros r].
  apply acc_bind; [apply acc_load3; intros; apply HO; auto|intros u].
  do 3 (apply acc_bind; [apply acc_rd, HG; auto; unfold IX, IY, IZ; lia|intros ?]).
  do 3 (apply acc_bind; [apply acc_wr, HO; auto; unfold IU, IV, IW; lia|intros ?]).
  apply acc_wr, HO; auto; unfold IE; lia.
Qed.
End Safe3.

Section Godunov3.
Context {T : Type} {A : Arith T}.
Variable p : hparams T.
Variable g : grid.
Variable dt : T.
Variable ge : bool.
Variable junk : Z * Z * Z -> Z -> hs T.
Notation godunov3 := (godunov3 p g dt ge junk).

Lemma in_godunov3 impl aIn aOut ps : impl = 0 \/ impl = 1 \/ impl = 2 -> In ps (godunov3 impl aIn aOut) ->
  In ps (make_boundaries_serial3d false g aIn) \/
  ps = deep_copy g (cells3 g) aOut aIn \/ ps = convert3 p g aIn \/
  (impl = 0 /\ (ps = compute_and_store_fluxes3 p g dt ge junk \/ ps = update3 g aOut)) \/
  (impl = 1 /\ (ps = compute_slopes3 p g junk \/ (exists d, ps = trace_and_fluxes3 p g dt ge junk d aFx)
                \/ exists d, ps = update_dir3 g d aOut aFx)) \/
  (ge = true /\ ps = gravity_term3 g dt aIn aOut).
Proof.
  intros Himpl H. unfold HydroKernels.godunov3, scheme3 in H. apply in_app_iff in H.
  destruct H as [H|[H|[H|H]]]; auto.
  destruct Himpl as [->|[->| ->]]; cbn [Z.eqb Pos.eqb] in H.
  - apply in_app_iff in H. destruct H as [H|H].
    + cbn [In] in H. intuition.
    + destruct ge; cbn [In] in H; intuition.
  - apply in_app_iff in H. destruct H as [H|H].
    + cbn [In] in H. destruct H as [<-|[<-|[<-|[<-|[<-|[<-|[<-|[]]]]]]]];
        right; right; right; right; left; split; auto; eauto.
    + destruct ge; cbn [In] in H; intuition.
  - destruct H.
Qed.

Lemma no_race_all3 : hydro_grid3 g -> forall f, no_race_f g f.
Proof.
  intros (H1 & H2 & H3 & H4 & H5) f. destruct f; left; cbn; lia.
Qed.

Theorem godunov3_det impl aIn aOut (s s1 s2 : store T) :
  impl = 0 \/ impl = 1 \/ impl = 2 -> arr_ok aIn aOut -> hydro_grid3 g ->
  run_kernels (godunov3 impl aIn aOut) s s1 -> run_kernels (godunov3 impl aIn aOut) s s2 ->
  forall l, s1 l = s2 l.
Proof.
  intros Himpl Ha Hg H1 H2.
  pose proof Hg as (G1 & G2 & G3 & G4 & G5).
  unfold HydroKernels.godunov3 in H1, H2.
  apply run_kernels_app in H1. destruct H1 as (sa & H1a & H1b).
  apply run_kernels_app in H2. destruct H2 as (sb & H2a & H2b).
  assert (He : forall l, sa l = sb l).
  { apply (fill3_det false g aIn s sa sb); auto; try lia. apply no_race_all3; auto. }
  revert sa sb s1 s2 He H1b H2b H1a H2a. intros sa sb s1 s2 He H1b H2b _ _.
  revert H1b H2b. apply kers_det; auto. intros ps Hps.
  assert (Hin : In ps (godunov3 impl aIn aOut)) by (unfold HydroKernels.godunov3; apply in_app_iff; right; exact Hps).
  assert (Hd : forall Ws, ck (cells3 g) (cellR Ws) (cellW Ws) ps -> ker_det ps).
  { intros Ws Hck x1 x2 x1' x2' Hx E1 E2. eapply ck_det; eauto. apply NoDup_cells3. }
  (* kernels after the boundary fill *)
  assert (Hcase : ps = deep_copy g (cells3 g) aOut aIn \/ ps = convert3 p g aIn \/
    (ps = compute_and_store_fluxes3 p g dt ge junk \/ ps = update3 g aOut) \/
    (ps = compute_slopes3 p g junk \/ (exists d, ps = trace_and_fluxes3 p g dt ge junk d aFx)
                \/ exists d, ps = update_dir3 g d aOut aFx) \/ ps = gravity_term3 g dt aIn aOut).
  { clear - Hps Himpl. destruct Hps as [<-|[<-|H]]; auto.
    destruct Himpl as [->|[->| ->]]; cbn [Z.eqb Pos.eqb] in H.
    - apply in_app_iff in H. destruct H as [H|H]; [cbn [In] in H; intuition|destruct ge; cbn [In] in H; intuition].
    - apply in_app_iff in H. destruct H as [H|H]; [|destruct ge; cbn [In] in H; intuition].
      cbn [In] in H. destruct H as [<-|[<-|[<-|[<-|[<-|[<-|[<-|[]]]]]]]]; right; right; right; left; eauto.
    - destruct H. }
  clear Hps Hin He.
  destruct Hcase as [->|[->|[[->| ->]|[[->|[(d & ->)|(d & ->)]]| ->]]]].
  - apply (Hd [aOut]). apply deep_copy3_ck; fp.
  - apply (Hd [aQ]). apply convert3_ck; fp.
  - apply (Hd [aFx; aFy; aFz]). apply fluxes3_ck; try lia; fp.
  - apply (Hd [aOut]). apply update3_ck; fp.
  - apply (Hd [aSx; aSy; aSz]). apply compute_slopes3_ck; try lia; fp.
  - apply (Hd [aFx]). apply trace3_ck; try lia; fp.
  - apply (Hd [aOut]). apply update_dir3_ck; fp.
  - apply (Hd [aOut]). apply gravity3_ck; fp.
Qed.

Theorem godunov3_safe impl aIn aOut ps q :
  impl = 0 \/ impl = 1 \/ impl = 2 -> arr_ok aIn aOut -> hydro_grid3 g ->
  In ps (godunov3 impl aIn aOut) -> In q ps -> accesses_in (allocated3 g impl ge) q.
Proof.
  intros Himpl Ha (G1 & G2 & G3 & G4 & G5) Hps Hq.
  apply in_godunov3 in Hps; auto.
  destruct Hps as [Hb|Hps].
  { assert (H : accesses_in (alloc3d g aIn) q) by (eapply fill3_safe; eauto; lia).
    assert (M : forall l, alloc3d g aIn l -> allocated3 g impl ge l).
    { intros l (M1 & M2 & M3 & M4 & M5). split; [unfold in_box3; auto|].
      left. split; auto. unfold state_array. rewrite M1. destruct Ha as [[-> _]|[-> _]]; auto. }
    destruct H as (R1 & R2 & R3). repeat split.
    - eapply reads_in_mono; eauto.
    - eapply writes_in_mono; eauto.
    - eapply rmws_in_mono; eauto. }
  assert (Hs : forall a i j k v, state_array true impl a -> 0 <= i < isize g -> 0 <= j < jsize g -> 0 <= k < ksize g -> 0 <= v < 5 ->
     allocated3 g impl ge (Loc a i j k v)).
  { intros a i j k v Hs Hi Hj Hk' Hv. unfold isize, jsize, ksize, imax, imin, jmax, jmin, kmax, kmin in *. split; [unfold in_box3; cbn [li lj lk]; lia|].
    left. cbn [la lv]. split; auto. lia. }
  assert (HG : forall i j k v, ge = true -> 0 <= i < isize g -> 0 <= j < jsize g -> 0 <= k < ksize g -> 0 <= v < 3 ->
     allocated3 g impl ge (Loc aG i j k v)).
  { intros i j k v Hs' Hi Hj Hk' Hv. unfold isize, jsize, ksize, imax, imin, jmax, jmin, kmax, kmin in *. split; [unfold in_box3; cbn [li lj lk]; lia|].
    right. cbn [la lv]. auto. }
  assert (Hf : forall i j k, faces3 g i j k = true -> 0 <= i < isize g /\ 0 <= j < jsize g /\ 0 <= k < ksize g).
  { intros i j k H. apply faces3_spec in H. lia. }
  assert (Hi : forall i j k, interior3 g i j k = true -> 0 <= i < isize g /\ 0 <= j < jsize g /\ 0 <= k < ksize g).
  { intros i j k H. apply interior3_spec in H. lia. }
  assert (Hsr : forall i j k, srange3 g i j k = true -> 0 <= i < isize g /\ 0 <= j < jsize g /\ 0 <= k < ksize g).
  { intros i j k H. apply srange3_spec in H. lia. }
  assert (SI : state_array true impl aIn) by (unfold state_array; destruct Ha as [[-> _]|[-> _]]; auto).
  assert (SO : state_array true impl aOut) by (unfold state_array; destruct Ha as [[_ ->]|[_ ->]]; auto).
  assert (SQ : state_array true impl aQ) by (unfold state_array; auto).
  assert (SF : impl = 0 \/ impl = 1 -> state_array true impl aFx) by (clear; unfold state_array; intuition).
  assert (SFy : impl = 0 -> state_array true impl aFy) by (clear; unfold state_array; intuition).
  assert (SSx : impl = 1 -> state_array true impl aSx) by (clear; unfold state_array; intuition).
  assert (SFz : impl = 0 -> state_array true impl aFz) by (clear; unfold state_array; intuition).
  assert (SSz : impl = 1 -> state_array true impl aSz) by (clear; unfold state_array; intuition).
  assert (SSy : impl = 1 -> state_array true impl aSy) by (clear; unfold state_array; intuition).
  Local Ltac bnd Hf Hi Hsr := repeat match goal with H : faces3 _ _ _ _ = true |- _ => apply Hf in H
     | H : interior3 _ _ _ _ = true |- _ => apply Hi in H | H : srange3 _ _ _ _ = true |- _ => apply Hsr in H end;
     subst; auto; lia.
  revert Hq.
  destruct Hps as [->|[->|[(H0 & [->| ->])|[(H1 & [->|[(d & ->)|(d & ->)]])|(Hge & ->)]]]];
    eapply ck_safe.
  - apply deep_copy3_ck; intros; apply Hs; bnd Hf Hi Hsr.
  - apply convert3_ck; intros; apply Hs; bnd Hf Hi Hsr.
  - apply fluxes3_ck; [lia| | |]; intros; [apply Hs|apply HG|repeat split; apply Hs]; bnd Hf Hi Hsr.
  - apply update3_ck; intros; repeat split; apply Hs; bnd Hf Hi Hsr.
  - apply compute_slopes3_ck; [lia| |]; intros; [apply Hs|repeat split; apply Hs]; bnd Hf Hi Hsr.
  - apply trace3_ck; [lia| | |]; intros; [apply Hs|apply HG|apply Hs]; try bnd Hf Hi Hsr.
    intuition; subst; auto.
  - apply update_dir3_ck; intros; try split; apply Hs; bnd Hf Hi Hsr.
  - apply gravity3_ck; intros; [repeat split; apply Hs|apply HG]; bnd Hf Hi Hsr.
Qed.
End Godunov3.
