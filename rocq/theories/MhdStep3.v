(** The 3D MHD step as a whole: variants 0 (stored fluxes) and 1 (atomic updates). *)
From Coq Require Import ZArith List Bool Lia Reals Lra.
From Verif Require Import Arith Par ParProofs GridModel BoundaryModel BoundarySpec BoundaryProofs
  HydroState HydroKernels CellKernels HydroExec HydroSpec HydroProofs2 HydroStep2 HydroProofs3 HydroStep3
  MhdState MhdRiemann MhdPoint MhdPoint3 MhdKernels2 MhdKernels3 MhdSpec MhdExec MhdProofs2 MhdField3 MhdProofs3 MhdStore3
  Atomic MhdAtomic3.
Import ListNotations.
Open Scope Z_scope.
Open Scope prog_scope.

Definition mout3 : list Z := [aQ; aFx; aFy; aFz; aSx; aSy; aSz; aEmf; aEl; aSf; aQ2; aDA; aDB; aDC] ++ traceW3.
Definition mscratch3 (aOut : Z) (l : loc) : Prop := la l = aOut \/ In (la l) mout3.
Ltac notin := let H := fresh in intros H; unfold mout3, traceW3, at3 in H; cbn [la In app aEdge aFace aFl aSl] in H; marrays; lia.
(** Membership of an array in the list of scratch arrays. *)
Ltac insc := unfold mout3, traceW3; cbn [app In]; tauto.

Section S3.
Context {T : Type} {AT : Arith T}.
Notation store := (store T).
Variable p : mparams T.
Variable g : grid.
Variable dt : T.
Variable junk : cell -> Z -> ms T.
Notation fr := (rng3 g (gw g) (gw g - 1)).
Notation interior := (rng3 g (gw g) (gw g)).

(** The loops of a step update [aOut] in place. *)
Definition mfrom3 (impl : Z) (u0 : ms T) (U : cell -> ms T) (c : cell) : ms T :=
  new3 p dt (flux_of p g dt junk impl (prim3 p U) U) (emff_of p g dt impl (prim3 p U) U) u0 c.

Lemma m3_framew W (s s' : store) a c : (forall l, ~ In (la l) W -> s' l = s l) -> ~ In a W -> m3 s' a c = m3 s a c.
Proof. intros H Hn. apply m3_frame. intros l Hl. apply H. rewrite Hl. exact Hn. Qed.

Lemma near_rng lo hi n m c c' : near n m c c' -> rng3 g lo hi c = true -> rng3 g (lo - n) (hi - m) c' = true.
Proof. clear dt p junk. rewrite !rng3_spec. unfold near. lia. Qed.
Lemma rng_weaken lo hi lo' hi' c : lo' <= lo -> hi' <= hi -> rng3 g lo hi c = true -> rng3 g lo' hi' c = true.
Proof. clear dt p junk. rewrite !rng3_spec. lia. Qed.

(** Fluxes and electromotive forces of the traced states after conversion, slopes and trace. *)
Lemma traced3 aIn aOut (s s1 s2 s3 s4 : store) : arr_ok aIn aOut -> 3 <= gw g ->
  par_exec s (mconvert3 p g aIn) s1 -> par_exec s1 (melec3 g aIn) s2 -> par_exec s2 (mmag3 p g aIn) s3 ->
  par_exec s3 (mtrace3 p g dt aIn) s4 ->
  (forall d c, fr c = true -> mrot d (fmem p junk s4 d c) = flux3f p g dt junk (prim3 p (m3 s aIn)) (m3 s aIn) d c) /\
  (forall e c, fr c = true -> emem p s4 e c = emf3f p g dt (prim3 p (m3 s aIn)) (m3 s aIn) e c) /\
  (forall l, ~ In (la l) ([aQ; aEl; aDA; aDB; aDC] ++ traceW3) -> s4 l = s l).
Proof.
  intros Ha Hg H1 H2 H3 H4.
  apply (mconvert3_spec p g aIn aOut) in H1; auto. destruct H1 as [C1 C2].
  apply (melec3_spec g aIn aOut) in H2; auto. destruct H2 as [E1 E2].
  apply (mmag3_spec p g aIn aOut) in H3; auto. destruct H3 as [M1 M2].
  apply (mtrace3_spec p g dt aIn aOut) in H4; auto; try lia. destruct H4 as [T1 T2].
  set (U := m3 s aIn). set (Q := prim3 p U).
  assert (UI : aIn <> aQ /\ aIn <> aEl /\ ~ In aIn [aDA; aDB; aDC]).
  { clear - Ha. split; [marrays; lia|split; [marrays; lia|notin]]. }
  destruct UI as (N1 & N2 & N3).
  assert (U1 : forall c, m3 s1 aIn c = U c) by (intros c; apply m3_frame; intros l Hl; apply C2; congruence).
  assert (U2 : forall c, m3 s2 aIn c = U c).
  { intros c. rewrite <- U1. apply m3_frame; intros l Hl; apply E2; congruence. }
  assert (U3 : forall c, m3 s3 aIn c = U c).
  { intros c. rewrite <- U2. apply (m3_framew _ _ _ _ _ M2 N3). }
  assert (Q3 : forall c, rng3 g 0 1 c = true -> m3 s3 aQ c = Q c).
  { intros c Hc. rewrite (m3_framew _ s2 s3 _ _ M2) by notin.
    rewrite (m3_frame s1 s2) by (intros l Hl; apply E2; rewrite Hl; discriminate). apply C1, Hc. }
  assert (EE : forall e c, rng3 g 1 1 c = true -> s3 (at3 aEl c (iDir e)) = elecf Q U e c).
  { intros e c Hc. rewrite M2 by notin. rewrite E1 by exact Hc. apply elecf_ext; intros c' Hn.
    - apply C1. eapply rng_weaken; [| |eapply near_rng; eauto]; lia.
    - apply U1. }
  assert (MM : forall d d' c, rng3 g 1 1 c = true -> s3 (at3 (aDb d) c (iDir d')) = magf p U d d' c).
  { intros d d' c Hc. rewrite M1 by exact Hc. apply magf_ext. intros c' _. apply U2. }
  assert (TT : forall c, rng3 g (gw g - 2) (gw g - 1) c = true ->
     teq (trace_mem p g dt s3 aIn c) (trace3f p g dt Q U c)).
  { intros c Hc. apply trace_mem_eq.
    - intros c' Hn. apply Q3. eapply rng_weaken; [| |eapply near_rng; eauto]; lia.
    - intros c' _. apply U3.
    - intros e c' Hn. apply EE. eapply rng_weaken; [| |eapply near_rng; eauto]; lia.
    - intros d d' c' Hn. apply MM. eapply rng_weaken; [| |eapply near_rng; eauto]; lia. }
  assert (TF : forall c d u, rng3 g (gw g - 2) (gw g - 1) c = true -> m3 s4 (aFace d u) c = tf (trace3f p g dt Q U c) d u).
  { intros c d u Hc. rewrite (proj1 (T1 c Hc)). apply (TT c Hc). }
  assert (TE : forall c e a b, rng3 g (gw g - 2) (gw g - 1) c = true -> m3 s4 (aEdge e a b) c = te (trace3f p g dt Q U c) e a b).
  { intros c e a b Hc. rewrite (proj2 (T1 c Hc)). apply (TT c Hc). }
  assert (Rn : forall c c', fr c = true -> near 1 0 c c' -> rng3 g (gw g - 2) (gw g - 1) c' = true).
  { intros c c' Hc Hn. eapply rng_weaken; [| |eapply near_rng; eauto]; lia. }
  split; [|split].
  - intros d c Hc. unfold fmem, flux3f. rewrite !TF; [reflexivity|..]; eapply Rn; eauto;
      [apply near_refl|apply near_move]; lia.
  - intros e c Hc. unfold emem, emf3f. rewrite !TE; [reflexivity|..]; eapply Rn; eauto;
      [apply near_refl|apply near_move|apply near_move|apply near_edge]; lia.
  - intros l Hl. rewrite T2, M2, E2, C2; auto; intros X; apply Hl; try rewrite X; cbn [In app] in *; tauto.
Qed.

Lemma interior_fr c : interior c = true -> fr c = true /\ forall d, fr (move d 1 c) = true.
Proof.
  clear dt p junk. intros H. split; [eapply rng_weaken; [| |exact H]; lia|]. intros d.
  apply rng3_spec in H. apply rng3_spec. destruct c as [[x y] z], d; unfold move, cx, cy, cz in *; cbn [fst snd] in *; lia.
Qed.

Lemma mscheme3_0 aIn aOut (s s' : store) : arr_ok aIn aOut -> 3 <= gw g ->
  run_kernels (mscheme3 p g dt junk 0 aIn aOut) s s' ->
  (forall c, interior c = true -> m3 s' aOut c = mfrom3 0 (m3 s aOut c) (m3 s aIn) c) /\
  (forall c v, interior c = false -> s' (at3 aOut c v) = s (at3 aOut c v)) /\
  (forall l, ~ mscratch3 aOut l -> s' l = s l).
Proof.
  intros Ha Hg Hk. unfold mscheme3 in Hk. cbn [Z.eqb] in Hk.
  apply rk_inv in Hk. destruct Hk as (s1 & H1 & Hk). apply rk_inv in Hk. destruct Hk as (s2 & H2 & Hk).
  apply rk_inv in Hk. destruct Hk as (s3 & H3 & Hk). apply rk_inv in Hk. destruct Hk as (s4 & H4 & Hk).
  apply rk_inv in Hk. destruct Hk as (s5 & H5 & Hk). apply rk_inv in Hk. destruct Hk as (s6 & H6 & Hk).
  apply rk_inv in Hk. destruct Hk as (s7 & H7 & Hk). apply rk_inv in Hk. destruct Hk as (s8 & H8 & Hk).
  apply rk_nil_inv in Hk. subst s8.
  destruct (traced3 aIn aOut s s1 s2 s3 s4 Ha Hg H1 H2 H3 H4) as (P1 & P2 & P3).
  apply mflux_store3_spec in H5; [|lia]. destruct H5 as [F1 F2].
  apply memf_store3_spec in H6; [|lia]. destruct H6 as [E1 E2].
  apply (mupdate3_spec p g dt aIn aOut) in H7; auto; [|lia]. destruct H7 as (U1 & U2 & U3).
  apply (mupdate_emf3_spec p g dt aIn aOut) in H8; auto; [|lia]. destruct H8 as (V1 & V2 & V3).
  set (Q := prim3 p (m3 s aIn)) in *. set (U := m3 s aIn) in *.
  assert (NO : ~ In aOut ([aQ; aEl; aDA; aDB; aDC] ++ traceW3) /\ ~ In aOut [aFx; aFy; aFz] /\ aOut <> aEmf).
  { clear - Ha. split; [notin|split; [notin|marrays; lia]]. }
  destruct NO as (N1 & N2 & N3).
  assert (EO : forall c, m3 s6 aOut c = m3 s aOut c).
  { intros c. rewrite <- (m3_framew _ s s4 aOut c P3 N1), <- (m3_framew _ s4 s5 aOut c F2 N2).
    apply m3_frame. intros l Hl. apply E2. congruence. }
  assert (EE : forall e c, fr c = true -> s7 (at3 aEmf c (iEmf e)) = emf3f p g dt Q U e c).
  { intros e c Hf. rewrite U3 by (cbn [at3 la]; congruence). rewrite E1 by exact Hf. rewrite <- P2 by exact Hf. unfold emem.
    rewrite !(m3_framew _ s4 s5) by (exact F2 || (destruct e; notin)). reflexivity. }
  assert (FF : forall d c, fr c = true -> mrot d (m3 s6 (aFl d) c) = flux3f p g dt junk Q U d c).
  { intros d c Hf. rewrite (m3_frame s5 s6) by (intros l Hl; apply E2; rewrite Hl; destruct d; discriminate).
    rewrite F1 by exact Hf. apply P1, Hf. }
  split; [|split].
  - intros c Hc. rewrite V1, U1, EO by exact Hc. destruct (interior_fr c Hc) as [I1 I2].
    unfold mfrom3, flux_of, emff_of. cbn [Z.eqb]. fold U Q. unfold new3, accf, indf. rewrite !EE, !FF by auto. reflexivity.
  - intros c v Hc. rewrite V2, U2, E2, F2, P3; auto.
  - intros l Hl. unfold mscratch3 in Hl.
    rewrite V3, U3, E2, F2, P3; auto; intros X; apply Hl; auto; right; try rewrite X; try insc;
      unfold mout3; cbn [In app] in *; tauto.
Qed.

(** ** The whole step, given what its loops after the copy compute *)
Definition scheme_ok3 (impl aIn aOut : Z) : Prop := forall s s' : store,
  run_kernels (mscheme3 p g dt junk impl aIn aOut) s s' ->
  (forall c, interior c = true -> m3 s' aOut c = mfrom3 impl (m3 s aOut c) (m3 s aIn) c) /\
  (forall l, ~ mscratch3 aOut l -> s' l = s l).
Lemma scheme_ok3_0 aIn aOut : arr_ok aIn aOut -> 3 <= gw g -> scheme_ok3 0 aIn aOut.
Proof. intros Ha Hg s s' Hk. destruct (mscheme3_0 aIn aOut s s' Ha Hg Hk) as (A & _ & B). auto. Qed.

Definition mfil (s : store) (a : Z) (c : cell) : ms T := mfill3 g s a (cx c) (cy c) (cz c).
Notation alloc c := (rng3 g 0 0 c).

Lemma mgodunov3_fill impl aIn aOut (s s' : store) : arr_ok aIn aOut -> mhd_grid3 g ->
  run_kernels (mgodunov3 p g dt junk impl aIn aOut) s s' ->
  exists s2, run_kernels (mscheme3 p g dt junk impl aIn aOut) s2 s' /\
   (forall c v, alloc c = true -> 0 <= v < 8 ->
     s2 (at3 aIn c v) = filled3d true g (fun i j k v => s (Loc aIn i j k v)) (cx c) (cy c) (cz c) v) /\
   (forall c v, alloc c = true -> 0 <= v < 8 ->
     s2 (at3 aOut c v) = filled3d true g (fun i j k v => s (Loc aIn i j k v)) (cx c) (cy c) (cz c) v) /\
   (forall l, ~ mscratch3 aOut l -> la l <> aIn -> s2 l = s l).
Proof.
  intros Ha Hg Hk. pose proof Hg as ((G1 & G2 & G3 & G4) & G5).
  unfold mgodunov3 in Hk. apply run_kernels_app in Hk. destruct Hk as (s1 & Hb & Hk).
  apply rk_inv in Hk. destruct Hk as (s2 & Hc & Hk).
  assert (Hok : grid_ok3d g) by (clear - G1 G2 G3 G4 G5; unfold grid_ok3d, grid_ok2d; lia).
  destruct (fill3_spec true g aIn s s1 Hok Hb) as [B1 B2].
  assert (Hne : aOut <> aIn) by (clear - Ha; marrays; lia).
  destruct (deep_copy_spec g (cells3 g) aOut aIn s1 s2 (NoDup_cells3 g) Hne Hc) as [D1 D2].
  exists s2. split; [exact Hk|]. unfold at3. split; [|split].
  - intros c v Hr Hv. apply rng3_spec in Hr. rewrite D2.
    + apply B1; clear - Hr Hv G2; unfold isize, jsize, ksize, imax, imin, jmax, jmin, kmax, kmin in *; lia.
    + cbn [la]. intros [H _]. congruence.
  - intros c v Hr Hv. apply rng3_spec in Hr. rewrite D1.
    + apply B1; clear - Hr Hv G2; unfold isize, jsize, ksize, imax, imin, jmax, jmin, kmax, kmin in *; lia.
    + apply in3; lia.
    + rewrite G2. exact Hv.
  - intros l Hl Hn. rewrite D2, B2; auto.
    + unfold alloc3d. tauto.
    + intros [H _]. apply Hl. left. exact H.
Qed.

Lemma m3_fill (s s2 : store) a b c :
  (forall v, 0 <= v < 8 -> s2 (at3 a c v) = filled3d true g (fun i j k v => s (Loc b i j k v)) (cx c) (cy c) (cz c) v) ->
  m3 s2 a c = mfil s b c.
Proof. clear. unfold at3. intros H. unfold m3, mst, mfil, mfill3. rewrite !H by (unfold ID, IP, IU, IV, IW, IA, IB, IC; lia). reflexivity. Qed.

Lemma vstep3_ext impl U U' c : (forall c', near 2 3 c c' -> U c' = U' c') ->
  vstep3 p g dt junk impl U c = vstep3 p g dt junk impl U' c.
Proof.
  intros H. unfold vstep3. rewrite (H c) by (apply near_refl; lia).
  assert (HQ : forall c', near 2 2 c c' -> prim3 p U c' = prim3 p U' c').
  { intros c' Hn. apply prim3_ext. intros c'' Hn'. apply H. eapply near_trans; eauto; lia. }
  apply new3_ext.
  - intros d c' Hc. assert (N : near 0 1 c c') by (destruct Hc as [->| ->]; [apply near_refl|apply near_move]; lia).
    apply flux_of_ext; intros c'' Hn; [apply HQ|apply H]; eapply near_trans; eauto; lia.
  - intros e d c' Hc. assert (N : near 0 1 c c') by (destruct Hc as [->|[_ ->]]; [apply near_refl|apply near_move]; lia).
    apply emff_of_ext; intros c'' Hn; [apply HQ|apply H]; eapply near_trans; eauto; lia.
Qed.

Lemma mgodunov3_gen impl aIn aOut (s s' : store) : arr_ok aIn aOut -> mhd_grid3 g ->
  scheme_ok3 impl aIn aOut ->
  run_kernels (mgodunov3 p g dt junk impl aIn aOut) s s' ->
  (forall c, interior c = true -> m3 s' aOut c = vstep3 p g dt junk impl (mfil s aIn) c) /\
  (forall c v, alloc c = true -> 0 <= v < 8 ->
     s' (at3 aIn c v) = filled3d true g (fun i j k v => s (Loc aIn i j k v)) (cx c) (cy c) (cz c) v) /\
  (forall l, ~ mscratch3 aOut l -> la l <> aIn -> s' l = s l).
Proof.
  intros Ha Hg Hs Hk. destruct (mgodunov3_fill impl aIn aOut s s' Ha Hg Hk) as (s2 & Hk2 & BI & BO & BF).
  pose proof Hg as ((G1 & G2 & G3 & G4) & G5).
  destruct (Hs s2 s' Hk2) as [S1 S3].
  split; [|split].
  - intros c Hc.
    assert (Al : forall c', near 2 3 c c' -> alloc c' = true).
    { intros c' Hn. eapply rng_weaken; [| |eapply near_rng; eauto]; lia. }
    rewrite S1 by exact Hc.
    rewrite (m3_fill s s2 aOut aIn c) by (intros; apply BO; auto; apply Al, near_refl; lia).
    rewrite <- (m3_fill s s2 aIn aIn c) by (intros; apply BI; auto; apply Al, near_refl; lia).
    change (vstep3 p g dt junk impl (m3 s2 aIn) c = vstep3 p g dt junk impl (mfil s aIn) c).
    apply vstep3_ext. intros c' Hn. apply m3_fill. intros v Hv. apply BI; auto.
  - intros c v Hr Hv. rewrite S3; [apply BI; auto|].
    unfold mscratch3, at3; cbn [la]. intros [Hc|Hc]; [clear - Ha Hc; marrays; lia|revert Hc; clear - Ha; notin].
  - intros l Hl Hn. rewrite S3; auto.
Qed.
End S3.

Section R3.
Variable p : mparams R.
Variable g : grid.
Variable dt : R.
Variable junk : cell -> Z -> ms R.
Notation fr := (rng3 g (gw g) (gw g - 1)).

Lemma mscheme3_1 aIn aOut : arr_ok aIn aOut -> 3 <= gw g -> scheme_ok3 p g dt junk 1 aIn aOut.
Proof.
  intros Ha Hg s s' Hk. unfold mscheme3 in Hk. cbn [Z.eqb Pos.eqb] in Hk.
  apply rk_inv in Hk. destruct Hk as (s1 & H1 & Hk). apply rk_inv in Hk. destruct Hk as (s2 & H2 & Hk).
  apply rk_inv in Hk. destruct Hk as (s3 & H3 & Hk). apply rk_inv in Hk. destruct Hk as (s4 & H4 & Hk).
  apply rk_inv in Hk. destruct Hk as (s5 & H5 & Hk). apply rk_inv in Hk. destruct Hk as (s6 & H6 & Hk).
  apply rk_nil_inv in Hk. subst s6.
  destruct (traced3 p g dt junk aIn aOut s s1 s2 s3 s4 Ha Hg H1 H2 H3 H4) as (P1 & P2 & P3).
  apply (mflux_update3_spec p g dt ltac:(lia) junk aIn aOut) in H5; auto. destruct H5 as [F1 F2].
  apply (memf_update3_spec p g dt ltac:(lia) aIn aOut) in H6; auto. destruct H6 as [E1 E2].
  set (Q := prim3 p (m3 s aIn)) in *. set (U := m3 s aIn) in *.
  assert (N1 : ~ In aOut ([aQ; aEl; aDA; aDB; aDC] ++ traceW3)) by (clear - Ha; notin).
  assert (EE : forall e c, fr c = true -> emem p s5 e c = emf3f p g dt Q U e c).
  { intros e c Hf. rewrite <- P2 by exact Hf. unfold emem.
    rewrite !(m3_frame s4 s5) by (intros l Hl; apply F2; rewrite Hl; clear - Ha; destruct e; cbn [aEdge]; marrays; lia). reflexivity. }
  split.
  - intros c Hc. rewrite E1, F1 by exact Hc. rewrite (m3_framew _ s s4 aOut c P3 N1). destruct (interior_fr g c Hc) as [I1 I2].
    unfold mfrom3, flux_of, emff_of. cbn [Z.eqb Pos.eqb]. fold U Q. unfold new3, accf, indf. rewrite !EE, !P1 by auto. reflexivity.
  - intros l Hl. unfold mscratch3 in Hl.
    rewrite E2, F2, P3; auto; intros X; apply Hl; auto; right; unfold mout3; cbn [In app] in *; tauto.
Qed.
End R3.
