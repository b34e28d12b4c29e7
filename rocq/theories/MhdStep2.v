(** The 2D MHD step as a whole: variants 0 (stored fluxes) and 1 (atomic updates). *)
From Coq Require Import ZArith List Bool Lia Reals Lra.
From Verif Require Import Arith Par ParProofs GridModel BoundaryModel BoundarySpec BoundaryProofs
  HydroState HydroKernels CellKernels HydroExec HydroSpec HydroProofs2 HydroStep2
  MhdState MhdRiemann MhdPoint MhdKernels2 MhdSpec MhdExec MhdField2 MhdProofs2 Atomic MhdAtomic2.
Import ListNotations.
Open Scope Z_scope.
Open Scope prog_scope.

Section S2.
Context {T : Type} {AT : Arith T}.
Notation store := (store T).
Variable p : mparams T.
Variable g : grid.
Variable dt : T.
Variable junk : Z * Z * Z -> Z -> ms T.

Definition mout2 : list Z := [aQ; aFx; aFy; aSx; aSy; aEmf; aEl; aSf; aQ2] ++ traceW.
Definition mscratch2 (aOut : Z) (l : loc) : Prop := la l = aOut \/ In (la l) mout2.

(** The loops of a step that update [aOut] in place of a state [u0]. *)
Definition mstepfrom2 (u0 : ms T) (U : Z -> Z -> ms T) (i j : Z) : ms T :=
  let Q := prim2 p U in
  new2 p dt u0 (fluxX2f p dt junk Q U i j) (fluxX2f p dt junk Q U (i + 1) j)
    (fluxY2f p dt junk Q U i j) (fluxY2f p dt junk Q U i (j + 1))
    (emf2f p dt junk Q U i j) (emf2f p dt junk Q U (i + 1) j) (emf2f p dt junk Q U i (j + 1)).
Lemma mstepfrom2_step U i j : mstepfrom2 (U i j) U i j = mstep2 p dt junk U i j.
Proof. reflexivity. Qed.

(** Fluxes and electromotive forces of the traced states after conversion and trace. *)
Lemma traced2 aIn aOut (s s1 s2 : store) : arr_ok aIn aOut -> 3 <= gw g ->
  par_exec s (mconvert2 p g aIn) s1 -> par_exec s1 (mtrace2 p g dt junk aIn) s2 ->
  (forall i j, faces2 g i j = true ->
     fX p junk s2 i j = fluxX2f p dt junk (prim2 p (m2 s aIn)) (m2 s aIn) i j /\
     fY p junk s2 i j = fluxY2f p dt junk (prim2 p (m2 s aIn)) (m2 s aIn) i j /\
     eZ p s2 i j = emf2f p dt junk (prim2 p (m2 s aIn)) (m2 s aIn) i j) /\
  (forall l, ~ In (la l) (aQ :: traceW) -> s2 l = s l).
Proof.
  intros Ha Hg H1 H2.
  apply (mconvert2_spec p g aIn aOut) in H1; auto. destruct H1 as [C1 C2].
  apply (mtrace2_spec p g dt junk aIn aOut) in H2; auto; try lia. destruct H2 as [T1 T2].
  set (U := m2 s aIn). set (Q := prim2 p U).
  assert (E : forall i j, gw g - 2 <= i <= isize g - gw g -> gw g - 2 <= j <= jsize g - gw g ->
     trace2f p dt junk (m2 s1 aQ) (m2 s1 aIn) i j = trace2f p dt junk Q U i j).
  { intros i j Hi Hj. apply trace2f_ext; intros i' j' Hi' Hj'.
    - apply C1; lia.
    - apply m2_frame. intros l Hl. apply C2. clear - Ha Hl. marrays. lia. }
  assert (F : forall i j, gw g - 2 <= i <= isize g - gw g -> gw g - 2 <= j <= jsize g - gw g ->
     Tr2 (m2 s2 aQmx i j) (m2 s2 aQpx i j) (m2 s2 aQmy i j) (m2 s2 aQpy i j)
         (m2 s2 aRT i j) (m2 s2 aRB i j) (m2 s2 aLT i j) (m2 s2 aLB i j) = trace2f p dt junk Q U i j).
  { intros i j Hi Hj. rewrite T1, E by auto. reflexivity. }
  split.
  - intros i j Hf. apply faces2_spec in Hf.
    pose proof (F i j ltac:(lia) ltac:(lia)) as F00. pose proof (F (i - 1) j ltac:(lia) ltac:(lia)) as F10.
    pose proof (F i (j - 1) ltac:(lia) ltac:(lia)) as F01. pose proof (F (i - 1) (j - 1) ltac:(lia) ltac:(lia)) as F11.
    unfold fX, fY, eZ, fluxX2f, fluxY2f, emf2f. unfold fX, fluxX2f.
    rewrite <- F00, <- F10, <- F01, <- F11. cbn [t_mx t_px t_my t_py t_RT t_RB t_LT t_LB]. auto.
  - intros l Hl. cbn [In] in Hl. rewrite T2, C2; auto.
Qed.

Lemma interior_faces2 i j : interior2 g i j = true ->
  faces2 g i j = true /\ faces2 g (i + 1) j = true /\ faces2 g i (j + 1) = true.
Proof. clear. intros H. apply interior2_spec in H. rewrite !faces2_spec. lia. Qed.

Lemma m2_framew W (s s' : store) a i j : (forall l, ~ In (la l) W -> s' l = s l) -> ~ In a W -> m2 s' a i j = m2 s a i j.
Proof. intros H Hn. apply m2_frame. intros l Hl. apply H. rewrite Hl. exact Hn. Qed.

Ltac notin := let H := fresh in intros H; cbn [In app traceW mout2] in H; unfold traceW in H; cbn [In app] in H; marrays; lia.

Lemma mscheme2_0 aIn aOut (s s' : store) : arr_ok aIn aOut -> 3 <= gw g ->
  run_kernels (mscheme2 p g dt junk 0 aIn aOut) s s' ->
  (forall i j, interior2 g i j = true -> m2 s' aOut i j = mstepfrom2 (m2 s aOut i j) (m2 s aIn) i j) /\
  (forall i j v, interior2 g i j = false -> s' (Loc aOut i j 0 v) = s (Loc aOut i j 0 v)) /\
  (forall l, ~ mscratch2 aOut l -> s' l = s l).
Proof.
  intros Ha Hg Hk. unfold mscheme2 in Hk. cbn [Z.eqb] in Hk.
  apply rk_inv in Hk. destruct Hk as (s1 & H1 & Hk). apply rk_inv in Hk. destruct Hk as (s2 & H2 & Hk).
  apply rk_inv in Hk. destruct Hk as (s3 & H3 & Hk). apply rk_inv in Hk. destruct Hk as (s4 & H4 & Hk).
  apply rk_inv in Hk. destruct Hk as (s5 & H5 & Hk). apply rk_inv in Hk. destruct Hk as (s6 & H6 & Hk).
  apply rk_nil_inv in Hk. subst s6.
  destruct (traced2 aIn aOut s s1 s2 Ha Hg H1 H2) as [P1 P2].
  apply mflux_store2_spec in H3; [|lia]. destruct H3 as [F1 F2].
  apply memf_store2_spec in H4; [|lia]. destruct H4 as [E1 E2].
  apply (mupdate2_spec p g dt aIn aOut) in H5; auto; [|lia]. destruct H5 as (U1 & U2 & U3).
  apply (mupdate_emf2_spec p g dt aIn aOut) in H6; auto; [|lia]. destruct H6 as (V1 & V2 & V3).
  assert (NO : ~ In aOut (aQ :: traceW) /\ ~ In aOut [aFx; aFy] /\ aOut <> aEmf).
  { clear - Ha. split; [notin|split; [notin|marrays; lia]]. }
  destruct NO as (N1 & N2 & N3).
  assert (EO : forall i j, m2 s4 aOut i j = m2 s aOut i j).
  { intros i j. rewrite <- (m2_framew _ s s2 aOut i j P2 N1), <- (m2_framew _ s2 s3 aOut i j F2 N2).
    apply m2_frame. intros l Hl. apply E2. congruence. }
  assert (EE : forall i j, faces2 g i j = true -> eZ p s3 i j = emf2f p dt junk (prim2 p (m2 s aIn)) (m2 s aIn) i j).
  { intros i j Hf. rewrite <- (proj2 (proj2 (P1 i j Hf))). unfold eZ.
    rewrite !(m2_framew _ s2 s3) by (exact F2 || notin). reflexivity. }
  split; [|split].
  - intros i j Hi. rewrite V1 by auto. cbv zeta. destruct (interior_faces2 i j Hi) as (Fa & Fb & Fc).
    rewrite !U3 by (cbn [la]; congruence). rewrite !E1 by auto. rewrite !EE by auto.
    rewrite U1 by auto. rewrite EO.
    rewrite !(m2_frame s3 s4 aFx), !(m2_frame s3 s4 aFy) by (intros l Hl; apply E2; rewrite Hl; discriminate).
    destruct (F1 i j Fa) as [-> ->]. destruct (F1 _ _ Fb) as [-> _]. destruct (F1 _ _ Fc) as [_ ->].
    destruct (P1 i j Fa) as (-> & -> & _). destruct (P1 _ _ Fb) as (-> & _ & _). destruct (P1 _ _ Fc) as (_ & -> & _).
    reflexivity.
  - intros i j v Hi. rewrite V2, U2, E2, F2, P2; auto.
  - intros l Hl. unfold mscratch2, mout2 in Hl.
    rewrite V3, U3, E2, F2, P2; auto; intros Hc; apply Hl; auto; right; apply in_or_app; cbn [In] in *; intuition.
Qed.

(** ** The whole step, given what its loops after the copy compute *)
Definition scheme_ok2 (impl aIn aOut : Z) : Prop := forall s s' : store,
  run_kernels (mscheme2 p g dt junk impl aIn aOut) s s' ->
  (forall i j, interior2 g i j = true -> m2 s' aOut i j = mstepfrom2 (m2 s aOut i j) (m2 s aIn) i j) /\
  (forall l, ~ mscratch2 aOut l -> s' l = s l).

Lemma mgodunov2_fill impl aIn aOut (s s' : store) : arr_ok aIn aOut -> mhd_grid2 g ->
  run_kernels (mgodunov2 p g dt junk impl aIn aOut) s s' ->
  exists s2, run_kernels (mscheme2 p g dt junk impl aIn aOut) s2 s' /\
   (forall i j v, 0 <= i < isize g -> 0 <= j < jsize g -> 0 <= v < 8 ->
     s2 (Loc aIn i j 0 v) = filled2d true g (fun i j v => s (Loc aIn i j 0 v)) i j v) /\
   (forall i j v, 0 <= i < isize g -> 0 <= j < jsize g -> 0 <= v < 8 ->
     s2 (Loc aOut i j 0 v) = filled2d true g (fun i j v => s (Loc aIn i j 0 v)) i j v) /\
   (forall l, ~ mscratch2 aOut l -> la l <> aIn -> s2 l = s l).
Proof.
  intros Ha Hg Hk. pose proof Hg as (G1 & G2 & G3 & G4).
  unfold mgodunov2 in Hk. apply run_kernels_app in Hk. destruct Hk as (s1 & Hb & Hk).
  apply rk_inv in Hk. destruct Hk as (s2 & Hc & Hk).
  assert (Hok : grid_ok2d g) by (clear - G1 G2 G3 G4; unfold grid_ok2d; lia).
  destruct (fill2_spec true g aIn s s1 Hok Hb) as [B1 B2].
  assert (Hne : aOut <> aIn) by (clear - Ha; marrays; lia).
  destruct (deep_copy_spec g (cells2 g) aOut aIn s1 s2 (NoDup_cells2 g) Hne Hc) as [D1 D2].
  exists s2. split; [exact Hk|]. split; [|split].
  - intros i j v Hi Hj Hv. rewrite D2.
    + apply B1; clear - Hi Hj Hv G2; unfold isize, jsize, imax, imin, jmax, jmin in *; lia.
    + cbn [la]. intros [H _]. congruence.
  - intros i j v Hi Hj Hv. rewrite D1.
    + apply B1; clear - Hi Hj Hv G2; unfold isize, jsize, imax, imin, jmax, jmin in *; lia.
    + apply in2; auto.
    + rewrite G2. exact Hv.
  - intros l Hl Hn. rewrite D2, B2; auto.
    + unfold alloc2d. tauto.
    + intros [H _]. apply Hl. left. exact H.
Qed.

Lemma m2_fill (s s2 : store) a b i j : 
  (forall v, 0 <= v < 8 -> s2 (Loc a i j 0 v) = filled2d true g (fun i j v => s (Loc b i j 0 v)) i j v) ->
  m2 s2 a i j = mfill2 g s b i j.
Proof. clear. intros H. unfold m2, mst, mfill2. rewrite !H by (unfold ID, IP, IU, IV, IW, IA, IB, IC; lia). reflexivity. Qed.

Lemma mgodunov2_gen impl aIn aOut (s s' : store) : arr_ok aIn aOut -> mhd_grid2 g ->
  scheme_ok2 impl aIn aOut ->
  run_kernels (mgodunov2 p g dt junk impl aIn aOut) s s' ->
  (forall i j, inside2 g i j -> m2 s' aOut i j = mstep2 p dt junk (mfill2 g s aIn) i j) /\
  (forall i j v, 0 <= i < isize g -> 0 <= j < jsize g -> 0 <= v < 8 ->
     s' (Loc aIn i j 0 v) = filled2d true g (fun i j v => s (Loc aIn i j 0 v)) i j v) /\
  (forall l, ~ mscratch2 aOut l -> la l <> aIn -> s' l = s l).
Proof.
  intros Ha Hg Hs Hk. destruct (mgodunov2_fill impl aIn aOut s s' Ha Hg Hk) as (s2 & Hk2 & BI & BO & BF).
  pose proof Hg as (G1 & G2 & G3 & G4).
  destruct (Hs s2 s' Hk2) as [S1 S3].
  split; [|split].
  - intros i j Hi. assert (Hr' : 3 <= i < isize g - 3 /\ 3 <= j < jsize g - 3).
    { apply interior2_inside, interior2_spec in Hi. clear - Hi G1. lia. }
    rewrite S1 by (apply interior2_inside; auto).
    rewrite (m2_fill s s2 aOut aIn i j) by (intros; apply BO; auto; lia).
    rewrite <- (m2_fill s s2 aIn aIn i j) by (intros; apply BI; auto; lia).
    rewrite mstepfrom2_step. apply mstep2_ext.
    intros i' j' Hi' Hj'. apply m2_fill. intros v Hv. apply BI; auto; lia.
  - intros i j v Hi Hj Hv. rewrite S3; [apply BI; auto|].
    unfold mscratch2; cbn [la]. intros [Hc|Hc]; [clear - Ha Hc; marrays; lia|revert Hc; clear - Ha; notin].
  - intros l Hl Hn. rewrite S3; auto.
Qed.
End S2.
Ltac notin := let H := fresh in intros H; cbn [In app traceW mout2] in H; unfold traceW in H; cbn [In app] in H; marrays; lia.

Section R2.
Variable p : mparams R.
Variable g : grid.
Variable dt : R.
Variable junk : Z * Z * Z -> Z -> ms R.

Lemma mscheme2_1 aIn aOut : arr_ok aIn aOut -> 3 <= gw g -> scheme_ok2 p g dt junk 1 aIn aOut.
Proof.
  intros Ha Hg s s' Hk. unfold mscheme2 in Hk. cbn [Z.eqb Pos.eqb] in Hk.
  apply rk_inv in Hk. destruct Hk as (s1 & H1 & Hk). apply rk_inv in Hk. destruct Hk as (s2 & H2 & Hk).
  apply rk_inv in Hk. destruct Hk as (s3 & H3 & Hk). apply rk_inv in Hk. destruct Hk as (s4 & H4 & Hk).
  apply rk_nil_inv in Hk. subst s4.
  destruct (traced2 p g dt junk aIn aOut s s1 s2 Ha Hg H1 H2) as [P1 P2].
  apply (mflux_update2_spec p g dt junk aIn aOut) in H3; auto; [|lia]. destruct H3 as [F1 F2].
  apply (memf_update2_spec p g dt aIn aOut) in H4; auto; [|lia]. destruct H4 as [E1 E2].
  assert (N1 : ~ In aOut (aQ :: traceW)) by (clear - Ha; notin).
  assert (EE : forall i j, faces2 g i j = true -> eZ p s3 i j = emf2f p dt junk (prim2 p (m2 s aIn)) (m2 s aIn) i j).
  { intros i j Hf. rewrite <- (proj2 (proj2 (P1 i j Hf))). unfold eZ.
    rewrite !(m2_frame s2 s3) by (intros l Hl; apply F2; rewrite Hl; clear - Ha; marrays; lia). reflexivity. }
  split.
  - intros i j Hi. rewrite E1 by auto. destruct (interior_faces2 g i j Hi) as (Fa & Fb & Fc).
    rewrite !EE by auto. rewrite F1 by auto. rewrite (m2_framew _ s s2 aOut i j P2 N1).
    destruct (P1 i j Fa) as (-> & -> & _). destruct (P1 _ _ Fb) as (-> & _ & _). destruct (P1 _ _ Fc) as (_ & -> & _).
    reflexivity.
  - intros l Hl. unfold mscratch2, mout2 in Hl.
    rewrite E2, F2, P2; auto; intros Hc; apply Hl; auto; right; apply in_or_app; cbn [In] in *; intuition.
Qed.
End R2.
