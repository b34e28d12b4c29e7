(** The low-memory variant of the 3D MHD step (variant 2): what its loops compute. *)
From Coq Require Import ZArith List Bool Lia Reals Lra.
From Verif Require Import Arith Par ParProofs GridModel BoundaryModel BoundarySpec BoundaryProofs
  HydroState HydroKernels CellKernels HydroExec HydroSpec HydroProofs2 HydroStep2 HydroProofs3 HydroStep3
  MhdState MhdRiemann MhdPoint MhdPoint3 MhdKernels2 MhdKernels3 MhdSpec MhdExec MhdProofs2 MhdField3 MhdProofs3 MhdStore3
  Atomic MhdAtomic2 MhdAtomic3 MhdStep3.
Import ListNotations.
Open Scope Z_scope.
Open Scope prog_scope.

Section L3.
Context {T : Type} {AT : Arith T}.
Notation store := (store T).
Variable p : mparams T.
Variable g : grid.
Variable dt : T.

Lemma m3_wrb (s : store) a c d x : m3 (upd s (at3 a c (iB d)) x) a c = setb d (m3 s a c) x.
Proof. unfold m3, mst, at3. destruct d; cbn [iB setb]; rewrite !upd_eq; reflexivity. Qed.
Lemma m3_upd_other (s : store) l x a c : la l <> a -> m3 (upd s l x) a c = m3 s a c.
Proof. intros H. apply m3_frame. intros l' Hl. apply upd_other. intros E. subst. congruence. Qed.

(** Slopes. *)
Definition slope_mem (s : store) (aIn : Z) (d : comp3) (c : cell) : ms T :=
  setb d (slope_vec p (m3 s aQ c) (m3 s aQ (move d 1 c)) (m3 s aQ (move d (-1) c)))
    (bcomp d (m3 s aIn (move d 1 c)) - bcomp d (m3 s aIn c))%A.
Lemma exec_slope_dir {B} aIn q d c j (f : ms T -> prog T B) (s : store) :
  slope12 p = true -> aIn <> aSl d ->
  exists s1, exec (bind (slope_dir3 p aIn q d c j) f) s = exec (f (slope_vec p q (m3 s aQ (move d 1 c)) (m3 s aQ (move d (-1) c)))) s1 /\
    m3 s1 (aSl d) c = setb d (slope_vec p q (m3 s aQ (move d 1 c)) (m3 s aQ (move d (-1) c)))
      (bcomp d (m3 s aIn (move d 1 c)) - bcomp d (m3 s aIn c))%A /\
    (forall l, la l <> aSl d -> s1 l = s l).
Proof.
  intros Hs Ha. unfold slope_dir3.
  assert (Es : forall a b j, slope_mhd p q a b j = slope_vec p q a b) by (intros; unfold slope_mhd; rewrite Hs; reflexivity).
  rewrite <- (Es _ _ j). set (dq := slope_mhd p q _ _ j).
  exists (upd (exec (put (aSl d) c dq) s) (at3 (aSl d) c (iB d)) (bcomp d (m3 s aIn (move d 1 c)) - bcomp d (m3 s aIn c))%A).
  assert (O : forall c', m3 (exec (put (aSl d) c dq) s) aIn c' = m3 s aIn c') by (intros; apply m3_put_other; auto).
  split; [|split].
  - rewrite <- !O, <- !rd_b. reflexivity.
  - rewrite m3_wrb, m3_put_same. reflexivity.
  - intros l Hl. rewrite upd_other by (unfold at3; intros <-; apply Hl; reflexivity). apply put_other, Hl.
Qed.
Lemma mslopes3_spec junk aIn aOut (s s' : store) : slope12 p = true -> arr_ok aIn aOut ->
  par_exec s (mslopes3 p g junk aIn) s' ->
  (forall d c, rng3 g 1 1 c = true -> m3 s' (aSl d) c = slope_mem s aIn d c) /\
  (forall l, ~ In (la l) [aSx; aSy; aSz] -> s' l = s l).
Proof.
  intros Hs Ha Hex. unfold mslopes3 in Hex. use_loop (@loop3_m3 T) [aSx; aSy; aSz] Hex H1 H2.
  { intros c. unfold cellprog, slope_dir3. nums. macc3; mfp3. }
  split; [|intros l Hl; apply H2; tauto].
  intros d c Hc. rewrite H1 by (auto; destruct d; cbn; auto). rewrite exec_load.
  assert (Na : forall d, aIn <> aSl d) by (clear - Ha; intros d; destruct d; cbn [aSl]; marrays; lia).
  destruct (exec_slope_dir aIn (m3 s aQ c) CX c (junk c 0)
     (fun dq => dq <- slope_dir3 p aIn (m3 s aQ c) CY c dq ;; dq <- slope_dir3 p aIn (m3 s aQ c) CZ c dq ;; skip) s Hs (Na CX)) as (s1 & -> & A1 & B1).
  match goal with |- context [exec (bind (slope_dir3 p aIn ?q CY c ?j) ?f) s1] =>
    destruct (exec_slope_dir aIn q CY c j f s1 Hs (Na CY)) as (s2 & -> & A2 & B2) end.
  match goal with |- context [exec (bind (slope_dir3 p aIn ?q CZ c ?j) ?f) s2] =>
    destruct (exec_slope_dir aIn q CZ c j f s2 Hs (Na CZ)) as (s3 & -> & A3 & B3) end.
  change (exec skip s3) with s3.
  assert (F1 : forall a c', a <> aSx -> m3 s1 a c' = m3 s a c').
  { intros a c' Hn. apply m3_frame. intros l Hl. apply B1. cbn [aSl]; congruence. }
  assert (F2 : forall a c', a <> aSy -> m3 s2 a c' = m3 s1 a c').
  { intros a c' Hn. apply m3_frame. intros l Hl. apply B2. cbn [aSl]. congruence. }
  assert (F3 : forall a c', a <> aSz -> m3 s3 a c' = m3 s2 a c').
  { intros a c' Hn. apply m3_frame. intros l Hl. apply B3. cbn [aSl]. congruence. }
  pose proof (Na CX) as NX. pose proof (Na CY) as NY. cbn [aSl] in NX, NY.
  unfold slope_mem.
  destruct d.
  - rewrite F3, F2, A1 by discriminate. reflexivity.
  - rewrite F3, A2 by discriminate. rewrite !F1 by (discriminate || assumption). reflexivity.
  - rewrite A3. rewrite !F2, !F1 by (discriminate || assumption). reflexivity.
Qed.

Lemma msface3_spec (s s' : store) : par_exec s (msface3 p g dt) s' ->
  (forall c, rng3 g 1 1 c = true -> 
     s' (at3 aSf c IX) = ((s (at3 aEl (move CY 1 c) IZ) - s (at3 aEl c IZ)) * half * dtdy (mh p) dt
        - (s (at3 aEl (move CZ 1 c) IY) - s (at3 aEl c IY)) * half * dtdz (mh p) dt)%A /\
     s' (at3 aSf c IY) = (- (s (at3 aEl (move CX 1 c) IZ) - s (at3 aEl c IZ)) * half * dtdx (mh p) dt
        + (s (at3 aEl (move CZ 1 c) IX) - s (at3 aEl c IX)) * half * dtdz (mh p) dt)%A /\
     s' (at3 aSf c IZ) = ((s (at3 aEl (move CX 1 c) IY) - s (at3 aEl c IY)) * half * dtdx (mh p) dt
        - (s (at3 aEl (move CY 1 c) IX) - s (at3 aEl c IX)) * half * dtdy (mh p) dt)%A) /\
  (forall l, la l <> aSf -> s' l = s l).
Proof.
  intros Hex. unfold msface3 in Hex. use_loop (@loop3 T) [aSf] Hex H1 H2.
  { intros c. unfold cellprog. macc3; mfp3. }
  split; [|intros l Hl; apply H2; cbn; intuition].
  intros c Hc. rewrite !H1 by (cbn; auto). rewrite !exec_rd, !exec_wr. unfold exec; cbn [run wr snd].
  split; [|split]; repeat first [rewrite upd_same; reflexivity | rewrite upd_other by discriminate].
Qed.

Lemma mprimvar3_spec aIn aOut (s s' : store) : arr_ok aIn aOut -> 2 <= gw g -> par_exec s (mprimvar3 p g dt aIn) s' ->
  (forall c, rng3 g (gw g - 2) (gw g - 1) c = true ->
     m3 s' aQ2 c = primvar3 p (m3 s aQ c) (m3 s aSx c) (m3 s aSy c) (m3 s aSz c)
       (bcomp CX (m3 s aIn (move CX 1 c)) - bcomp CX (m3 s aIn c))%A
       (bcomp CY (m3 s aIn (move CY 1 c)) - bcomp CY (m3 s aIn c))%A
       (bcomp CZ (m3 s aIn (move CZ 1 c)) - bcomp CZ (m3 s aIn c))%A
       (dtdx (mh p) dt) (dtdy (mh p) dt) (dtdz (mh p) dt)) /\
  (forall l, la l <> aQ2 -> s' l = s l).
Proof.
  intros Ha Hg Hex. unfold mprimvar3 in Hex. use_loop (@loop3_m3 T) [aQ2] Hex H1 H2.
  { intros c. unfold cellprog. nums. macc3; mfp3. }
  split; [|intros l Hl; apply H2; cbn; intuition].
  intros c Hc. rewrite H1 by (cbn; auto). rewrite !exec_load. unfold gather3, gatherB, bind, rd. cbn [run exec]. 
  apply m3_put_same.
Qed.

(** What the arrays hold before the accumulation loops, as functions of the cell states. *)
Record low_mem (aIn : Z) (Q U : cell -> ms T) (s : store) : Prop := {
  lm_S : forall d c, rng3 g 1 2 c = true -> m3 s (aSl d) c = slopef p Q U d c;
  lm_F : forall d c, rng3 g 1 2 c = true -> s (at3 aSf c (iDir d)) = sfacef p dt Q U d c;
  lm_Q : forall c, rng3 g (gw g - 2) (gw g - 1) c = true -> m3 s aQ2 c = q2f p dt Q U c;
  lm_U : forall c, m3 s aIn c = U c }.
Lemma low_mem_frame aIn Q U s s' : low_mem aIn Q U s ->
  (forall l, la l = aIn \/ In (la l) [aSx; aSy; aSz; aSf; aQ2] -> s' l = s l) -> low_mem aIn Q U s'.
Proof.
  intros [A B C D] H. split.
  - intros d c Hc. rewrite <- A by exact Hc. apply m3_frame. intros l Hl. apply H. right. rewrite Hl. destruct d; cbn; auto.
  - intros d c Hc. rewrite <- B by exact Hc. apply H. right. cbn. auto.
  - intros c Hc. rewrite <- C by exact Hc. apply m3_frame. intros l Hl. apply H. right. rewrite Hl. cbn; auto 8.
  - intros c. rewrite <- D. apply m3_frame. intros l Hl. apply H. auto.
Qed.
Lemma low_mem_ok junk aIn aOut (s s1 s2 s3 s4 s5 : store) : slope12 p = true -> arr_ok aIn aOut -> 3 <= gw g ->
  par_exec s (mconvert3 p g aIn) s1 -> par_exec s1 (mslopes3 p g junk aIn) s2 -> par_exec s2 (mprimvar3 p g dt aIn) s3 ->
  par_exec s3 (melec3 g aIn) s4 -> par_exec s4 (msface3 p g dt) s5 ->
  low_mem aIn (prim3 p (m3 s aIn)) (m3 s aIn) s5 /\
  (forall l, ~ In (la l) [aQ; aSx; aSy; aSz; aQ2; aEl; aSf] -> s5 l = s l).
Proof.
  intros Hs Ha Hg H1 H2 H3 H4 H5.
  apply (mconvert3_spec p g aIn aOut) in H1; auto. destruct H1 as [C1 C2].
  apply (mslopes3_spec junk aIn aOut) in H2; auto. destruct H2 as [S1 S2].
  apply (mprimvar3_spec aIn aOut) in H3; auto; [|lia]. destruct H3 as [P1 P2].
  apply (melec3_spec g aIn aOut) in H4; auto. destruct H4 as [E1 E2].
  apply msface3_spec in H5. destruct H5 as [F1 F2].
  set (U := m3 s aIn). set (Q := prim3 p U).
  assert (UI : aIn <> aQ /\ ~ In aIn [aSx; aSy; aSz] /\ aIn <> aQ2 /\ aIn <> aEl /\ aIn <> aSf).
  { clear - Ha. repeat split; try (marrays; lia); notin. }
  destruct UI as (N1 & N2 & N3 & N4 & N5).
  assert (U1 : forall c, m3 s1 aIn c = U c) by (intros c; apply m3_frame; intros l Hl; apply C2; congruence).
  assert (U2 : forall c, m3 s2 aIn c = U c) by (intros c; rewrite <- U1; apply (m3_framew _ _ _ _ _ S2 N2)).
  assert (U3 : forall c, m3 s3 aIn c = U c) by (intros c; rewrite <- U2; apply m3_frame; intros l Hl; apply P2; congruence).
  assert (U5 : forall c, m3 s5 aIn c = U c).
  { intros c. rewrite <- U3. rewrite (m3_frame s4 s5) by (intros l Hl; apply F2; congruence).
    apply m3_frame; intros l Hl; apply E2; congruence. }
  assert (Q1 : forall c, rng3 g 0 1 c = true -> m3 s1 aQ c = Q c) by exact C1.
  assert (Q2 : forall c, rng3 g 0 1 c = true -> m3 s2 aQ c = Q c).
  { intros c Hc. rewrite <- Q1 by exact Hc. apply (m3_framew _ _ _ _ _ S2). notin. }
  assert (Q3 : forall c, rng3 g 0 1 c = true -> m3 s3 aQ c = Q c).
  { intros c Hc. rewrite <- Q2 by exact Hc. apply m3_frame. intros l Hl; apply P2; rewrite Hl; discriminate. }
  assert (SS : forall d c, rng3 g 1 2 c = true -> m3 s2 (aSl d) c = slopef p Q U d c).
  { intros d c Hc. rewrite S1 by (eapply rng_weaken; [| |exact Hc]; lia). unfold slope_mem, slopef. rewrite !U1.
    rewrite !Q1; [reflexivity|..]; (eapply rng_weaken; [| |eapply (near_rng g 1 2 1 1 c); [|exact Hc]]; [lia|lia|]);
      first [apply near_refl; lia|apply near_move; lia]. }
  assert (EE : forall e c, rng3 g 1 1 c = true -> s4 (at3 aEl c (iDir e)) = elecf Q U e c).
  { intros e c Hc. rewrite E1 by exact Hc. apply elecf_ext; intros c' Hn; [|apply U3].
    apply Q3. eapply rng_weaken; [| |eapply near_rng; eauto]; lia. }
  split.
  - split.
    + intros d c Hc. rewrite <- SS by exact Hc.
      rewrite (m3_frame s4 s5) by (intros l Hl; apply F2; rewrite Hl; destruct d; discriminate).
      rewrite (m3_frame s3 s4) by (intros l Hl; apply E2; rewrite Hl; destruct d; discriminate).
      apply m3_frame. intros l Hl; apply P2; rewrite Hl; destruct d; discriminate.
    + intros d c Hc.
      assert (Hc' : rng3 g 1 1 c = true) by (eapply rng_weaken; [| |exact Hc]; lia).
      assert (Hm : forall d, rng3 g 1 1 (move d 1 c) = true).
      { intros d'. eapply rng_weaken; [| |eapply (near_rng g 1 2 0 1 c); [|exact Hc]]; [lia|lia|]. apply near_move; lia. }
      destruct (F1 c Hc') as (A & B & C).
      pose proof (EE CX) as EX. pose proof (EE CY) as EY. pose proof (EE CZ) as EZ. cbn [iDir] in EX, EY, EZ.
      destruct d; cbn [iDir]; [rewrite A|rewrite B|rewrite C]; rewrite ?EX, ?EY, ?EZ by auto; reflexivity.
    + intros c Hc. rewrite (m3_frame s4 s5) by (intros l Hl; apply F2; rewrite Hl; discriminate).
      rewrite (m3_frame s3 s4) by (intros l Hl; apply E2; rewrite Hl; discriminate).
      rewrite P1 by exact Hc. unfold q2f. rewrite !U2, Q2 by (eapply rng_weaken; [| |exact Hc]; lia).
      pose proof (SS CX c) as X. pose proof (SS CY c) as Y. pose proof (SS CZ c) as Z0. cbn [aSl] in X, Y, Z0.
      rewrite X, Y, Z0; [reflexivity|..]; (eapply rng_weaken; [| |exact Hc]; lia).
    + exact U5.
  - intros l Hl. rewrite F2, E2, P2, S2, C2; auto; intros X; apply Hl; try rewrite X; cbn [In] in *; tauto.
Qed.
End L3.

Section R3.
Variable p : mparams R.
Variable g : grid.
Variable dt : R.
Variable junk : cell -> Z -> ms R.
Hypothesis Hgw : 3 <= gw g.
Notation fr := (rng3 g (gw g) (gw g - 1)).
Notation interior := (rng3 g (gw g) (gw g)).
Notation D := (dtd p dt).
Notation outM aOut := (fun l : loc => la l = aOut).

Lemma fr_low c c' : fr c = true -> near 1 0 c c' -> rng3 g 1 2 c' = true /\ rng3 g (gw g - 2) (gw g - 1) c' = true.
Proof. intros Hc Hn. split; (eapply rng_weaken; [| |eapply near_rng; eauto]; lia). Qed.

(** Flux and electromotive force computed from the arrays. *)
Definition fdir (s : store R) (aIn : Z) (d : comp3) (c : cell) : ms R :=
  let b := (s (at3 aIn c (iB d)) + s (at3 aSf c (iDir d)))%R in
  mrot d (riemann_mhd p (mrot d (setb d (face_plus p (m3 s aQ2 (move d (-1) c)) (m3 s (aSl d) (move d (-1) c))) b))
     (mrot d (setb d (face_minus p (m3 s aQ2 c) (m3 s (aSl d) c)) b)) (jflux junk d c)).
Lemma fdir_eq s aIn Q U d c : low_mem p g dt aIn Q U s -> fr c = true ->
  fdir s aIn d c = lflux3f p dt junk Q U d c.
Proof.
  intros [A B C E] Hc. unfold fdir, lflux3f.
  destruct (fr_low c c Hc) as [R1 R2]; [apply near_refl; lia|].
  destruct (fr_low c (move d (-1) c) Hc) as [R3 R4]; [apply near_move; lia|].
  rewrite rd_b, !A, !C, B, E by auto. reflexivity.
Qed.
Definition rmem (s : store R) (aIn : Z) (e : comp3) (a b : bool) (c : cell) : ms R :=
  let d0 := axis1 e in let d1 := axis2 e in
  let c0 := up d0 a c in let c1 := up d1 b c in
  recon3 p d0 d1 a b b a (m3 s aQ2 c) (m3 s (aSl d0) c) (m3 s (aSl d1) c)
    (s (at3 aIn c0 (iB d0)) + s (at3 aSf c0 (iDir d0)))%A
    (limited_slope3 p d1 (s (at3 aIn c0 (iB d0))) (s (at3 aIn (move d1 1 c0) (iB d0))) (s (at3 aIn (move d1 (-1) c0) (iB d0))))
    (s (at3 aIn c1 (iB d1)) + s (at3 aSf c1 (iDir d1)))%A
    (limited_slope3 p d0 (s (at3 aIn c1 (iB d1))) (s (at3 aIn (move d0 1 c1) (iB d1))) (s (at3 aIn (move d0 (-1) c1) (iB d1)))).
Definition edir (s : store R) (aIn : Z) (e : comp3) (c : cell) : R :=
  emf_of p e (rmem s aIn e true true (move (axis1 e) (-1) (move (axis2 e) (-1) c)))
    (rmem s aIn e true false (move (axis1 e) (-1) c))
    (rmem s aIn e false true (move (axis2 e) (-1) c)) (rmem s aIn e false false c).
Lemma rmem_eq s aIn Q U e a b c : low_mem p g dt aIn Q U s ->
  rng3 g 1 2 c = true -> rng3 g (gw g - 2) (gw g - 1) c = true ->
  rng3 g 1 2 (up (axis1 e) a c) = true -> rng3 g 1 2 (up (axis2 e) b c) = true ->
  rmem s aIn e a b c = ledgef p dt Q U e a b c.
Proof.
  intros [A B C E] H1 H2 H3 H4. unfold rmem, ledgef. cbv zeta. rewrite !rd_b, !A, !C, !B, !E by auto. reflexivity.
Qed.
Lemma edir_eq s aIn Q U e c : low_mem p g dt aIn Q U s -> fr c = true -> edir s aIn e c = lemf3f p dt Q U e c.
Proof.
  intros L Hc. unfold edir, lemf3f.
  assert (K : forall c', near 1 0 c c' -> rng3 g 1 2 c' = true /\ rng3 g (gw g - 2) (gw g - 1) c' = true) by (intros; apply fr_low with c; auto).
  rewrite !(rmem_eq s aIn Q U); auto;
    try (apply K; first [apply near_refl; lia | apply near_move; lia | apply near_edge]);
    apply K; destruct c as [[x y] z], e; pos3; cbn [axis1 axis2 fst snd]; lia.
Qed.

Lemma mflux_dir3_spec d aIn aOut (s s' : store R) : arr_ok aIn aOut -> par_exec s (mflux_dir3 p g dt junk d aIn aOut) s' ->
  (forall t, interior t = true ->
     m3 s' aOut t = upd_flux3 sub (upd_flux3 add (m3 s aOut t) (fdir s aIn d t) (D d)) (fdir s aIn d (move d 1 t)) (D d)) /\
  (forall l, la l <> aOut -> s' l = s l).
Proof.
  intros Ha Hex. unfold mflux_dir3 in Hex.
  match type of Hex with par_exec _ (md_for _ (fun c => when _ (@?b c))) _ =>
    apply (flux_loop1 p g dt ltac:(lia) d aOut b (fdir s aIn d) s s') end; [| |exact Hex].
  - intros c. cbv beta. nums.
    repeat (apply at_bind; [unfold load; first [apply at_mload|apply at_rd]; intros; unfold at3; cbn [la]; destruct d; cbn [aSl]; marrays_goal; lia|intros ?]).
    apply at_flux3.
  - intros c t v Hv. reflexivity.
Qed.

Lemma mrecon3_spec e aIn aOut (s s' : store R) : arr_ok aIn aOut -> par_exec s (mrecon3 p g dt e aIn aOut) s' ->
  (forall t, interior t = true -> m3 s' aOut t = ind1 p dt e (edir s aIn e) (m3 s aOut t) t) /\
  (forall l, la l <> aOut -> s' l = s l).
Proof.
  intros Ha Hex. unfold mrecon3 in Hex.
  match type of Hex with par_exec _ (md_for _ (fun c => when _ (@?b c))) _ =>
    apply (emf_loop1 p g dt ltac:(lia) e aOut b (edir s aIn e) s s') end; [| |exact Hex].
  - intros c. cbv beta zeta. nums.
    assert (R : forall a b q c, atomic_prog (outM aOut) (recon_edge3 p aIn e a b q c)).
    { intros a b q c'. unfold recon_edge3. cbv zeta.
      repeat (apply at_bind; [unfold load; first [apply at_mload|apply at_rd]; intros; unfold at3; cbn [la]; destruct e; cbn [aSl axis1 axis2]; marrays_goal; lia|intros ?]).
      apply at_ret. }
    do 4 (apply at_bind; [unfold load; apply at_mload; intros; cbn [la]; marrays_goal; lia|intros ?]).
    do 4 (apply at_bind; [apply R|intros ?]). apply at_emf3.
  - intros c t v Hv. cbv beta zeta.
    assert (Ld : forall a c (f : ms R -> prog R unit) l, contrib (bind (load a c) f) s l = contrib (f (m3 s a c)) s l) by reflexivity.
    assert (Rc : forall a b c (f : ms R -> prog R unit) l,
      contrib (bind (recon_edge3 p aIn e a b (m3 s aQ2 c) c) f) s l = contrib (f (rmem s aIn e a b c)) s l) by reflexivity.
    rewrite !Ld, !Rc. reflexivity.
Qed.

Lemma mscheme3_2 aIn aOut : arr_ok aIn aOut -> slope12 p = true -> scheme_ok3 p g dt junk 2 aIn aOut.
Proof.
  intros Ha Hs s s' Hk. unfold mscheme3 in Hk. cbn [Z.eqb Pos.eqb] in Hk.
  apply rk_inv in Hk. destruct Hk as (s1 & H1 & Hk). apply rk_inv in Hk. destruct Hk as (s2 & H2 & Hk).
  apply rk_inv in Hk. destruct Hk as (s3 & H3 & Hk). apply rk_inv in Hk. destruct Hk as (s4 & H4 & Hk).
  apply rk_inv in Hk. destruct Hk as (s5 & H5 & Hk). apply rk_inv in Hk. destruct Hk as (t1 & K1 & Hk).
  apply rk_inv in Hk. destruct Hk as (t2 & K2 & Hk). apply rk_inv in Hk. destruct Hk as (t3 & K3 & Hk).
  apply rk_inv in Hk. destruct Hk as (t4 & K4 & Hk). apply rk_inv in Hk. destruct Hk as (t5 & K5 & Hk).
  apply rk_inv in Hk. destruct Hk as (t6 & K6 & Hk). apply rk_nil_inv in Hk. subst t6.
  destruct (low_mem_ok p g dt junk aIn aOut s s1 s2 s3 s4 s5 Hs Ha Hgw H1 H2 H3 H4 H5) as [L0 P0].
  set (Q := prim3 p (m3 s aIn)) in *. set (U := m3 s aIn) in *.
  apply (mflux_dir3_spec CX aIn aOut) in K1; auto. destruct K1 as [A1 B1].
  apply (mflux_dir3_spec CY aIn aOut) in K2; auto. destruct K2 as [A2 B2].
  apply (mflux_dir3_spec CZ aIn aOut) in K3; auto. destruct K3 as [A3 B3].
  apply (mrecon3_spec CX aIn aOut) in K4; auto. destruct K4 as [A4 B4].
  apply (mrecon3_spec CY aIn aOut) in K5; auto. destruct K5 as [A5 B5].
  apply (mrecon3_spec CZ aIn aOut) in K6; auto. destruct K6 as [A6 B6].
  assert (Fr : forall s s', (forall l, la l <> aOut -> s' l = s l) -> low_mem p g dt aIn Q U s -> low_mem p g dt aIn Q U s').
  { intros x y Hxy L. eapply low_mem_frame; [exact L|]. intros l Hl. apply Hxy. clear - Ha Hl. cbn [In] in Hl. marrays. lia. }
  pose proof (Fr _ _ B1 L0) as L1. pose proof (Fr _ _ B2 L1) as L2. pose proof (Fr _ _ B3 L2) as L3.
  pose proof (Fr _ _ B4 L3) as L4. pose proof (Fr _ _ B5 L4) as L5.
  assert (N1 : ~ In aOut [aQ; aSx; aSy; aSz; aQ2; aEl; aSf]) by (clear - Ha; notin).
  split.
  - intros c Hc. destruct (interior_fr g c Hc) as [I1 I2].
    rewrite A6, A5, A4, A3, A2, A1 by exact Hc. rewrite (m3_framew _ s s5 aOut c P0 N1).
    rewrite !(fdir_eq s5 aIn Q U), !(fdir_eq t1 aIn Q U), !(fdir_eq t2 aIn Q U) by auto.
    unfold mfrom3, flux_of, emff_of. cbn [Z.eqb Pos.eqb]. fold U Q. unfold new3. rewrite <- ind_all'.
    unfold accf. cbn [dtd].
    generalize (upd_flux3 sub (upd_flux3 add (upd_flux3 sub (upd_flux3 add (upd_flux3 sub (upd_flux3 add (m3 s aOut c)
       (lflux3f p dt junk Q U CX c) (dtdx (mh p) dt)) (lflux3f p dt junk Q U CX (move CX 1 c)) (dtdx (mh p) dt))
       (lflux3f p dt junk Q U CY c) (dtdy (mh p) dt)) (lflux3f p dt junk Q U CY (move CY 1 c)) (dtdy (mh p) dt))
       (lflux3f p dt junk Q U CZ c) (dtdz (mh p) dt)) (lflux3f p dt junk Q U CZ (move CZ 1 c)) (dtdz (mh p) dt)).
    intros u. unfold ind1. cbn [axis1 axis2 esgn].
    rewrite !(edir_eq t3 aIn Q U), !(edir_eq t4 aIn Q U), !(edir_eq t5 aIn Q U) by auto. reflexivity.
  - intros l Hl. unfold mscratch3 in Hl.
    rewrite B6, B5, B4, B3, B2, B1, P0; auto; intros X; apply Hl; right; unfold mout3; cbn [In app] in *; tauto.
Qed.
End R3.
