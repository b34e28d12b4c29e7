(** Loops of the 3D MHD solver that store fluxes and electromotive forces and update from them. *)
From Coq Require Import ZArith List Bool Lia.
From Verif Require Import Arith Par ParProofs GridModel BoundaryModel BoundarySpec BoundaryProofs
  HydroState HydroKernels CellKernels HydroExec HydroSpec HydroProofs2 HydroStep2 HydroProofs3
  MhdState MhdRiemann MhdPoint MhdPoint3 MhdKernels2 MhdKernels3 MhdSpec MhdExec MhdProofs2 MhdField3 MhdProofs3.
Import ListNotations.
Open Scope Z_scope.
Open Scope prog_scope.

Section P3.
Context {T : Type} {AT : Arith T}.
Notation store := (store T).
Variable p : mparams T.
Variable g : grid.
Variable dt : T.

(** Flux and electromotive force of the traced states held in memory. *)
Definition fmem (junk : cell -> Z -> ms T) (s : store) (d : comp3) (c : cell) : ms T :=
  riemann_mhd p (mrot d (m3 s (aFace d true) (move d (-1) c))) (mrot d (m3 s (aFace d false) c)) (jflux junk d c).
Definition emem (s : store) (e : comp3) (c : cell) : T :=
  emf_of p e (m3 s (aEdge e true true) (move (axis1 e) (-1) (move (axis2 e) (-1) c)))
    (m3 s (aEdge e true false) (move (axis1 e) (-1) c)) (m3 s (aEdge e false true) (move (axis2 e) (-1) c))
    (m3 s (aEdge e false false) c).
Lemma run_flux3 junk d c (s : store) : run (load_flux3 p junk d c) s = (fmem junk s d c, s).
Proof. reflexivity. Qed.
Lemma run_emf3 e c (s : store) : run (load_emf3 p e c) s = (emem s e c, s).
Proof. reflexivity. Qed.

Lemma mflux_store3_spec junk (s s' : store) : 0 < gw g -> par_exec s (mflux_store3 p g junk) s' ->
  (forall c d, rng3 g (gw g) (gw g - 1) c = true -> m3 s' (aFl d) c = fmem junk s d c) /\
  (forall l, ~ In (la l) [aFx; aFy; aFz] -> s' l = s l).
Proof.
  intros Hg Hex. unfold mflux_store3 in Hex. use_loop (@loop3_m3 T) [aFx; aFy; aFz] Hex H1 H2.
  { intros c. unfold cellprog, load_flux3. macc3; mfp3. }
  split; [|intros l Hl; apply H2; tauto].
  intros c d Hc. rewrite H1 by (auto; destruct d; cbn; auto).
  assert (K : forall s1 d, (forall l, ~ In (la l) [aFx; aFy; aFz] -> s1 l = s l) ->
    run (load_flux3 p junk d c) s1 = (fmem junk s d c, s1)).
  { intros s1 d0 E. rewrite run_flux3. unfold fmem.
    rewrite !(m3_frame s s1) by (intros l Hl; apply E; rewrite Hl; destruct d0; cbn; intros X; decompose [or] X; try discriminate; contradiction).
    reflexivity. }
  assert (N : forall (s0 : store) a q l, In a [aFx; aFy; aFz] -> ~ In (la l) [aFx; aFy; aFz] -> exec (put a c q) s0 l = s0 l).
  { intros s0 a q l Hi Hl. apply put_other. intros E. apply Hl. rewrite E. exact Hi. }
  rewrite (exec_run _ _ s _ (K s CX (fun _ _ => eq_refl))), exec_put.
  rewrite (exec_run _ _ _ (fmem junk s CY c)), exec_put by (apply K; intros; apply N; cbn; auto).
  rewrite (exec_run _ _ _ (fmem junk s CZ c)) by (apply K; intros; rewrite !N by (cbn; auto); reflexivity).
  destruct d; cbn [aFl]; repeat first [rewrite m3_put_same | rewrite m3_put_other by discriminate]; reflexivity.
Qed.

Lemma memf_store3_spec (s s' : store) : 0 < gw g -> par_exec s (memf_store3 p g) s' ->
  (forall c e, rng3 g (gw g) (gw g - 1) c = true -> s' (at3 aEmf c (iEmf e)) = emem s e c) /\
  (forall l, la l <> aEmf -> s' l = s l).
Proof.
  intros Hg Hex. unfold memf_store3 in Hex. use_loop (@loop3 T) [aEmf] Hex H1 H2.
  { intros c. unfold cellprog, load_emf3. macc3; mfp3. }
  split; [|intros l Hl; apply H2; cbn; intuition].
  intros c e Hc. rewrite H1 by (cbn; auto).
  assert (K : forall s1 e, (forall l, la l <> aEmf -> s1 l = s l) -> run (load_emf3 p e c) s1 = (emem s e c, s1)).
  { intros s1 e0 E. rewrite run_emf3. unfold emem.
    rewrite !(m3_frame s s1) by (intros l Hl; apply E; rewrite Hl; destruct e0; discriminate). reflexivity. }
  assert (N : forall (s0 : store) w x l, la l <> aEmf -> upd s0 (at3 aEmf c w) x l = s0 l).
  { intros. apply upd_other. intros <-. apply H. reflexivity. }
  rewrite (exec_run _ _ s _ (K s CZ (fun _ _ => eq_refl))), exec_wr.
  rewrite (exec_run _ _ _ _ (K _ CY (fun l Hl => N s _ _ l Hl))), exec_wr.
  rewrite (exec_run _ _ _ _ (K _ CX (fun l Hl => eq_trans (N _ _ _ l Hl) (N _ _ _ l Hl)))).
  unfold exec; cbn [run wr snd].
  destruct e; cbn [iEmf]; repeat first [rewrite upd_same; reflexivity | rewrite upd_other by discriminate].
Qed.

Lemma mupdate3_spec aIn aOut (s s' : store) : arr_ok aIn aOut -> 0 < gw g -> par_exec s (mupdate3 p g dt aOut) s' ->
  (forall c, rng3 g (gw g) (gw g) c = true ->
     m3 s' aOut c = accf p dt (fun d c => mrot d (m3 s (aFl d) c)) (m3 s aOut c) c) /\
  (forall c v, rng3 g (gw g) (gw g) c = false -> s' (at3 aOut c v) = s (at3 aOut c v)) /\
  (forall l, la l <> aOut -> s' l = s l).
Proof.
  intros Ha Hg Hex. unfold mupdate3 in Hex. use_loop (@loop3_m3 T) [aOut] Hex H1 H2.
  { intros c. unfold cellprog. nums. macc3; mfp3. }
  split; [|split].
  - intros c Hc. rewrite H1 by (cbn; auto). rewrite !exec_load, m3_put_same. reflexivity.
  - intros c v Hc. apply H2. change (at_of (at3 aOut c v)) with (cx c, cy c, cz c). rewrite cell_eta, Hc. intuition discriminate.
  - intros l Hl. apply H2. cbn. intuition.
Qed.

Lemma mupdate_emf3_spec aIn aOut (s s' : store) : arr_ok aIn aOut -> 0 < gw g -> par_exec s (mupdate_emf3 p g dt aOut) s' ->
  (forall c, rng3 g (gw g) (gw g) c = true ->
     m3 s' aOut c = indf p dt (fun e c => s (at3 aEmf c (iEmf e))) (m3 s aOut c) c) /\
  (forall c v, rng3 g (gw g) (gw g) c = false -> s' (at3 aOut c v) = s (at3 aOut c v)) /\
  (forall l, la l <> aOut -> s' l = s l).
Proof.
  intros Ha Hg Hex. unfold mupdate_emf3 in Hex. use_loop (@loop3_m3 T) [aOut] Hex H1 H2.
  { intros c. unfold cellprog. nums. macc3; mfp3. }
  split; [|split].
  - intros c Hc. rewrite H1 by (cbn; auto). rewrite exec_load, !exec_rd. cbv zeta. rewrite !exec_wr.
    unfold indf. cbn [iEmf].
    set (q := induct _ _ _ _ _ _ _ _ _ _ _ _).
    assert (Eq : mD q = mD (m3 s aOut c) /\ mP q = mP (m3 s aOut c) /\ mU q = mU (m3 s aOut c) /\ mV q = mV (m3 s aOut c) /\ mW q = mW (m3 s aOut c)) by (repeat split; reflexivity).
    clearbody q. unfold exec; cbn [run wr snd]. unfold m3, mst in *. unfold at3. rewrite !upd_eq.
    destruct q as [a b e d f h i j]; cbn in Eq. destruct Eq as (-> & -> & -> & -> & ->). reflexivity.
  - intros c v Hc. apply H2. change (at_of (at3 aOut c v)) with (cx c, cy c, cz c). rewrite cell_eta, Hc. intuition discriminate.
  - intros l Hl. apply H2. cbn. intuition.
Qed.
End P3.
