(** What each loop of the 2D MHD solver computes. *)
From Coq Require Import ZArith List Bool Lia.
From Verif Require Import Arith Par ParProofs GridModel BoundaryModel BoundarySpec BoundaryProofs
  HydroState HydroKernels CellKernels HydroExec HydroSpec HydroProofs2 HydroStep2
  MhdState MhdRiemann MhdPoint MhdKernels2 MhdSpec MhdExec MhdField2.
Import ListNotations.
Open Scope Z_scope.
Open Scope prog_scope.

Lemma trace_range2_spec g i j : trace_range2 g i j = true <->
  gw g - 2 <= i <= isize g - gw g /\ gw g - 2 <= j <= jsize g - gw g.
Proof. unfold trace_range2. rewrite !andb_true_iff, !Z.leb_le, !Z.ltb_lt. lia. Qed.

Ltac cells2_intro := let i := fresh "i" in let j := fresh "j" in let k := fresh "k" in let H := fresh "Hc" in
  intros [[i j] k] H; apply In_cells2 in H; cbn [fst snd] in H; destruct H as (_ & _ & ->).

Section P2.
Context {T : Type} {AT : Arith T}.
Notation store := (store T).
Variable p : mparams T.
Variable g : grid.
Variable dt : T.
Variable junk : Z * Z * Z -> Z -> ms T.

(** 2D field of an array. *)
Definition m2 (s : store) (a : Z) (i j : Z) : ms T := mst s a i j 0.

Lemma m2_frame (s s' : store) a i j : (forall l, la l = a -> s' l = s l) -> m2 s' a i j = m2 s a i j.
Proof. apply mst_frame. Qed.

Lemma when_true b (q : prog T unit) s : b = true -> exec (when b q) s = exec q s.
Proof. intros ->. reflexivity. Qed.

(** ** Conversion *)
Lemma mconvert2_spec aIn aOut (s s' : store) : arr_ok aIn aOut -> par_exec s (mconvert2 p g aIn) s' ->
  (forall i j, 0 <= i < isize g - 1 -> 0 <= j < jsize g - 1 -> m2 s' aQ i j = prim2 p (m2 s aIn) i j) /\
  (forall l, la l <> aQ -> s' l = s l).
Proof. clear junk dt.
  intros Ha Hex. unfold mconvert2 in Hex. cells_ok [aQ].
  { clear Hex. cells2_intro. nums. unfold cellprog. macc; mfp. }
  split.
  - intros i j Hi Hj. unfold m2 at 1.
    rewrite (mst_cellwise _ _ _ s s' aQ i j 0 (NoDup_cells2 g) Hok Hex) by (cbn; auto; apply in2; lia).
    cbn beta iota. rewrite when_true.
    2:{ rewrite !andb_true_iff, !Z.leb_le, !Z.ltb_lt. lia. }
    rewrite exec_mload, !exec_rd, mst_mput_same. reflexivity.
  - intros l Hl. eapply cellwise_other; eauto using NoDup_cells2. cbn. intuition.
Qed.

(** ** Trace *)
Definition traceW := [aQmx; aQpx; aQmy; aQpy; aRT; aRB; aLT; aLB].

Lemma mtrace2_spec aIn aOut (s s' : store) : arr_ok aIn aOut -> 2 <= gw g ->
  par_exec s (mtrace2 p g dt junk aIn) s' ->
  (forall i j, gw g - 2 <= i <= isize g - gw g -> gw g - 2 <= j <= jsize g - gw g ->
     Tr2 (m2 s' aQmx i j) (m2 s' aQpx i j) (m2 s' aQmy i j) (m2 s' aQpy i j)
         (m2 s' aRT i j) (m2 s' aRB i j) (m2 s' aLT i j) (m2 s' aLB i j)
     = trace2f p dt junk (m2 s aQ) (m2 s aIn) i j) /\
  (forall l, ~ In (la l) traceW -> s' l = s l).
Proof.
  intros Ha Hgw Hex. unfold mtrace2 in Hex.
  match type of Hex with par_exec _ (md_for ?cells ?b) _ =>
    assert (Hok : forall c, In c cells -> cellprog traceW c (b c)) end.
  { clear Hex. cells2_intro. unfold cellprog, mtrace_body2, traceW. nums. macc; mfp. }
  split.
  - intros i j Hi Hj.
    assert (E : forall a, In a traceW ->
       m2 s' a i j = mst (exec (mtrace_body2 p g dt junk aIn i j) s) a i j 0).
    { intros a Hia. unfold m2. apply (mst_cellwise _ _ _ s s' a i j 0 (NoDup_cells2 g) Hok Hex Hia).
      apply in2; lia. }
    assert (X : exists q b,
      exec (mtrace_body2 p g dt junk aIn i j) s =
        (let t := trace_unsplit_mhd_2d p q b (junk (i, j, 0) 0) (junk (i, j, 0) 1) (dtdx (mh p) dt) (dtdy (mh p) dt) in
        exec (mput aLB i j 0 (t_LB t)) (exec (mput aLT i j 0 (t_LT t)) (exec (mput aRB i j 0 (t_RB t))
         (exec (mput aRT i j 0 (t_RT t)) (exec (mput aQpy i j 0 (t_py t)) (exec (mput aQmy i j 0 (t_my t))
         (exec (mput aQpx i j 0 (t_px t)) (exec (mput aQmx i j 0 (t_mx t)) s)))))))) /\
      (forall d e, -1 <= d <= 1 -> -1 <= e <= 1 -> q d e = m2 s aQ (i + d) (j + e)) /\
      (forall d e, -1 <= d <= 1 -> -1 <= e <= 1 -> b d e = bfs (m2 s aIn (i + d) (j + e)))).
    { unfold mtrace_body2. rewrite when_true by (apply trace_range2_spec; lia).
      destruct (run_gather2 (fun di dj => mload aQ (i + di) (j + dj) 0) (fun di dj => m2 s aQ (i + di) (j + dj))
         ms_zero (fun _ => ms_zero) [-1; 0; 1] [-1; 0; 1] s) as (q & Eq & Hq).
      { intros. apply run_mload. }
      destruct (run_gather2 (fun di dj => bload aIn (i + di) (j + dj) 0) (fun di dj => bfs (m2 s aIn (i + di) (j + dj)))
         (zero, zero, zero) (fun _ => (zero, zero, zero)) [-1; 0; 1; 2] [-1; 0; 1; 2] s) as (b & Eb & Hb).
      { intros. apply run_bload. }
      exists q, b. split; [|split].
      - rewrite (exec_run _ _ s q Eq), (exec_run _ _ s b Eb). cbv zeta. rewrite !exec_mput. reflexivity.
      - intros d e Hd He. apply Hq; cbn; lia.
      - intros d e Hd He. apply Hb; cbn; lia. }
    destruct X as (q & b & X & Hq & Hb). cbv zeta in X.
    rewrite (trace2_ext2 p dt q (fun x y => m2 s aQ (i + x) (j + y)) b
      (fun x y => bfs (m2 s aIn (i + x) (j + y))) _ _ Hq Hb) in X.
    change (trace_unsplit_mhd_2d p (fun x y => m2 s aQ (i + x) (j + y)) (fun x y => bfs (m2 s aIn (i + x) (j + y)))
      (junk (i, j, 0) 0) (junk (i, j, 0) 1) (dtdx (mh p) dt) (dtdy (mh p) dt))
      with (trace2f p dt junk (m2 s aQ) (m2 s aIn) i j) in X.
    set (t := trace2f p dt junk (m2 s aQ) (m2 s aIn) i j) in *.
    clearbody t. rewrite !E by (cbn; tauto). rewrite X.
    repeat first [rewrite mst_mput_same | rewrite mst_mput_other by (left; discriminate)].
    destruct t; reflexivity.
  - intros l Hl. eapply cellwise_other; eauto using NoDup_cells2.
Qed.

(** ** Fluxes and electromotive force, stored *)
(** Fluxes of the traced states held in memory. *)
Definition fX (s : store) i j := riemann_mhd p (m2 s aQmx (i - 1) j) (m2 s aQpx i j) (junk (i, j, 0) 2).
Definition fY (s : store) i j :=
  riemann_mhd p (mswapY (m2 s aQmy i (j - 1))) (mswapY (m2 s aQpy i j)) (fX s i j).
Definition eZ (s : store) i j :=
  compute_emf p EMFZ (m2 s aRT (i - 1) (j - 1)) (m2 s aRB (i - 1) j) (m2 s aLT i (j - 1)) (m2 s aLB i j).

Lemma run_fluxes2 i j (s : store) : run (load_fluxes2 p junk i j) s = ((fX s i j, fY s i j), s).
Proof. reflexivity. Qed.
Lemma run_emf2 i j (s : store) : run (load_emf2 p i j) s = (eZ s i j, s).
Proof. reflexivity. Qed.

Lemma mflux_store2_spec (s s' : store) : 0 < gw g -> par_exec s (mflux_store2 p g junk) s' ->
  (forall i j, faces2 g i j = true -> m2 s' aFx i j = fX s i j /\ m2 s' aFy i j = fY s i j) /\
  (forall l, ~ In (la l) [aFx; aFy] -> s' l = s l).
Proof.
  intros Hg Hex. unfold mflux_store2 in Hex. cells_ok [aFx; aFy].
  { clear Hex. cells2_intro. unfold cellprog, load_fluxes2. macc; mfp. }
  split.
  - intros i j Hf. pose proof Hf as Hf'. apply faces2_spec in Hf'.
    assert (E : forall a, In a [aFx; aFy] -> m2 s' a i j =
       mst (exec (mput aFy i j 0 (fY s i j)) (exec (mput aFx i j 0 (fX s i j)) s)) a i j 0).
    { intros a Hia. unfold m2. rewrite (mst_cellwise _ _ _ s s' a i j 0 (NoDup_cells2 g) Hok Hex Hia) by (apply in2; lia).
      cbn beta iota. rewrite when_true by exact Hf.
      rewrite (exec_run _ _ s _ (run_fluxes2 i j s)). cbn [fst snd]. rewrite exec_mput. reflexivity. }
    rewrite !E by (cbn; tauto).
    repeat first [rewrite mst_mput_same | rewrite mst_mput_other by (left; discriminate)]. auto.
  - intros l Hl. eapply cellwise_other; eauto using NoDup_cells2.
Qed.

Lemma memf_store2_spec (s s' : store) : 0 < gw g -> par_exec s (memf_store2 p g) s' ->
  (forall i j, faces2 g i j = true -> s' (Loc aEmf i j 0 0) = eZ s i j) /\
  (forall l, la l <> aEmf -> s' l = s l).
Proof. clear junk dt.
  intros Hg Hex. unfold memf_store2 in Hex. cells_ok [aEmf].
  { clear Hex. cells2_intro. unfold cellprog, load_emf2. macc; mfp. }
  split.
  - intros i j Hf. pose proof Hf as Hf'. apply faces2_spec in Hf'.
    rewrite (val_cellwise _ _ _ s s' aEmf i j 0 0 (NoDup_cells2 g) Hok Hex) by (cbn; auto; apply in2; lia).
    cbn beta iota. rewrite when_true by exact Hf.
    rewrite (exec_run _ _ s _ (run_emf2 i j s)). unfold exec; cbn [run wr snd]. apply upd_same.
  - intros l Hl. eapply cellwise_other; eauto using NoDup_cells2. cbn. intuition.
Qed.

(** ** Updates from stored fluxes *)
Lemma mupdate2_spec aIn aOut (s s' : store) : arr_ok aIn aOut -> 0 < gw g -> par_exec s (mupdate2 p g dt aOut) s' ->
  (forall i j, interior2 g i j = true -> m2 s' aOut i j =
     upd_flux sub (upd_flux add (upd_flux sub (upd_flux add (m2 s aOut i j) (m2 s aFx i j) (dtdx (mh p) dt))
       (m2 s aFx (i + 1) j) (dtdx (mh p) dt)) (mswapY (m2 s aFy i j)) (dtdy (mh p) dt))
       (mswapY (m2 s aFy i (j + 1))) (dtdy (mh p) dt)) /\
  (forall i j v, interior2 g i j = false -> s' (Loc aOut i j 0 v) = s (Loc aOut i j 0 v)) /\
  (forall l, la l <> aOut -> s' l = s l).
Proof. clear junk.
  intros Ha Hg Hex. unfold mupdate2 in Hex. cells_ok [aOut].
  { clear Hex. cells2_intro. nums. unfold cellprog. macc; mfp. }
  split; [|split].
  - intros i j Hf. pose proof Hf as Hf'. apply interior2_spec in Hf'. unfold m2 at 1.
    rewrite (mst_cellwise _ _ _ s s' aOut i j 0 (NoDup_cells2 g) Hok Hex) by (cbn; auto; apply in2; lia).
    cbn beta iota. rewrite when_true by exact Hf. rewrite !exec_mload, mst_mput_same. reflexivity.
  - intros i j v Hf. destruct (cellwise_spec _ _ _ s s' (NoDup_cells2 g) Hok Hex) as [H1 H2].
    destruct (in_dec cell_eq_dec (i, j, 0) (cells2 g)) as [Hi|Hi].
    + rewrite H1 by (cbn; auto). cbn [at_of li lj lk]. rewrite Hf. reflexivity.
    + apply H2. unfold at_of. cbn. tauto.
  - intros l Hl. eapply cellwise_other; eauto using NoDup_cells2. cbn. intuition.
Qed.

Lemma mupdate_emf2_spec aIn aOut (s s' : store) : arr_ok aIn aOut -> 0 < gw g ->
  par_exec s (mupdate_emf2 p g dt aOut) s' ->
  (forall i j, interior2 g i j = true -> m2 s' aOut i j =
     let u := m2 s aOut i j in
     with_B (with_A u (mA u + (s (Loc aEmf i (j + 1) 0 0) - s (Loc aEmf i j 0 0)) * dtdy (mh p) dt)%A)
       (mB u - (s (Loc aEmf (i + 1) j 0 0) - s (Loc aEmf i j 0 0)) * dtdx (mh p) dt)%A) /\
  (forall i j v, interior2 g i j = false -> s' (Loc aOut i j 0 v) = s (Loc aOut i j 0 v)) /\
  (forall l, la l <> aOut -> s' l = s l).
Proof. clear junk.
  intros Ha Hg Hex. unfold mupdate_emf2 in Hex. cells_ok [aOut].
  { clear Hex. cells2_intro. nums. unfold cellprog. macc; mfp. }
  split; [|split].
  - intros i j Hf. pose proof Hf as Hf'. apply interior2_spec in Hf'. unfold m2 at 1.
    rewrite (mst_cellwise _ _ _ s s' aOut i j 0 (NoDup_cells2 g) Hok Hex) by (cbn; auto; apply in2; lia).
    cbn beta iota. rewrite when_true by exact Hf. rewrite !exec_rd, exec_wr, !exec_rd.
    unfold exec; cbn [run wr snd]. unfold mst.
    assert (N : forall i j v i' j' v', Loc aOut i j 0 v <> Loc aEmf i' j' 0 v').
    { intros. apply loc_neq_a. clear - Ha. marrays. lia. }
    rewrite !upd_eq. rewrite !(upd_other _ _ (Loc aEmf _ _ _ _)) by apply N. reflexivity.
  - intros i j v Hf. destruct (cellwise_spec _ _ _ s s' (NoDup_cells2 g) Hok Hex) as [H1 H2].
    destruct (in_dec cell_eq_dec (i, j, 0) (cells2 g)) as [Hi|Hi].
    + rewrite H1 by (cbn; auto). cbn [at_of li lj lk]. rewrite Hf. reflexivity.
    + apply H2. unfold at_of. cbn. tauto.
  - intros l Hl. eapply cellwise_other; eauto using NoDup_cells2. cbn. intuition.
Qed.
End P2.
