(** What each loop of the 3D MHD solver computes. *)
From Coq Require Import ZArith List Bool Lia.
From Verif Require Import Arith Par ParProofs GridModel BoundaryModel BoundarySpec BoundaryProofs
  HydroState HydroKernels CellKernels HydroExec HydroSpec HydroProofs2 HydroStep2 HydroProofs3
  MhdState MhdRiemann MhdPoint MhdPoint3 MhdKernels2 MhdKernels3 MhdSpec MhdExec MhdProofs2 MhdField3.
Import ListNotations.
Open Scope Z_scope.
Open Scope prog_scope.

Lemma rng3_spec g lo hi c : rng3 g lo hi c = true <->
  lo <= cx c < isize g - hi /\ lo <= cy c < jsize g - hi /\ lo <= cz c < ksize g - hi.
Proof. unfold rng3. rewrite !andb_true_iff, !Z.leb_le, !Z.ltb_lt. lia. Qed.
Lemma cell_eta (c : cell) : (cx c, cy c, cz c) = c.
Proof. destruct c as [[? ?] ?]; reflexivity. Qed.

Section Foot.
Context {T : Type}.
Variables R W : loc -> Prop.
Lemma acc_gather3 {B} (f : comp3 -> prog T B) : (forall d, acc R W (f d)) -> acc R W (gather3 f).
Proof. intros H. unfold gather3. repeat (apply acc_bind; [apply H|intros ?]). apply acc_ret. Qed.
Lemma acc_gatherB {B} (f : bool -> prog T B) : (forall d, acc R W (f d)) -> acc R W (gatherB f).
Proof. intros H. unfold gatherB. repeat (apply acc_bind; [apply H|intros ?]). apply acc_ret. Qed.
End Foot.

Ltac macc3 := repeat lazymatch goal with
  | |- acc _ _ (load _ _) => unfold load; apply acc_mload; intros
  | |- acc _ _ (put _ _ _) => unfold put; apply acc_mput; intros
  | |- acc _ _ (gather3 _) => apply acc_gather3; intros
  | |- acc _ _ (gatherB _) => apply acc_gatherB; intros
  | |- acc _ _ (rd _) => apply acc_rd
  | |- acc _ _ (wr _ _) => apply acc_wr
  | |- acc _ _ (Ret _) => apply acc_ret
  | |- acc _ _ skip => apply acc_skip
  | |- acc _ _ (when _ _) => apply acc_when; intros ?
  | |- acc _ _ (let x := _ in _) => cbv zeta
  | |- acc _ _ (bind _ _) => apply acc_bind; [|intros ?]
  | |- acc _ _ ?q => let q' := eval hnf in q in change (acc _ _ q')
  end.
Ltac mfp3 := unfold cellR, cellW, at_of, at3, aFace, aEdge, aFl, aSl, aDb, aEmf; cbn [la li lj lk lv In]; marrays_goal;
  first [ split; [repeat (first [left; reflexivity | right])|apply cell_eta] | intros _; apply cell_eta
        | let H := fresh in intros H; exfalso; lia
        | repeat match goal with d : comp3 |- _ => destruct d end; let H := fresh in intros H; exfalso; lia ].

Section L3.
Context {T : Type} {AT : Arith T}.
Notation store := (store T).
Variable g : grid.

(** Field of an array. *)
Definition m3 (s : store) (a : Z) (c : cell) : ms T := mst s a (cx c) (cy c) (cz c).
Lemma m3_frame (s s' : store) a c : (forall l, la l = a -> s' l = s l) -> m3 s' a c = m3 s a c.
Proof. apply mst_frame. Qed.
Lemma m3_put_same a c q (s : store) : m3 (exec (put a c q) s) a c = q.
Proof. apply mst_mput_same. Qed.
Lemma m3_put_other a c q (s : store) b c' : b <> a -> m3 (exec (put a c q) s) b c' = m3 s b c'.
Proof. intros H. apply mst_mput_other. auto. Qed.
Lemma put_other a c q (s : store) l : la l <> a -> exec (put a c q) s l = s l.
Proof. intros H. apply mput_other. auto. Qed.
Lemma rd_b (s : store) a c d : s (at3 a c (iB d)) = bcomp d (m3 s a c).
Proof. destruct d; reflexivity. Qed.
Lemma exec_load {B} a c (f : ms T -> prog T B) (s : store) : exec (bind (load a c) f) s = exec (f (m3 s a c)) s.
Proof. reflexivity. Qed.
Lemma exec_put {B} a c q (f : unit -> prog T B) (s : store) :
  exec (bind (put a c q) f) s = exec (f tt) (exec (put a c q) s).
Proof. reflexivity. Qed.

(** A guarded cellwise loop. *)
Lemma loop3 W body lo hi (s s' : store) : 0 <= lo -> 0 <= hi ->
  (forall c, cellprog W c (body c)) ->
  par_exec s (md_for (cells3 g) (fun c => when (rng3 g lo hi c) (body c))) s' ->
  (forall c a v, rng3 g lo hi c = true -> In a W -> s' (at3 a c v) = exec (body c) s (at3 a c v)) /\
  (forall l, ~ (In (la l) W /\ rng3 g lo hi (at_of l) = true) -> s' l = s l).
Proof.
  intros Hlo Hhi Hok Hex.
  assert (Hok' : forall c, In c (cells3 g) -> cellprog W c (when (rng3 g lo hi c) (body c))).
  { intros c _. apply acc_when. intros _. apply Hok. }
  destruct (cellwise_spec W _ _ s s' (NoDup_cells3 g) Hok' Hex) as [H1 H2]. split.
  - intros c a v Hr Ha. rewrite H1.
    + change (at_of (at3 a c v)) with (cx c, cy c, cz c). rewrite cell_eta, when_true by exact Hr. reflexivity.
    + exact Ha.
    + change (at_of (at3 a c v)) with (cx c, cy c, cz c). rewrite cell_eta. apply In_cells3.
      apply rng3_spec in Hr. unfold cx, cy, cz in Hr. lia.
  - intros l Hl. destruct (in_dec Z.eq_dec (la l) W) as [Ha|Ha].
    + destruct (in_dec cell_eq_dec (at_of l) (cells3 g)) as [Hc|Hc].
      * rewrite H1 by auto. destruct (rng3 g lo hi (at_of l)) eqn:E; [tauto|reflexivity].
      * apply H2. tauto.
    + apply H2. tauto.
Qed.
Lemma loop3_m3 W body lo hi (s s' : store) : 0 <= lo -> 0 <= hi ->
  (forall c, cellprog W c (body c)) ->
  par_exec s (md_for (cells3 g) (fun c => when (rng3 g lo hi c) (body c))) s' ->
  (forall c a, rng3 g lo hi c = true -> In a W -> m3 s' a c = m3 (exec (body c) s) a c) /\
  (forall l, ~ (In (la l) W /\ rng3 g lo hi (at_of l) = true) -> s' l = s l).
Proof.
  intros Hlo Hhi Hok Hex. destruct (loop3 W body lo hi s s' Hlo Hhi Hok Hex) as [H1 H2]. split; [|exact H2].
  intros c a Hr Ha. unfold m3, mst. pose proof (fun v => H1 c a v Hr Ha) as E. unfold at3 in E. rewrite !E. reflexivity.
Qed.

End L3.

Ltac use_loop L W Hex H1 H2 :=
  let Hok := fresh "Hok" in
  lazymatch type of Hex with
  | par_exec _ (md_for _ (fun c => when (rng3 ?g ?lo ?hi c) (@?b c))) _ =>
      assert (Hok : forall c, cellprog W c (b c)); [cbv beta|
        pose proof (fun A B => L g W b lo hi _ _ A B Hok Hex) as H1;
        destruct H1 as [H1 H2]; [lia|lia|cbv beta in H1]]
  end.

Section P3.
Context {T : Type} {AT : Arith T}.
Notation store := (store T).
Variable p : mparams T.
Variable g : grid.
Variable dt : T.
(** ** Loops of all variants *)
Lemma mconvert3_spec aIn aOut (s s' : store) : arr_ok aIn aOut -> par_exec s (mconvert3 p g aIn) s' ->
  (forall c, rng3 g 0 1 c = true -> m3 s' aQ c = prim3 p (m3 s aIn) c) /\
  (forall l, la l <> aQ -> s' l = s l).
Proof.
  intros Ha Hex. unfold mconvert3 in Hex.
  use_loop (@loop3_m3 T) [aQ] Hex H1 H2.
  { intros c. unfold cellprog. nums. macc3; mfp3. }
  split.
  - intros c Hc. rewrite H1 by (cbn; auto).
    rewrite exec_load, !exec_rd, m3_put_same. reflexivity.
  - intros l Hl. apply H2. cbn. intuition.
Qed.

Lemma run_elec aIn e c (s : store) : run (elec_at aIn e c) s = (elecf (m3 s aQ) (m3 s aIn) e c, s).
Proof. destruct e; reflexivity. Qed.
Lemma melec3_spec aIn aOut (s s' : store) : arr_ok aIn aOut -> par_exec s (melec3 g aIn) s' ->
  (forall c e, rng3 g 1 1 c = true -> s' (at3 aEl c (iDir e)) = elecf (m3 s aQ) (m3 s aIn) e c) /\
  (forall l, la l <> aEl -> s' l = s l).
Proof.
  intros Ha Hex. unfold melec3 in Hex.
  use_loop (@loop3 T) [aEl] Hex H1 H2.
  { intros c. unfold cellprog, elec_at. nums. macc3; mfp3. }
  split.
  - intros c e Hc. rewrite H1 by (cbn; auto).
    assert (K : forall (s1 : store), (forall l, la l <> aEl -> s1 l = s l) -> forall e,
      elecf (m3 s1 aQ) (m3 s1 aIn) e c = elecf (m3 s aQ) (m3 s aIn) e c).
    { intros s1 E1 e'. apply elecf_ext; intros c' _; apply m3_frame; intros l El; apply E1; rewrite El;
        [discriminate|clear - Ha; marrays; lia]. }
    assert (N : forall (s0 : store) w x l, la l <> aEl -> upd s0 (at3 aEl c w) x l = s0 l).
    { intros. apply upd_other. intros <-. apply H. reflexivity. }
    assert (K1 : forall s1 e, (forall l, la l <> aEl -> s1 l = s l) ->
      run (elec_at aIn e c) s1 = (elecf (m3 s aQ) (m3 s aIn) e c, s1)).
    { intros s1 e' E1. rewrite run_elec, K by exact E1. reflexivity. }
    rewrite (exec_run _ _ s _ (K1 s CX (fun _ _ => eq_refl))), exec_wr.
    rewrite (exec_run _ _ _ _ (K1 _ CY (fun l Hl => N s _ _ l Hl))), exec_wr.
    rewrite (exec_run _ _ _ _ (K1 _ CZ (fun l Hl => eq_trans (N _ _ _ l Hl) (N _ _ _ l Hl)))).
    unfold exec; cbn [run wr snd].
    destruct e; cbn [iDir]; rewrite ?upd_same; try reflexivity.
    + rewrite !upd_other by discriminate. apply upd_same.
    + rewrite !upd_other by discriminate. apply upd_same.
  - intros l Hl. apply H2. cbn. intuition.
Qed.

Lemma run_mag aIn d d' c (s : store) : is d d' = false -> run (mag_at p aIn d d' c) s = (magf p (m3 s aIn) d d' c, s).
Proof. intros H. unfold magf. rewrite H. destruct d, d'; reflexivity. Qed.
Lemma mmag3_spec aIn aOut (s s' : store) : arr_ok aIn aOut -> par_exec s (mmag3 p g aIn) s' ->
  (forall c d d', rng3 g 1 1 c = true -> s' (at3 (aDb d) c (iDir d')) = magf p (m3 s aIn) d d' c) /\
  (forall l, ~ In (la l) [aDA; aDB; aDC] -> s' l = s l).
Proof.
  intros Ha Hex. unfold mmag3 in Hex.
  use_loop (@loop3 T) [aDA; aDB; aDC] Hex H1 H2.
  { intros c. unfold cellprog, mag_at. nums. macc3; mfp3. }
  split.
  - intros c d d' Hc. rewrite H1 by (auto; destruct d; cbn; auto).
    rewrite (exec_run _ _ s _ (run_mag aIn CX CY c s eq_refl)).
    rewrite (exec_run _ _ s _ (run_mag aIn CX CZ c s eq_refl)).
    rewrite (exec_run _ _ s _ (run_mag aIn CY CX c s eq_refl)).
    rewrite (exec_run _ _ s _ (run_mag aIn CY CZ c s eq_refl)).
    rewrite (exec_run _ _ s _ (run_mag aIn CZ CX c s eq_refl)).
    rewrite (exec_run _ _ s _ (run_mag aIn CZ CY c s eq_refl)).
    repeat rewrite exec_wr. unfold exec; cbn [run wr snd].
    destruct d, d'; cbn [aDb iDir];
      repeat first [rewrite upd_same; reflexivity | rewrite upd_other by discriminate].
  - intros l Hl. apply H2. tauto.
Qed.

(** ** Trace *)
Definition traceW3 := [aQmx; aQpx; aQmy; aQpy; aQmz; aQpz; aRT; aRB; aLT; aLB; aRT2; aRB2; aLT2; aLB2;
  aRT3; aRB3; aLT3; aLB3].
(** The trace computed from what the arrays hold. *)
Definition trace_mem (s : store) (aIn : Z) (c : cell) : tr3 :=
  trace3_core p (xpos3 p g c) (m3 s aQ c)
    (slope_hydro3 p (m3 s aQ c) (fun d => match d with CX => m3 s aQ (move CX 1 c) | CY => m3 s aQ (move CY 1 c) | CZ => m3 s aQ (move CZ 1 c) end)
       (fun d => match d with CX => m3 s aQ (move CX (-1) c) | CY => m3 s aQ (move CY (-1) c) | CZ => m3 s aQ (move CZ (-1) c) end))
    (fun e => match e with
       | CX => fun a : bool => if a then fun b : bool => if b then s (at3 aEl (up CY true (up CZ true c)) IX) else s (at3 aEl (up CY true (up CZ false c)) IX)
                        else fun b : bool => if b then s (at3 aEl (up CY false (up CZ true c)) IX) else s (at3 aEl (up CY false (up CZ false c)) IX)
       | CY => fun a : bool => if a then fun b : bool => if b then s (at3 aEl (up CX true (up CZ true c)) IY) else s (at3 aEl (up CX true (up CZ false c)) IY)
                        else fun b : bool => if b then s (at3 aEl (up CX false (up CZ true c)) IY) else s (at3 aEl (up CX false (up CZ false c)) IY)
       | CZ => fun a : bool => if a then fun b : bool => if b then s (at3 aEl (up CX true (up CY true c)) IZ) else s (at3 aEl (up CX true (up CY false c)) IZ)
                        else fun b : bool => if b then s (at3 aEl (up CX false (up CY true c)) IZ) else s (at3 aEl (up CX false (up CY false c)) IZ)
       end)
    (fun d => match d with
       | CX => fun u : bool => if u then s (at3 aIn (up CX true c) IA) else s (at3 aIn (up CX false c) IA)
       | CY => fun u : bool => if u then s (at3 aIn (up CY true c) IB) else s (at3 aIn (up CY false c) IB)
       | CZ => fun u : bool => if u then s (at3 aIn (up CZ true c) IC) else s (at3 aIn (up CZ false c) IC)
       end)
    (fun d => match d with
       | CX => fun d' => match d' with
           | CX => fun u : bool => if u then s (at3 aDA (up CX true c) IX) else s (at3 aDA (up CX false c) IX)
           | CY => fun u : bool => if u then s (at3 aDA (up CX true c) IY) else s (at3 aDA (up CX false c) IY)
           | CZ => fun u : bool => if u then s (at3 aDA (up CX true c) IZ) else s (at3 aDA (up CX false c) IZ) end
       | CY => fun d' => match d' with
           | CX => fun u : bool => if u then s (at3 aDB (up CY true c) IX) else s (at3 aDB (up CY false c) IX)
           | CY => fun u : bool => if u then s (at3 aDB (up CY true c) IY) else s (at3 aDB (up CY false c) IY)
           | CZ => fun u : bool => if u then s (at3 aDB (up CY true c) IZ) else s (at3 aDB (up CY false c) IZ) end
       | CZ => fun d' => match d' with
           | CX => fun u : bool => if u then s (at3 aDC (up CZ true c) IX) else s (at3 aDC (up CZ false c) IX)
           | CY => fun u : bool => if u then s (at3 aDC (up CZ true c) IY) else s (at3 aDC (up CZ false c) IY)
           | CZ => fun u : bool => if u then s (at3 aDC (up CZ true c) IZ) else s (at3 aDC (up CZ false c) IZ) end
       end)
    (dtdx (mh p) dt) (dtdy (mh p) dt) (dtdz (mh p) dt).
Lemma run_trace aIn c (s : store) : run (load_trace3 p g dt aIn c) s = (trace_mem s aIn c, s).
Proof. reflexivity. Qed.

Lemma trace_mem_eq aIn c (s : store) Q U :
  (forall c', near 1 1 c c' -> m3 s aQ c' = Q c') -> (forall c', near 1 1 c c' -> m3 s aIn c' = U c') ->
  (forall e c', near 0 1 c c' -> s (at3 aEl c' (iDir e)) = elecf Q U e c') ->
  (forall d d' c', near 0 1 c c' -> s (at3 (aDb d) c' (iDir d')) = magf p U d d' c') ->
  teq (trace_mem s aIn c) (trace3f p g dt Q U c).
Proof.
  intros HQ HU HE HM. unfold trace_mem, trace3f, teq. rewrite (HQ c) by (apply near_refl; lia).
  assert (Nu : forall d b, near 0 1 c (up d b c)) by (intros d b; destruct b; [apply near_move|apply near_refl]; lia).
  assert (Nw : forall e a b, near 0 1 c (up (axis1 e) a (up (axis2 e) b c))).
  { intros e a b. destruct c as [[x y] z], e, a, b; pos3; cbn [fst snd axis1 axis2]; lia. }
  apply trace3_core_ext.
  - intros d. apply slope_hydro3_ext; intros d'; destruct d'; apply HQ, near_move; lia.
  - intros e a b. pose proof (HE e _ (Nw e a b)) as H. rewrite <- H. destruct e, a, b; reflexivity.
  - intros d u. assert (N : near 1 1 c (up d u c)) by (destruct u; [apply near_move|apply near_refl]; lia).
    rewrite <- (HU _ N), <- rd_b. destruct d, u; reflexivity.
  - intros d d' u. rewrite <- (HM d d' _ (Nu d u)). destruct d, d', u; reflexivity.
Qed.

Lemma mtrace3_spec aIn aOut (s s' : store) : arr_ok aIn aOut -> 2 <= gw g -> par_exec s (mtrace3 p g dt aIn) s' ->
  (forall c, rng3 g (gw g - 2) (gw g - 1) c = true ->
     (forall d u, m3 s' (aFace d u) c = tf (trace_mem s aIn c) d u) /\
     (forall e a b, m3 s' (aEdge e a b) c = te (trace_mem s aIn c) e a b)) /\
  (forall l, ~ In (la l) traceW3 -> s' l = s l).
Proof.
  intros Ha Hg Hex. unfold mtrace3 in Hex. use_loop (@loop3_m3 T) traceW3 Hex H1 H2.
  { intros c. unfold cellprog, load_trace3, put_faces, put_edges, traceW3. nums. macc3; mfp3. }
  split; [|intros l Hl; apply H2; tauto].
  intros c Hc.
  assert (E : forall a, In a traceW3 -> m3 s' a c = m3 (exec (
      put_faces c (trace_mem s aIn c) CX ;;; put_faces c (trace_mem s aIn c) CY ;;; put_faces c (trace_mem s aIn c) CZ ;;;
      put_edges c (trace_mem s aIn c) CX ;;; put_edges c (trace_mem s aIn c) CY ;;; put_edges c (trace_mem s aIn c) CZ) s) a c).
  { intros a Hia. rewrite (H1 c a Hc Hia). rewrite (exec_run _ _ s _ (run_trace aIn c s)). reflexivity. }
  set (t := trace_mem s aIn c) in *. clearbody t.
  unfold put_faces, put_edges in E.
  assert (B : forall (q1 q2 : prog T unit) (f : unit -> prog T unit) s0,
     exec (bind (bind q1 (fun _ => q2)) f) s0 = exec (bind q1 (fun _ => bind q2 f)) s0).
  { intros. unfold exec. rewrite !run_bind. reflexivity. }
  split.
  - intros d u. rewrite E by (destruct d, u; unfold traceW3; cbn; tauto).
    destruct d, u; cbn [aFace]; repeat rewrite ?B, exec_put;
      repeat first [rewrite m3_put_same | rewrite m3_put_other by discriminate]; reflexivity.
  - intros e a b. rewrite E by (destruct e, a, b; unfold traceW3; cbn; tauto).
    destruct e, a, b; cbn [aEdge]; repeat rewrite ?B, exec_put;
      repeat first [rewrite m3_put_same | rewrite m3_put_other by discriminate]; reflexivity.
Qed.
End P3.
