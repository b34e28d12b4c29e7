(** The kernels that copy between an array and the border buffers. *)
From Coq Require Import ZArith List Bool Lia.
From Verif Require Import Arith Par ParProofs GridModel BoundaryModel BoundarySpec BoundaryProofs GridProofs
  HydroState HydroKernels SpmdModel MpiModel MpiSpec MpiTopo.
Import ListNotations.
Open Scope Z_scope.

Section Copy.
Context {T : Type} {A : Arith T}.
Implicit Types s : store T.

Lemma copy_cell_unfold g dst src cd cs :
  copy_cell (T:=T) g dst src cd cs =
  for_each (zrange 0 (nbvar g)) (fun v => bind (rd (at_cell src cs v)) (fun x => wr (at_cell dst cd v) x)).
Proof. destruct cd as [[i j] k], cs as [[i0 j0] k0]; reflexivity. Qed.

Lemma copy_cell_fp g dst src cd cs :
  no_rmw (copy_cell (T:=T) g dst src cd cs) /\
  reads_in (fun l => exists v, 0 <= v < nbvar g /\ l = at_cell src cs v) (copy_cell (T:=T) g dst src cd cs) /\
  writes_in (fun l => exists v, 0 <= v < nbvar g /\ l = at_cell dst cd v) (copy_cell (T:=T) g dst src cd cs).
Proof.
  rewrite copy_cell_unfold. repeat split.
  - unfold no_rmw. apply for_each_rmws. intros v _. cbn. auto.
  - apply for_each_reads. intros v Hv. apply In_zrange in Hv. cbn. split; auto. exists v; auto.
  - apply for_each_writes. intros v Hv. apply In_zrange in Hv. cbn. split; auto. exists v; auto.
Qed.

Lemma at_cell_la a c v : la (at_cell a c v) = a.
Proof. destruct c as [[i j] k]; reflexivity. Qed.

Lemma copy_loop_exec dst src cd cs (vs : list Z) s :
  dst <> src -> NoDup vs ->
  let p := for_each vs (fun v => bind (rd (at_cell src cs v)) (fun x => wr (at_cell dst cd v) x)) in
  (forall v, In v vs -> exec p s (at_cell dst cd v) = s (at_cell src cs v)) /\
  (forall l, (forall v, In v vs -> l <> at_cell dst cd v) -> exec p s l = s l).
Proof.
  intros Hne Hnd. revert s. induction Hnd as [|v0 vs Hni Hnd IH]; intros s; cbn zeta.
  - split; [intros v []|reflexivity].
  - cbn [for_each]. rewrite exec_bind. cbn [bind rd wr run fst snd exec].
    set (s1 := exec (bind (rd (at_cell src cs v0)) (fun x => wr (at_cell dst cd v0) x)) s).
    assert (E1 : s1 = upd s (at_cell dst cd v0) (s (at_cell src cs v0))) by reflexivity.
    destruct (IH s1) as [H1 H2]. split.
    + intros v [<-|Hv].
      * rewrite H2; [rewrite E1; apply upd_same|]. intros v' Hv' He. apply at_cell_inj in He.
        destruct He as [_ ->]. contradiction.
      * rewrite H1 by assumption. rewrite E1. apply upd_other. intros He.
        apply (f_equal la) in He. rewrite !at_cell_la in He. congruence.
    + intros l Hl. rewrite H2; [|intros v Hv; apply Hl; right; exact Hv].
      rewrite E1. apply upd_other. intros He. apply (Hl v0); [left; reflexivity|congruence].
Qed.

Lemma copy_cell_exec g dst src cd cs s : dst <> src ->
  (forall v, 0 <= v < nbvar g -> exec (copy_cell g dst src cd cs) s (at_cell dst cd v) = s (at_cell src cs v)) /\
  (forall l, (forall v, 0 <= v < nbvar g -> l <> at_cell dst cd v) -> exec (copy_cell g dst src cd cs) s l = s l).
Proof.
  intros Hne. rewrite copy_cell_unfold.
  destruct (copy_loop_exec dst src cd cs (zrange 0 (nbvar g)) s Hne (NoDup_zrange 0 (nbvar g))) as [H1 H2].
  split.
  - intros v Hv. apply H1. apply In_zrange; auto.
  - intros l Hl. apply H2. intros v Hv. apply Hl. apply In_zrange; auto.
Qed.

(** A loop that copies one cell per index. *)
Section Loop.
Variables (g : grid) (dst src nbIter : Z).
Variables (dom : cell -> Prop) (fd fs : cell -> cell) (enc : cell -> Z) (body : Z -> prog T unit).
Hypothesis Hne : dst <> src.
Hypothesis Hcov : forall c, dom c -> 0 <= enc c < nbIter.
Hypothesis Hbody : forall i, 0 <= i < nbIter -> exists c, dom c /\ enc c = i /\ body i = copy_cell g dst src (fd c) (fs c).
Hypothesis Hinj : forall c c', dom c -> dom c' -> enc c = enc c' -> c = c'.
Hypothesis Hfd : forall c c', dom c -> dom c' -> fd c = fd c' -> c = c'.

Definition cW (index : Z) (l : loc) : Prop :=
  exists c v, dom c /\ enc c = index /\ 0 <= v < nbvar g /\ l = at_cell dst (fd c) v.
Definition cR (index : Z) (l : loc) : Prop := la l = src.

Lemma copy_ok index : 0 <= index < nbIter -> ok cR cW index (body index).
Proof.
  intros Hi. destruct (Hbody index Hi) as (c & Hc & He & ->).
  destruct (copy_cell_fp g dst src (fd c) (fs c)) as (H1 & H2 & H3). repeat split; auto.
  - eapply reads_in_mono; [|exact H2]. intros l (v & Hv & ->). apply at_cell_la.
  - eapply writes_in_mono; [|exact H3]. intros l (v & Hv & ->). exists c, v. auto.
Qed.

Lemma copy_race_free i j l :
  In i (zrange 0 nbIter) -> In j (zrange 0 nbIter) -> i <> j -> cW i l -> ~ cW j l /\ ~ cR j l.
Proof.
  intros _ _ Hij (c & v & Hc & He & Hv & ->). split.
  - intros (c' & v' & Hc' & He' & Hv' & H). apply at_cell_inj in H. destruct H as [H _].
    apply Hfd in H; auto. subst. congruence.
  - unfold cR. rewrite at_cell_la. exact Hne.
Qed.

Lemma copy_spec s s' :
  par_exec s (parallel_for nbIter body) s' ->
  (forall c v, dom c -> 0 <= v < nbvar g -> s' (at_cell dst (fd c) v) = s (at_cell src (fs c) v)) /\
  (forall l, (forall c v, dom c -> 0 <= v < nbvar g -> l <> at_cell dst (fd c) v) -> s' l = s l).
Proof.
  intros Hex.
  destruct (par_for_spec (zrange 0 nbIter) cR cW copy_race_free body s s') as [H1 H2]; auto.
  - apply NoDup_zrange.
  - intros i Hi. apply copy_ok. now apply In_zrange.
  - split.
    + intros c v Hc Hv.
      assert (Hi : In (enc c) (zrange 0 nbIter)) by (apply In_zrange; apply Hcov; assumption).
      rewrite (H1 (enc c)); [|assumption|exists c, v; auto].
      destruct (Hbody (enc c) (Hcov c Hc)) as (c' & Hc' & He & ->).
      assert (c' = c) by (apply Hinj; auto). subst c'.
      apply (proj1 (copy_cell_exec g dst src (fd c) (fs c) s Hne)); assumption.
    + intros l Hl. apply H2. intros i Hi (c & v & Hc & He & Hv & ->). apply (Hl c v); auto.
Qed.
End Loop.

Variable g : grid.
Variable ly : layout.
Hypothesis Hw : 0 < gw g.
Hypothesis Hx : 0 < nx g.
Hypothesis Hy : 0 < ny g.

(** Cells of the array; cells of the border buffer of direction [d]. *)
Definition in_arr (d3 : bool) (c : cell) : Prop :=
  let '(i, j, k) := c in 0 <= i < isize g /\ 0 <= j < jsize g /\ (if d3 then 0 <= k < ksize g else k = 0).
Definition buf_dom (d3 : bool) (d : direction) (c : cell) : Prop :=
  let '(i, j, k) := c in
  0 <= i < (match d with XDIR => gw g | _ => isize g end) /\
  0 <= j < (match d with YDIR => gw g | _ => jsize g end) /\
  (if d3 then 0 <= k < (match d with ZDIR => gw g | _ => ksize g end) else k = 0).
Definition dims_ok (d3 : bool) (d : direction) : Prop := if d3 then 0 < nz g else d <> ZDIR.

Lemma moved_inj d o c c' : moved d o c = moved d o c' -> c = c'.
Proof. destruct c as [[i j] k], c' as [[i' j'] k'], d; cbn; intros H; inversion H; repeat f_equal; lia. Qed.

Lemma size_pos : 0 < isize g /\ 0 < jsize g /\ (0 < nz g -> 0 < ksize g).
Proof. unfold isize, jsize, ksize, imax, jmax, kmax, imin, jmin, kmin. lia. Qed.

Definition enc2b (d : direction) (c : cell) : Z :=
  let '(i, j, k) := c in
  match d with XDIR => coord2index2 ly i j (gw g) (jsize g) | _ => coord2index2 ly i j (isize g) (gw g) end.
Definition enc3b (d : direction) (c : cell) : Z :=
  let '(i, j, k) := c in
  match d with
  | XDIR => coord2index3 ly i j k (gw g) (jsize g) (ksize g)
  | YDIR => coord2index3 ly i j k (isize g) (gw g) (ksize g)
  | ZDIR => coord2index3 ly i j k (isize g) (jsize g) (gw g)
  end.

Lemma enc2b_inj d c c' : dims_ok false d -> buf_dom false d c -> buf_dom false d c' -> enc2b d c = enc2b d c' -> c = c'.
Proof.
  destruct c as [[i j] k], c' as [[i' j'] k']. unfold buf_dom, enc2b. intros Hd (H1 & H2 & ->) (H1' & H2' & ->) He.
  destruct d; [| |contradiction Hd; reflexivity].
  - destruct (coord_index2 ly i j (gw g) (jsize g) H1 H2) as [_ E].
    destruct (coord_index2 ly i' j' (gw g) (jsize g) H1' H2') as [_ E']. rewrite He, E' in E. congruence.
  - destruct (coord_index2 ly i j (isize g) (gw g) H1 H2) as [_ E].
    destruct (coord_index2 ly i' j' (isize g) (gw g) H1' H2') as [_ E']. rewrite He, E' in E. congruence.
Qed.
Lemma enc3b_inj d c c' : buf_dom true d c -> buf_dom true d c' -> enc3b d c = enc3b d c' -> c = c'.
Proof.
  destruct c as [[i j] k], c' as [[i' j'] k']. unfold buf_dom, enc3b. intros (H1 & H2 & H3) (H1' & H2' & H3') He.
  destruct d;
  match type of He with coord2index3 _ _ _ _ ?a ?b ?c = _ =>
    destruct (coord_index3 ly i j k a b c H1 H2 H3) as [_ E];
    destruct (coord_index3 ly i' j' k' a b c H1' H2' H3') as [_ E'] end; rewrite He, E' in E; congruence.
Qed.

Lemma to_buf_spec (d3 : bool) a f s s' :
  dims_ok d3 (dir_of f) -> a <> bufS f ->
  par_exec s ((if d3 then to_buf3 g ly else to_buf2 g ly) a f) s' ->
  (forall c v, buf_dom d3 (dir_of f) c -> 0 <= v < nbvar g ->
     s' (at_cell (bufS f) c v) = s (at_cell a (moved (dir_of f) (offset_send g f) c) v)) /\
  (forall l, la l <> bufS f -> s' l = s l).
Proof.
  intros Hd Ha Hex. pose proof size_pos as (S1 & S2 & S3). destruct d3.
  - assert (Q : exists nbIter body,
       to_buf3 (T:=T) g ly a f = parallel_for nbIter body /\
       (forall c, buf_dom true (dir_of f) c -> 0 <= enc3b (dir_of f) c < nbIter) /\
       (forall i, 0 <= i < nbIter -> exists c, buf_dom true (dir_of f) c /\ enc3b (dir_of f) c = i /\
          body i = copy_cell g (bufS f) a c (moved (dir_of f) (offset_send g f) c))).
    { cbn [dims_ok] in Hd. specialize (S3 Hd). unfold to_buf3. destruct (dir_of f) eqn:Ed; eexists _, _; (split; [reflexivity|]); (split;
      [intros [[i j] k] (H1 & H2 & H3); apply (coord_index3 ly i j k _ _ _ H1 H2 H3)
      |intros index Hi; apply (index_coord3 ly) in Hi; try lia; destruct Hi as (i & j & k & E & H1 & H2 & H3 & E2);
       exists (i, j, k); cbn beta; rewrite E; unfold buf_dom, enc3b; auto]). }
    destruct Q as (nbIter & body & E & Hc & Hb). rewrite E in Hex.
    destruct (copy_spec g (bufS f) a nbIter (buf_dom true (dir_of f)) (fun c => c)
      (moved (dir_of f) (offset_send g f)) (enc3b (dir_of f)) body) with (s := s) (s' := s') as [H1 H2]; auto.
    + intros c c'. apply enc3b_inj.
    + split; [exact H1|]. intros l Hl. apply H2. intros c v _ _ ->. rewrite at_cell_la in Hl. congruence.
  - assert (Q : exists nbIter body,
       to_buf2 (T:=T) g ly a f = parallel_for nbIter body /\
       (forall c, buf_dom false (dir_of f) c -> 0 <= enc2b (dir_of f) c < nbIter) /\
       (forall i, 0 <= i < nbIter -> exists c, buf_dom false (dir_of f) c /\ enc2b (dir_of f) c = i /\
          body i = copy_cell g (bufS f) a c (moved (dir_of f) (offset_send g f) c))).
    { cbn [dims_ok] in Hd. unfold to_buf2. destruct (dir_of f) eqn:Ed; [| |congruence]; eexists _, _; (split; [reflexivity|]); (split;
      [intros [[i j] k] (H1 & H2 & H3); apply (coord_index2 ly i j _ _ H1 H2)
      |intros index Hi; apply (index_coord2 ly) in Hi; try lia; destruct Hi as (i & j & E & H1 & H2 & E2);
       exists (i, j, 0); cbn beta; rewrite E; unfold buf_dom, enc2b; auto]). }
    destruct Q as (nbIter & body & E & Hc & Hb). rewrite E in Hex.
    destruct (copy_spec g (bufS f) a nbIter (buf_dom false (dir_of f)) (fun c => c)
      (moved (dir_of f) (offset_send g f)) (enc2b (dir_of f)) body) with (s := s) (s' := s') as [H1 H2]; auto.
    + intros c c'. apply enc2b_inj; assumption.
    + split; [exact H1|]. intros l Hl. apply H2. intros c v _ _ ->. rewrite at_cell_la in Hl. congruence.
Qed.

Lemma from_buf_spec (d3 : bool) a f s s' :
  dims_ok d3 (dir_of f) -> a <> bufR f ->
  par_exec s ((if d3 then from_buf3 g ly else from_buf2 g ly) a f) s' ->
  (forall c v, buf_dom d3 (dir_of f) c -> 0 <= v < nbvar g ->
     s' (at_cell a (moved (dir_of f) (offset_recv g f) c) v) = s (at_cell (bufR f) c v)) /\
  (forall l, (forall c v, buf_dom d3 (dir_of f) c -> 0 <= v < nbvar g ->
       l <> at_cell a (moved (dir_of f) (offset_recv g f) c) v) -> s' l = s l).
Proof.
  intros Hd Ha Hex. pose proof size_pos as (S1 & S2 & S3). destruct d3.
  - assert (Q : exists nbIter body,
       from_buf3 (T:=T) g ly a f = parallel_for nbIter body /\
       (forall c, buf_dom true (dir_of f) c -> 0 <= enc3b (dir_of f) c < nbIter) /\
       (forall i, 0 <= i < nbIter -> exists c, buf_dom true (dir_of f) c /\ enc3b (dir_of f) c = i /\
          body i = copy_cell g a (bufR f) (moved (dir_of f) (offset_recv g f) c) c)).
    { cbn [dims_ok] in Hd. specialize (S3 Hd). unfold from_buf3. destruct (dir_of f) eqn:Ed; eexists _, _; (split; [reflexivity|]); (split;
      [intros [[i j] k] (H1 & H2 & H3); apply (coord_index3 ly i j k _ _ _ H1 H2 H3)
      |intros index Hi; apply (index_coord3 ly) in Hi; try lia; destruct Hi as (i & j & k & E & H1 & H2 & H3 & E2);
       exists (i, j, k); cbn beta; rewrite E; unfold buf_dom, enc3b; auto]). }
    destruct Q as (nbIter & body & E & Hc & Hb). rewrite E in Hex.
    apply (copy_spec g a (bufR f) nbIter (buf_dom true (dir_of f)) (moved (dir_of f) (offset_recv g f))
      (fun c => c) (enc3b (dir_of f)) body); auto.
    + intros c c'. apply enc3b_inj.
    + intros c c' _ _. apply moved_inj.
  - assert (Q : exists nbIter body,
       from_buf2 (T:=T) g ly a f = parallel_for nbIter body /\
       (forall c, buf_dom false (dir_of f) c -> 0 <= enc2b (dir_of f) c < nbIter) /\
       (forall i, 0 <= i < nbIter -> exists c, buf_dom false (dir_of f) c /\ enc2b (dir_of f) c = i /\
          body i = copy_cell g a (bufR f) (moved (dir_of f) (offset_recv g f) c) c)).
    { cbn [dims_ok] in Hd. unfold from_buf2. destruct (dir_of f) eqn:Ed; [| |congruence]; eexists _, _; (split; [reflexivity|]); (split;
      [intros [[i j] k] (H1 & H2 & H3); apply (coord_index2 ly i j _ _ H1 H2)
      |intros index Hi; apply (index_coord2 ly) in Hi; try lia; destruct Hi as (i & j & E & H1 & H2 & E2);
       exists (i, j, 0); cbn beta; rewrite E; unfold buf_dom, enc2b; auto]). }
    destruct Q as (nbIter & body & E & Hc & Hb). rewrite E in Hex.
    apply (copy_spec g a (bufR f) nbIter (buf_dom false (dir_of f)) (moved (dir_of f) (offset_recv g f))
      (fun c => c) (enc2b (dir_of f)) body); auto.
    + intros c c'. apply enc2b_inj; assumption.
    + intros c c' _ _. apply moved_inj.
Qed.
End Copy.
