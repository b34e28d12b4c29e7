(** Proofs about the boundary fill. *)
From Coq Require Import ZArith List Bool Lia.
From Verif Require Import Arith Par ParProofs GridModel BoundaryModel BoundarySpec.
Import ListNotations.
Open Scope Z_scope.
Ltac Zify.zify_post_hook ::= Z.div_mod_to_equations.

Definition cell := (Z * Z * Z)%type.
Definition at_cell (a : Z) (c : cell) (v : Z) : loc :=
  let '(i, j, k) := c in Loc a i j k v.

Lemma at_cell_inj a c c' v v' : at_cell a c v = at_cell a c' v' -> c = c' /\ v = v'.
Proof. destruct c as [[i j] k], c' as [[i' j'] k']; cbn; intros H; inversion H; auto. Qed.

Section ForEach.
Context {T : Type}.

Lemma for_each_reads {I} P (xs : list I) (f : I -> prog T unit) :
  (forall x, In x xs -> reads_in P (f x)) -> reads_in P (for_each xs f).
Proof.
  induction xs as [|x xs IH]; cbn; intros H; auto.
  apply reads_in_bind; auto.
Qed.
Lemma for_each_writes {I} P (xs : list I) (f : I -> prog T unit) :
  (forall x, In x xs -> writes_in P (f x)) -> writes_in P (for_each xs f).
Proof.
  induction xs as [|x xs IH]; cbn; intros H; auto.
  apply writes_in_bind; auto.
Qed.
Lemma for_each_rmws {I} P (xs : list I) (f : I -> prog T unit) :
  (forall x, In x xs -> rmws_in P (f x)) -> rmws_in P (for_each xs f).
Proof.
  induction xs as [|x xs IH]; cbn; intros H; auto.
  apply rmws_in_bind; auto.
Qed.
End ForEach.

Section Fill.
Context {T : Type} {A : Arith T}.
Notation store := (store T).

Lemma assign_cell_unfold a nb dst src (sg : Z -> T) :
  assign_cell a nb dst src sg =
  for_each (zrange 0 nb) (fun v => bind (rd (at_cell a src v)) (fun x => wr (at_cell a dst v) (mul x (sg v)))).
Proof. destruct dst as [[i j] k], src as [[i0 j0] k0]; reflexivity. Qed.

Lemma assign_cell_fp a nb dst src (sg : Z -> T) :
  no_rmw (assign_cell a nb dst src sg) /\
  reads_in (fun l => exists v, 0 <= v < nb /\ l = at_cell a src v) (assign_cell a nb dst src sg) /\
  writes_in (fun l => exists v, 0 <= v < nb /\ l = at_cell a dst v) (assign_cell a nb dst src sg).
Proof.
  rewrite assign_cell_unfold. repeat split.
  - unfold no_rmw. apply for_each_rmws. intros v _. cbn. auto.
  - apply for_each_reads. intros v Hv. apply In_zrange in Hv. cbn. split; auto. exists v; auto.
  - apply for_each_writes. intros v Hv. apply In_zrange in Hv. cbn. split; auto. exists v; auto.
Qed.

Lemma assign_loop_exec a dst src (sg : Z -> T) (vs : list Z) s :
  dst <> src -> NoDup vs ->
  let p := for_each vs (fun v => bind (rd (at_cell a src v)) (fun x => wr (at_cell a dst v) (mul x (sg v)))) in
  (forall v, In v vs -> exec p s (at_cell a dst v) = mul (s (at_cell a src v)) (sg v)) /\
  (forall l, (forall v, In v vs -> l <> at_cell a dst v) -> exec p s l = s l).
Proof.
  intros Hne Hnd. revert s. induction Hnd as [|v0 vs Hni Hnd IH]; intros s; cbn zeta.
  - split; [intros v []|reflexivity].
  - cbn [for_each]. rewrite exec_bind. cbn [bind rd wr run fst snd exec].
    set (s1 := upd s (at_cell a dst v0) _).
    destruct (IH s1) as [IH1 IH2].
    assert (Hs1 : forall v, s1 (at_cell a src v) = s (at_cell a src v)).
    { intros v. unfold s1. apply upd_other. intros H. apply at_cell_inj in H. tauto. }
    split.
    + intros v [->|Hv].
      * unfold exec in IH2 |- *. cbn [run snd]. fold s1. rewrite IH2.
        -- unfold s1. apply upd_same.
        -- intros v' Hv' H. apply at_cell_inj in H. destruct H as [_ ->]. contradiction.
      * unfold exec in IH1 |- *. cbn [run snd]. fold s1. rewrite IH1 by auto. now rewrite Hs1.
    + intros l Hl. unfold exec in IH2 |- *. cbn [run snd]. fold s1. rewrite IH2.
      * unfold s1. apply upd_other. intros H. apply (Hl v0); cbn; auto.
      * intros v Hv. apply Hl; cbn; auto.
Qed.

Lemma assign_cell_exec a nb dst src (sg : Z -> T) s :
  dst <> src ->
  (forall v, 0 <= v < nb -> exec (assign_cell a nb dst src sg) s (at_cell a dst v) = mul (s (at_cell a src v)) (sg v)) /\
  (forall l, (forall v, 0 <= v < nb -> l <> at_cell a dst v) -> exec (assign_cell a nb dst src sg) s l = s l).
Proof.
  intros Hne. rewrite assign_cell_unfold.
  destruct (assign_loop_exec a dst src sg (zrange 0 nb) s Hne (NoDup_zrange 0 nb)) as [H1 H2].
  split.
  - intros v Hv. apply H1. apply In_zrange; auto.
  - intros l Hl. apply H2. intros v Hv. apply Hl. apply In_zrange; auto.
Qed.

(** ** One face, abstractly *)
Section Face.
Variables (a nb nbIter : Z) (body : Z -> prog T unit) (slab : cell -> Prop) (src : cell -> cell)
          (enc : cell -> Z) (sg : Z -> T).
Hypothesis Hcases : forall index, 0 <= index < nbIter ->
  (exists c, slab c /\ enc c = index /\ body index = assign_cell a nb c (src c) sg) \/ body index = skip.
Hypothesis Hcover : forall c, slab c -> 0 <= enc c < nbIter /\ body (enc c) = assign_cell a nb c (src c) sg.
Hypothesis Hinj : forall c c', slab c -> slab c' -> enc c = enc c' -> c = c'.

Definition fW (index : Z) (l : loc) : Prop :=
  exists c v, slab c /\ enc c = index /\ 0 <= v < nb /\ l = at_cell a c v.
Definition fR (index : Z) (l : loc) : Prop :=
  exists c v, slab c /\ enc c = index /\ 0 <= v < nb /\ l = at_cell a (src c) v.

Lemma face_ok index : 0 <= index < nbIter -> ok fR fW index (body index).
Proof.
  intros Hi. destruct (Hcases index Hi) as [(c & Hc & He & ->)| ->].
  - destruct (assign_cell_fp a nb c (src c) sg) as (H1 & H2 & H3). repeat split; auto.
    + eapply reads_in_mono; [|exact H2]. intros l (v & Hv & ->). exists c, v. auto.
    + eapply writes_in_mono; [|exact H3]. intros l (v & Hv & ->). exists c, v. auto.
  - repeat split; cbn; auto.
Qed.

Hypothesis Hsrc : forall c, slab c -> ~ slab (src c).

Lemma face_race_free i j l :
  In i (zrange 0 nbIter) -> In j (zrange 0 nbIter) -> i <> j -> fW i l -> ~ fW j l /\ ~ fR j l.
Proof.
  intros _ _ Hij (c & v & Hc & He & Hv & ->). split.
  - intros (c' & v' & Hc' & He' & Hv' & H). apply at_cell_inj in H. destruct H as [-> ->]. congruence.
  - intros (c' & v' & Hc' & He' & Hv' & H). apply at_cell_inj in H. destruct H as [-> ->].
    exact (Hsrc c' Hc' Hc).
Qed.

Lemma face_spec s s' :
  par_exec s (parallel_for nbIter body) s' ->
  (forall c v, slab c -> 0 <= v < nb -> s' (at_cell a c v) = mul (s (at_cell a (src c) v)) (sg v)) /\
  (forall l, (forall c v, slab c -> 0 <= v < nb -> l <> at_cell a c v) -> s' l = s l).
Proof.
  intros Hex.
  destruct (par_for_spec (zrange 0 nbIter) fR fW face_race_free body s s') as [H1 H2]; auto.
  - apply NoDup_zrange.
  - intros i Hi. apply face_ok. now apply In_zrange.
  - split.
    + intros c v Hc Hv. destruct (Hcover c Hc) as [Hr Hb].
      rewrite (H1 (enc c)).
      * rewrite Hb. apply assign_cell_exec; auto. intros H. apply (Hsrc c Hc). rewrite <- H. exact Hc.
      * now apply In_zrange.
      * exists c, v. auto.
    + intros l Hl. apply H2. intros i Hi (c & v & Hc & He & Hv & ->). exact (Hl c v Hc Hv eq_refl).
Qed.
End Face.

(** ** The faces of the 2D functors *)
Definition slab2 (g : grid) (f : face) (c : cell) : Prop :=
  let '(i, j, k) := c in
  k = 0 /\
  match f with
  | FACE_XMIN => 0 <= i < gw g /\ 0 <= j < ny g + 2 * gw g
  | FACE_XMAX => nx g + gw g <= i < nx g + 2 * gw g /\ 0 <= j < ny g + 2 * gw g
  | FACE_YMIN => 0 <= i < nx g + 2 * gw g /\ 0 <= j < gw g
  | FACE_YMAX => 0 <= i < nx g + 2 * gw g /\ ny g + gw g <= j < ny g + 2 * gw g
  | _ => False
  end.

Definition src_lo (bt n w i : Z) : Z :=
  if bt =? BC_DIRICHLET then 2 * w - 1 - i else if bt =? BC_NEUMANN then w else n + i.
Definition src_hi (bt n w i : Z) : Z :=
  if bt =? BC_DIRICHLET then 2 * n + 2 * w - 1 - i else if bt =? BC_NEUMANN then n + w - 1 else i - n.

Definition src_f (g : grid) (f : face) (c : cell) : cell :=
  let '(i, j, k) := c in
  match f with
  | FACE_XMIN => (src_lo (bc g f) (nx g) (gw g) i, j, k)
  | FACE_XMAX => (src_hi (bc g f) (nx g) (gw g) i, j, k)
  | FACE_YMIN => (i, src_lo (bc g f) (ny g) (gw g) j, k)
  | FACE_YMAX => (i, src_hi (bc g f) (ny g) (gw g) j, k)
  | FACE_ZMIN => (i, j, src_lo (bc g f) (nz g) (gw g) k)
  | FACE_ZMAX => (i, j, src_hi (bc g f) (nz g) (gw g) k)
  end.

Definition sg_f (mhd : bool) (g : grid) (f : face) : Z -> T :=
  match f with
  | FACE_XMIN | FACE_XMAX => sign_of mhd (bc g f) IU IA
  | FACE_YMIN | FACE_YMAX => sign_of mhd (bc g f) IV IB
  | FACE_ZMIN | FACE_ZMAX => sign_of mhd (bc g f) IW IC
  end.

Definition enc2 (g : grid) (f : face) (c : cell) : Z :=
  let '(i, j, k) := c in
  match f with
  | FACE_XMIN => j * gw g + i
  | FACE_XMAX => j * gw g + (i - (nx g + gw g))
  | FACE_YMIN => i * gw g + j
  | FACE_YMAX => i * gw g + (j - (ny g + gw g))
  | _ => 0
  end.

Lemma div_split w q r : 0 <= r < w -> (q * w + r) / w = q.
Proof. intros H. symmetry. apply Z.div_unique with r; lia. Qed.

Ltac bool_true := repeat match goal with
  | |- (_ && _)%bool = true => apply andb_true_intro; split
  | |- (_ <=? _) = true => apply Z.leb_le
  | |- (_ <? _) = true => apply Z.ltb_lt
  end.

Ltac unfold_sizes := unfold isize, jsize, ksize, imin, imax, jmin, jmax, kmin, kmax in *.

Lemma cover2 mhd g f a c : 0 < gw g -> 0 <= nx g -> 0 <= ny g -> slab2 g f c ->
  0 <= enc2 g f c < gw g * Z.max (isize g) (jsize g) /\
  make_boundaries_functor2d (T:=T) mhd g f a (enc2 g f c) =
    assign_cell a (nbvar g) c (src_f g f c) (sg_f mhd g f).
Proof.
  intros Hw Hx Hy. destruct c as [[i j] k]. unfold slab2. intros [-> H].
  destruct f; try contradiction; destruct H as [H1 H2]; unfold enc2, make_boundaries_functor2d, src_f, sg_f.
  - split; [unfold_sizes; nia|].
    rewrite div_split by lia. replace (j * gw g + i - j * gw g) with i by lia.
    rewrite (proj2 (Bool.not_true_iff_false _)) at 1 || idtac.
    match goal with |- (if ?b then _ else _) = _ => assert (Hb : b = true) by (unfold_sizes; bool_true; lia); rewrite Hb end.
    reflexivity.
  - split; [unfold_sizes; nia|].
    rewrite div_split by lia.
    replace (j * gw g + (i - (nx g + gw g)) - j * gw g + (nx g + gw g)) with i by lia.
    match goal with |- (if ?b then _ else _) = _ => assert (Hb : b = true) by (unfold_sizes; bool_true; lia); rewrite Hb end.
    reflexivity.
  - split; [unfold_sizes; nia|].
    rewrite div_split by lia. replace (i * gw g + j - i * gw g) with j by lia.
    match goal with |- (if ?b then _ else _) = _ => assert (Hb : b = true) by (unfold_sizes; bool_true; lia); rewrite Hb end.
    reflexivity.
  - split; [unfold_sizes; nia|].
    rewrite div_split by lia.
    replace (i * gw g + (j - (ny g + gw g)) - i * gw g + (ny g + gw g)) with j by lia.
    match goal with |- (if ?b then _ else _) = _ => assert (Hb : b = true) by (unfold_sizes; bool_true; lia); rewrite Hb end.
    reflexivity.
Qed.

Lemma inj2 g f c c' : 0 < gw g -> slab2 g f c -> slab2 g f c' -> enc2 g f c = enc2 g f c' -> c = c'.
Proof.
  intros Hw. destruct c as [[i j] k], c' as [[i' j'] k']. unfold slab2.
  intros [-> H] [-> H']. unfold enc2.
  destruct f; try contradiction; destruct H as [H1 H2], H' as [H1' H2']; intros He.
  - assert (j = j') by (rewrite <- (div_split (gw g) j i), <- (div_split (gw g) j' i'), He; lia).
    subst. repeat f_equal; lia.
  - assert (j = j') by (rewrite <- (div_split (gw g) j (i - (nx g + gw g))),
       <- (div_split (gw g) j' (i' - (nx g + gw g))), He; lia).
    subst. repeat f_equal; lia.
  - assert (i = i') by (rewrite <- (div_split (gw g) i j), <- (div_split (gw g) i' j'), He; lia).
    subst. repeat f_equal; lia.
  - assert (i = i') by (rewrite <- (div_split (gw g) i (j - (ny g + gw g))),
       <- (div_split (gw g) i' (j' - (ny g + gw g))), He; lia).
    subst. repeat f_equal; lia.
Qed.

Ltac guard_true H :=
  repeat match type of H with
  | (_ && _)%bool = true => let H1 := fresh in let H2 := fresh in
      apply andb_prop in H; destruct H as [H H2]; rewrite ?Z.leb_le, ?Z.ltb_lt in H2
  end; rewrite ?Z.leb_le, ?Z.ltb_lt in H.

Lemma cases2 mhd g f a index : 0 < gw g -> 0 <= index ->
  (exists c, slab2 g f c /\ enc2 g f c = index /\
     make_boundaries_functor2d (T:=T) mhd g f a index =
       assign_cell a (nbvar g) c (src_f g f c) (sg_f mhd g f)) \/
  make_boundaries_functor2d (T:=T) mhd g f a index = skip.
Proof.
  intros Hw Hi.
  destruct f; unfold make_boundaries_functor2d; try (right; reflexivity);
    match goal with |- context [if ?b then assign_cell _ _ ?c _ _ else skip] =>
      destruct b eqn:Hb; [left; exists c|right; reflexivity] end;
    guard_true Hb; unfold_sizes;
    (split; [unfold slab2; repeat split; lia | split; [unfold enc2; lia|reflexivity]]).
Qed.


Lemma src_lo_out bt n w i : 0 < w -> no_race_dir bt n w -> 0 <= i < w -> 0 <= n -> w <= src_lo bt n w i.
Proof.
  unfold no_race_dir, src_lo, BC_DIRICHLET, BC_NEUMANN. intros Hw H Hi Hn.
  destruct (Z.eqb_spec bt 1); [lia|]. destruct (Z.eqb_spec bt 2); lia.
Qed.
Lemma src_hi_out bt n w i : 0 < w -> no_race_dir bt n w -> n + w <= i < n + 2 * w -> 0 <= n -> src_hi bt n w i < n + w.
Proof.
  unfold no_race_dir, src_hi, BC_DIRICHLET, BC_NEUMANN. intros Hw H Hi Hn.
  destruct (Z.eqb_spec bt 1); [lia|]. destruct (Z.eqb_spec bt 2); lia.
Qed.


Lemma src2_out g f c : 0 < gw g -> 0 <= nx g -> 0 <= ny g -> no_race_f g f ->
  slab2 g f c -> ~ slab2 g f (src_f g f c).
Proof.
  intros Hw Hx Hy Hr. destruct c as [[i j] k]. unfold slab2, src_f, no_race_f in *.
  intros [-> H]. destruct f; try contradiction; destruct H as [H1 H2].
  - pose proof (src_lo_out _ _ _ i Hw Hr H1 Hx); lia.
  - pose proof (src_hi_out _ _ _ i Hw Hr H1 Hx); lia.
  - pose proof (src_lo_out _ _ _ j Hw Hr H2 Hy); lia.
  - pose proof (src_hi_out _ _ _ j Hw Hr H2 Hy); lia.
Qed.

(** One 2D face under every schedule. *)
Lemma face2_spec mhd g f a s s' :
  0 < gw g -> 0 <= nx g -> 0 <= ny g -> no_race_f g f ->
  par_exec s (make_boundary2d mhd g a f) s' ->
  (forall c v, slab2 g f c -> 0 <= v < nbvar g ->
     s' (at_cell a c v) = mul (s (at_cell a (src_f g f c) v)) (sg_f mhd g f v)) /\
  (forall l, (forall c v, slab2 g f c -> 0 <= v < nbvar g -> l <> at_cell a c v) -> s' l = s l).
Proof.
  intros Hw Hx Hy Hr Hex.
  apply (face_spec a (nbvar g) (gw g * Z.max (isize g) (jsize g))
           (make_boundaries_functor2d mhd g f a) (slab2 g f) (src_f g f) (enc2 g f)); auto.
  - intros index Hi. apply cases2; lia.
  - intros c Hc. apply cover2; auto.
  - intros c Hc. apply src2_out; auto.
Qed.

(** ** 3D faces *)
Definition slab3 (g : grid) (f : face) (c : cell) : Prop :=
  let '(i, j, k) := c in
  let Ri := 0 <= i < nx g + 2 * gw g in
  let Rj := 0 <= j < ny g + 2 * gw g in
  let Rk := 0 <= k < nz g + 2 * gw g in
  match f with
  | FACE_XMIN => 0 <= i < gw g /\ Rj /\ Rk
  | FACE_XMAX => nx g + gw g <= i < nx g + 2 * gw g /\ Rj /\ Rk
  | FACE_YMIN => Ri /\ 0 <= j < gw g /\ Rk
  | FACE_YMAX => Ri /\ ny g + gw g <= j < ny g + 2 * gw g /\ Rk
  | FACE_ZMIN => Ri /\ Rj /\ 0 <= k < gw g
  | FACE_ZMAX => Ri /\ Rj /\ nz g + gw g <= k < nz g + 2 * gw g
  end.

Definition enc3 (g : grid) (f : face) (c : cell) : Z :=
  let '(i, j, k) := c in
  match f with
  | FACE_XMIN => k * (gw g * jsize g) + (j * gw g + i)
  | FACE_XMAX => k * (gw g * jsize g) + (j * gw g + (i - (nx g + gw g)))
  | FACE_YMIN => k * (isize g * gw g) + (j * isize g + i)
  | FACE_YMAX => k * (isize g * gw g) + ((j - (ny g + gw g)) * isize g + i)
  | FACE_ZMIN => k * (isize g * jsize g) + (j * isize g + i)
  | FACE_ZMAX => (k - (nz g + gw g)) * (isize g * jsize g) + (j * isize g + i)
  end.

(** mixed-radix decoding used by all 3D faces *)
Lemma dec3 p q i j k : 0 <= i < p -> 0 <= j < q ->
  let index := k * (p * q) + (j * p + i) in
  index / (p * q) = k /\ (index - k * p * q) / p = j /\ index - j * p - k * p * q = i.
Proof.
  intros Hi Hj index. subst index.
  assert (0 <= j * p + i < p * q) by nia.
  repeat split.
  - now apply div_split.
  - replace (k * (p * q) + (j * p + i) - k * p * q) with (j * p + i) by ring. now apply div_split.
  - ring.
Qed.

Lemma dec3_inv p q index : 0 < p -> 0 < q -> 0 <= index ->
  let k := index / (p * q) in let j := (index - k * p * q) / p in let i := index - j * p - k * p * q in
  0 <= i < p /\ 0 <= j < q /\ 0 <= k /\ index = k * (p * q) + (j * p + i).
Proof.
  intros Hp Hq Hi k j i.
  assert (Hpq : 0 < p * q) by nia.
  assert (H1 : 0 <= index - k * (p * q) < p * q).
  { unfold k. pose proof (Z.div_mod index (p * q)). pose proof (Z.mod_pos_bound index (p * q)). nia. }
  set (r := index - k * p * q) in *. replace (index - k * (p * q)) with r in H1 by (unfold r; ring).
  assert (H2 : 0 <= r - j * p < p).
  { unfold j. pose proof (Z.div_mod r p). pose proof (Z.mod_pos_bound r p). lia. }
  assert (Hi2 : i = r - j * p) by (unfold i, r; ring).
  assert (Hj : 0 <= j < q).
  { unfold j. split; [apply Z.div_pos; lia|]. apply Z.div_lt_upper_bound; nia. }
  assert (Hk : 0 <= k) by (unfold k; apply Z.div_pos; lia).
  assert (He : index = k * (p * q) + (j * p + i)) by (rewrite Hi2; unfold r; ring).
  clearbody k j i r. split; [lia|]. split; [lia|]. split; [lia|]. exact He.
Qed.

Lemma enc3_range p q r k j i m w :
  0 < w -> 0 <= i < p -> 0 <= j < q -> 0 <= k < r -> p * q * r <= w * m * m ->
  0 <= k * (p * q) + (j * p + i) < w * m * m.
Proof.
  intros Hw Hi Hj Hk Hm. assert (0 <= j * p + i < p * q) by nia. nia.
Qed.

Lemma size_prod w a b m : 0 < w -> 0 <= a <= m -> 0 <= b <= m -> w * a * b <= w * m * m.
Proof. intros. assert (a * b <= m * m) by nia. nia. Qed.

Lemma cover3 mhd g f a c : 0 < gw g -> 0 <= nx g -> 0 <= ny g -> 0 <= nz g -> slab3 g f c ->
  (0 <= enc3 g f c <
     gw g * Z.max (Z.max (isize g) (jsize g)) (ksize g) * Z.max (Z.max (isize g) (jsize g)) (ksize g)) /\
  make_boundaries_functor3d (T:=T) mhd g f a (enc3 g f c) =
    assign_cell a (nbvar g) c (src_f g f c) (sg_f mhd g f).
Proof.
  intros Hw Hx Hy Hz. destruct c as [[i j] k]. unfold slab3. intros H.
  assert (HI : isize g = nx g + 2 * gw g) by (unfold_sizes; lia).
  assert (HJ : jsize g = ny g + 2 * gw g) by (unfold_sizes; lia).
  assert (HK : ksize g = nz g + 2 * gw g) by (unfold_sizes; lia).
  set (m := Z.max (Z.max (isize g) (jsize g)) (ksize g)).
  assert (Hm : isize g <= m /\ jsize g <= m /\ ksize g <= m) by (unfold m; lia).
  destruct f; destruct H as (H1 & H2 & H3); unfold enc3, make_boundaries_functor3d, src_f, sg_f.
  - split.
    { apply enc3_range with (r := ksize g); try lia. apply size_prod; lia. }
    destruct (dec3 (gw g) (jsize g) i j k) as (D1 & D2 & D3); try lia. cbv zeta.
    rewrite D1, D2, D3.
    match goal with |- (if ?b then _ else _) = _ => assert (Hb : b = true) by (unfold_sizes; bool_true; lia); rewrite Hb end.
    reflexivity.
  - split.
    { apply enc3_range with (r := ksize g); try lia. apply size_prod; lia. }
    destruct (dec3 (gw g) (jsize g) (i - (nx g + gw g)) j k) as (D1 & D2 & D3); try lia. cbv zeta.
    rewrite D1, D2, D3.
    replace (i - (nx g + gw g) + (nx g + gw g)) with i by lia.
    match goal with |- (if ?b then _ else _) = _ => assert (Hb : b = true) by (unfold_sizes; bool_true; lia); rewrite Hb end.
    reflexivity.
  - split.
    { apply enc3_range with (r := ksize g); try lia.
      replace (isize g * gw g * ksize g) with (gw g * isize g * ksize g) by ring. apply size_prod; lia. }
    destruct (dec3 (isize g) (gw g) i j k) as (D1 & D2 & D3); try lia. cbv zeta.
    rewrite D1, D2, D3.
    match goal with |- (if ?b then _ else _) = _ => assert (Hb : b = true) by (unfold_sizes; bool_true; lia); rewrite Hb end.
    reflexivity.
  - split.
    { apply enc3_range with (r := ksize g); try lia.
      replace (isize g * gw g * ksize g) with (gw g * isize g * ksize g) by ring. apply size_prod; lia. }
    destruct (dec3 (isize g) (gw g) i (j - (ny g + gw g)) k) as (D1 & D2 & D3); try lia. cbv zeta.
    rewrite D1, D2, D3.
    replace (j - (ny g + gw g) + (ny g + gw g)) with j by lia.
    match goal with |- (if ?b then _ else _) = _ => assert (Hb : b = true) by (unfold_sizes; bool_true; lia); rewrite Hb end.
    reflexivity.
  - split.
    { apply enc3_range with (r := gw g); try lia.
      replace (isize g * jsize g * gw g) with (gw g * isize g * jsize g) by ring. apply size_prod; lia. }
    destruct (dec3 (isize g) (jsize g) i j k) as (D1 & D2 & D3); try lia. cbv zeta.
    rewrite D1, D2, D3.
    match goal with |- (if ?b then _ else _) = _ => assert (Hb : b = true) by (unfold_sizes; bool_true; lia); rewrite Hb end.
    reflexivity.
  - split.
    { apply enc3_range with (r := gw g); try lia.
      replace (isize g * jsize g * gw g) with (gw g * isize g * jsize g) by ring. apply size_prod; lia. }
    destruct (dec3 (isize g) (jsize g) i j (k - (nz g + gw g))) as (D1 & D2 & D3); try lia. cbv zeta.
    rewrite D1, D2, D3.
    replace (k - (nz g + gw g) + (nz g + gw g)) with k by lia.
    match goal with |- (if ?b then _ else _) = _ => assert (Hb : b = true) by (unfold_sizes; bool_true; lia); rewrite Hb end.
    reflexivity.
Qed.

Lemma dec3_ex p q index : 0 < p -> 0 < q -> 0 <= index ->
  exists i j k, index / (p * q) = k /\ (index - k * p * q) / p = j /\ index - j * p - k * p * q = i /\
  0 <= i < p /\ 0 <= j < q /\ 0 <= k /\ index = k * (p * q) + (j * p + i).
Proof.
  intros Hp Hq Hi. destruct (dec3_inv p q index Hp Hq Hi) as (D1 & D2 & D3 & D4).
  eexists _, _, _. split; [reflexivity|]. split; [reflexivity|]. split; [reflexivity|].
  repeat split; try apply D1; try apply D2; try apply D3; try apply D4.
Qed.

Ltac cases3_tac g p q index :=
  let i := fresh "i" in let j := fresh "j" in let k := fresh "k" in let Hb := fresh "Hb" in
  let E1 := fresh in let E2 := fresh in let E3 := fresh in
  let D1 := fresh in let D2 := fresh in let D3 := fresh in let D4 := fresh in
  destruct (dec3_ex p q index) as (i & j & k & E1 & E2 & E3 & D1 & D2 & D3 & D4); [lia|lia|lia|];
  rewrite ?E1, ?E2, ?E3; clear E1 E2 E3;
  match goal with |- context [if ?b then assign_cell _ _ ?c _ _ else skip] =>
      destruct b eqn:Hb; [left; exists c|right; reflexivity] end;
  guard_true Hb; unfold imin, imax, jmin, jmax, kmin, kmax in *;
  (split; [unfold slab3; repeat split; lia|split; [unfold enc3; rewrite D4; ring|reflexivity]]).

Lemma cases3 mhd g f a index : 0 < gw g -> 0 <= nx g -> 0 <= ny g -> 0 <= nz g -> 0 <= index ->
  (exists c, slab3 g f c /\ enc3 g f c = index /\
     make_boundaries_functor3d (T:=T) mhd g f a index =
       assign_cell a (nbvar g) c (src_f g f c) (sg_f mhd g f)) \/
  make_boundaries_functor3d (T:=T) mhd g f a index = skip.
Proof.
  intros Hw Hx Hy Hz Hi.
  assert (HI : isize g = nx g + 2 * gw g) by (unfold_sizes; lia).
  assert (HJ : jsize g = ny g + 2 * gw g) by (unfold_sizes; lia).
  assert (HK : ksize g = nz g + 2 * gw g) by (unfold_sizes; lia).
  destruct f; unfold make_boundaries_functor3d; cbv zeta.
  - cases3_tac g (gw g) (jsize g) index.
  - cases3_tac g (gw g) (jsize g) index.
  - cases3_tac g (isize g) (gw g) index.
  - cases3_tac g (isize g) (gw g) index.
  - cases3_tac g (isize g) (jsize g) index.
  - cases3_tac g (isize g) (jsize g) index.
Qed.

Lemma inj3 g f c c' : 0 < gw g -> 0 <= nx g -> 0 <= ny g -> 0 <= nz g ->
  slab3 g f c -> slab3 g f c' -> enc3 g f c = enc3 g f c' -> c = c'.
Proof.
  intros Hw Hx Hy Hz. destruct c as [[i j] k], c' as [[i' j'] k']. unfold slab3, enc3.
  assert (HI : isize g = nx g + 2 * gw g) by (unfold_sizes; lia).
  assert (HJ : jsize g = ny g + 2 * gw g) by (unfold_sizes; lia).
  assert (G : forall p q i j k i' j' k', 0 <= i < p -> 0 <= j < q -> 0 <= i' < p -> 0 <= j' < q ->
     k * (p * q) + (j * p + i) = k' * (p * q) + (j' * p + i') -> i = i' /\ j = j' /\ k = k').
  { clear. intros p q i j k i' j' k' Hi Hj Hi' Hj' He.
    destruct (dec3 p q i j k Hi Hj) as (D1 & D2 & D3).
    destruct (dec3 p q i' j' k' Hi' Hj') as (D1' & D2' & D3').
    rewrite He in *. assert (k = k') by congruence. subst k'. assert (j = j') by congruence. subst j'.
    intuition congruence. }
  intros H H' He.
  destruct f; destruct H as (H1 & H2 & H3), H' as (H1' & H2' & H3'); apply G in He; try lia;
    destruct He as (E1 & E2 & E3); repeat f_equal; lia.
Qed.

Lemma src3_out g f c : 0 < gw g -> 0 <= nx g -> 0 <= ny g -> 0 <= nz g -> no_race_f g f ->
  slab3 g f c -> ~ slab3 g f (src_f g f c).
Proof.
  intros Hw Hx Hy Hz Hr. destruct c as [[i j] k]. unfold slab3, src_f, no_race_f in *.
  intros H. destruct f; destruct H as (H1 & H2 & H3).
  - pose proof (src_lo_out _ _ _ i Hw Hr H1 Hx); lia.
  - pose proof (src_hi_out _ _ _ i Hw Hr H1 Hx); lia.
  - pose proof (src_lo_out _ _ _ j Hw Hr H2 Hy); lia.
  - pose proof (src_hi_out _ _ _ j Hw Hr H2 Hy); lia.
  - pose proof (src_lo_out _ _ _ k Hw Hr H3 Hz); lia.
  - pose proof (src_hi_out _ _ _ k Hw Hr H3 Hz); lia.
Qed.

Lemma face3_spec mhd g f a s s' :
  0 < gw g -> 0 <= nx g -> 0 <= ny g -> 0 <= nz g -> no_race_f g f ->
  par_exec s (make_boundary3d mhd g a f) s' ->
  (forall c v, slab3 g f c -> 0 <= v < nbvar g ->
     s' (at_cell a c v) = mul (s (at_cell a (src_f g f c) v)) (sg_f mhd g f v)) /\
  (forall l, (forall c v, slab3 g f c -> 0 <= v < nbvar g -> l <> at_cell a c v) -> s' l = s l).
Proof.
  intros Hw Hx Hy Hz Hr Hex.
  apply (face_spec a (nbvar g)
           (gw g * Z.max (Z.max (isize g) (jsize g)) (ksize g) * Z.max (Z.max (isize g) (jsize g)) (ksize g))
           (make_boundaries_functor3d mhd g f a) (slab3 g f) (src_f g f) (enc3 g f)); auto.
  - intros index Hi. apply cases3; lia.
  - intros c Hc. apply cover3; auto.
  - intros c Hc. apply src3_out; auto.
Qed.


(** ** From code-level sources to the specification *)
Lemma sign_of_spec mhd bt d v :
  sign_of (T:=T) mhd bt (2 + d) (5 + d) v =
  if (match kind_of_code bt with Reflecting => true | _ => false end) && flips mhd d v then opp one else one.
Proof.
  unfold sign_of, kind_of_code, flips, BC_DIRICHLET. destruct (bt =? 1); [reflexivity|].
  destruct (bt =? 2); reflexivity.
Qed.

Lemma src_lo_image bt c2 n w i : 0 <= i < w ->
  src_lo bt n w i = w + image (kind_of_code bt) c2 n (i - w).
Proof.
  intros Hi. unfold src_lo, image, kind_of_code, BC_DIRICHLET, BC_NEUMANN.
  destruct (Z.ltb_spec (i - w) 0); [|lia].
  destruct (bt =? 1); [lia|]. destruct (bt =? 2); lia.
Qed.

Lemma src_hi_image bt c1 n w i : 0 <= n -> n + w <= i ->
  src_hi bt n w i = w + image c1 (kind_of_code bt) n (i - w).
Proof.
  intros Hn Hi. unfold src_hi, image, kind_of_code, BC_DIRICHLET, BC_NEUMANN.
  destruct (Z.ltb_spec (i - w) 0); [lia|]. destruct (Z.leb_spec n (i - w)); [|lia].
  destruct (bt =? 1); [lia|]. destruct (bt =? 2); lia.
Qed.

Lemma image_interior lo hi n w p : 0 < w <= n -> - w <= p < n + w -> 0 <= image lo hi n p < n.
Proof.
  intros Hw Hp. unfold image. destruct (Z.ltb_spec p 0); [destruct lo; lia|].
  destruct (Z.leb_spec n p); [destruct hi; lia|lia].
Qed.

Lemma image_id lo hi n p : 0 <= p < n -> image lo hi n p = p.
Proof.
  intros Hp. unfold image. destruct (Z.ltb_spec p 0); [lia|]. destruct (Z.leb_spec n p); [lia|]. reflexivity.
Qed.

Lemma along_lo mhd d bt c2 n w i v (x : T) : 0 <= i < w ->
  along mhd d (kind_of_code bt) c2 n (i - w) v x = mul x (sign_of mhd bt (2 + d) (5 + d) v).
Proof.
  intros Hi. unfold along, is_ghost, reflected. destruct (Z.ltb_spec (i - w) 0); [|lia].
  cbn [orb]. rewrite sign_of_spec. reflexivity.
Qed.

Lemma along_hi mhd d bt c1 n w i v (x : T) : 0 <= n -> n + w <= i ->
  along mhd d c1 (kind_of_code bt) n (i - w) v x = mul x (sign_of mhd bt (2 + d) (5 + d) v).
Proof.
  intros Hn Hi. unfold along, is_ghost, reflected. destruct (Z.ltb_spec (i - w) 0); [lia|].
  destruct (Z.leb_spec n (i - w)); [|lia].
  cbn [orb]. rewrite sign_of_spec. reflexivity.
Qed.

Lemma along_int mhd d c1 c2 n p v (x : T) : 0 <= p < n -> along mhd d c1 c2 n p v x = x.
Proof.
  intros Hp. unfold along, is_ghost. destruct (Z.ltb_spec p 0); [lia|].
  destruct (Z.leb_spec n p); [lia|]. reflexivity.
Qed.

Lemma run_kernels_app (k1 k2 : list (list (prog T unit))) s s' :
  run_kernels (k1 ++ k2) s s' <-> exists s1, run_kernels k1 s s1 /\ run_kernels k2 s1 s'.
Proof.
  split.
  - revert s. induction k1 as [|p k1 IH]; cbn; intros s H.
    + exists s. split; [constructor|exact H].
    + inversion H as [|ps kers sa sb sc Hp Hk]; subst. destruct (IH _ Hk) as (s1 & H1 & H2).
      exists s1. split; auto. econstructor; eauto.
  - intros (s1 & H1 & H2). induction H1; cbn; auto. econstructor; eauto.
Qed.

Lemma run_kernels_2 (p q : list (prog T unit)) s s' :
  run_kernels [p; q] s s' -> exists s1, par_exec s p s1 /\ par_exec s1 q s'.
Proof.
  intros H. inversion H as [|ps kers sa sb sc Hp Hk]; subst. exists sb. split; auto.
  inversion Hk as [|ps' kers' sa' sb' sc' Hp' Hk']; subst. inversion Hk'; subst. assumption.
Qed.

Lemma no_race_ok bt n w : w <= n -> no_race_dir bt n w.
Proof. left; assumption. Qed.

Ltac not_in_slab H := intros [[? ?] ?] ? Hc ? Heq; unfold slab2, slab3 in Hc; cbn [at_cell] in Heq;
  inversion Heq; subst; lia.

(** Directions, 2D *)
Lemma dirx2 mhd g a s s' : grid_ok2d g ->
  run_kernels [make_boundary2d mhd g a FACE_XMIN; make_boundary2d mhd g a FACE_XMAX] s s' ->
  (forall i j v, 0 <= i < nx g + 2 * gw g -> 0 <= j < ny g + 2 * gw g -> 0 <= v < nbvar g ->
     s' (Loc a i j 0 v) = along mhd 0 (kx0 g) (kx1 g) (nx g) (i - gw g) v
        (s (Loc a (gw g + image (kx0 g) (kx1 g) (nx g) (i - gw g)) j 0 v))) /\
  (forall l, ~ alloc2d g a l -> s' l = s l).
Proof.
  intros (Hw & Hx & Hy & Hv) H. apply run_kernels_2 in H. destruct H as (s1 & H1 & H2).
  apply face2_spec in H1; try lia; [|apply no_race_ok; lia].
  apply face2_spec in H2; try lia; [|apply no_race_ok; lia].
  destruct H1 as [A1 F1], H2 as [A2 F2]. split.
  - intros i j v Hi Hj Hv'.
    assert (i < gw g \/ gw g <= i < nx g + gw g \/ nx g + gw g <= i) as [C|[C|C]] by lia.
    + rewrite F2 by not_in_slab tt.
      let E := fresh in assert (E := A1 (i, j, 0) v); cbn [src_f at_cell sg_f] in E; rewrite E by (unfold slab2; lia); clear E.
      unfold kx0 at 1. rewrite along_lo by lia. rewrite (src_lo_image _ (kx1 g)) by lia. reflexivity.
    + rewrite F2 by not_in_slab tt. rewrite F1 by not_in_slab tt.
      rewrite along_int by lia. rewrite image_id by lia. do 2 f_equal. lia.
    + let E := fresh in assert (E := A2 (i, j, 0) v); cbn [src_f at_cell sg_f] in E; rewrite E by (unfold slab2; lia); clear E.
      unfold kx1 at 1. rewrite along_hi by lia. rewrite (src_hi_image _ (kx0 g)) by lia.
      rewrite F1; [reflexivity|].
      assert (0 <= image (kx0 g) (kx1 g) (nx g) (i - gw g) < nx g) by (apply (image_interior _ _ _ (gw g)); lia).
      unfold kx1 in *. not_in_slab tt.
  - intros l Hl. assert (forall f c v, slab2 g f c -> 0 <= v < nbvar g -> l <> at_cell a c v).
    { intros f [[i j] k] v Hc Hv' ->. apply Hl. unfold alloc2d. cbn [at_cell la li lj lk lv]. unfold slab2 in Hc. destruct f; lia. }
    rewrite F2 by (intros; eauto). apply F1. eauto.
Qed.

Lemma diry2 mhd g a s s' : grid_ok2d g ->
  run_kernels [make_boundary2d mhd g a FACE_YMIN; make_boundary2d mhd g a FACE_YMAX] s s' ->
  (forall i j v, 0 <= i < nx g + 2 * gw g -> 0 <= j < ny g + 2 * gw g -> 0 <= v < nbvar g ->
     s' (Loc a i j 0 v) = along mhd 1 (ky0 g) (ky1 g) (ny g) (j - gw g) v
        (s (Loc a i (gw g + image (ky0 g) (ky1 g) (ny g) (j - gw g)) 0 v))) /\
  (forall l, ~ alloc2d g a l -> s' l = s l).
Proof.
  intros (Hw & Hx & Hy & Hv) H. apply run_kernels_2 in H. destruct H as (s1 & H1 & H2).
  apply face2_spec in H1; try lia; [|apply no_race_ok; lia].
  apply face2_spec in H2; try lia; [|apply no_race_ok; lia].
  destruct H1 as [A1 F1], H2 as [A2 F2]. split.
  - intros i j v Hi Hj Hv'.
    assert (j < gw g \/ gw g <= j < ny g + gw g \/ ny g + gw g <= j) as [C|[C|C]] by lia.
    + rewrite F2 by not_in_slab tt.
      let E := fresh in assert (E := A1 (i, j, 0) v); cbn [src_f at_cell sg_f] in E; rewrite E by (unfold slab2; lia); clear E.
      unfold ky0 at 1. rewrite along_lo by lia. rewrite (src_lo_image _ (ky1 g)) by lia. reflexivity.
    + rewrite F2 by not_in_slab tt. rewrite F1 by not_in_slab tt.
      rewrite along_int by lia. rewrite image_id by lia. do 2 f_equal. lia.
    + let E := fresh in assert (E := A2 (i, j, 0) v); cbn [src_f at_cell sg_f] in E; rewrite E by (unfold slab2; lia); clear E.
      unfold ky1 at 1. rewrite along_hi by lia. rewrite (src_hi_image _ (ky0 g)) by lia.
      rewrite F1; [reflexivity|].
      assert (0 <= image (ky0 g) (ky1 g) (ny g) (j - gw g) < ny g) by (apply (image_interior _ _ _ (gw g)); lia).
      unfold ky1 in *. not_in_slab tt.
  - intros l Hl. assert (forall f c v, slab2 g f c -> 0 <= v < nbvar g -> l <> at_cell a c v).
    { intros f [[i j] k] v Hc Hv' ->. apply Hl. unfold alloc2d. cbn [at_cell la li lj lk lv]. unfold slab2 in Hc. destruct f; lia. }
    rewrite F2 by (intros; eauto). apply F1. eauto.
Qed.

(** The whole 2D fill under every schedule. *)
Lemma fill2_spec mhd g a s s' : grid_ok2d g ->
  run_kernels (make_boundaries_serial2d mhd g a) s s' ->
  (forall i j v, 0 <= i < nx g + 2 * gw g -> 0 <= j < ny g + 2 * gw g -> 0 <= v < nbvar g ->
     s' (Loc a i j 0 v) = filled2d mhd g (fun i j v => s (Loc a i j 0 v)) i j v) /\
  (forall l, ~ alloc2d g a l -> s' l = s l).
Proof.
  intros Hg H. unfold make_boundaries_serial2d in H. cbn [map] in H.
  change [make_boundary2d mhd g a FACE_XMIN; make_boundary2d mhd g a FACE_XMAX;
          make_boundary2d mhd g a FACE_YMIN; make_boundary2d mhd g a FACE_YMAX]
    with ([make_boundary2d (T:=T) mhd g a FACE_XMIN; make_boundary2d mhd g a FACE_XMAX] ++
          [make_boundary2d mhd g a FACE_YMIN; make_boundary2d mhd g a FACE_YMAX]) in H.
  apply run_kernels_app in H. destruct H as (s1 & H1 & H2).
  apply dirx2 in H1; auto. apply diry2 in H2; auto.
  destruct H1 as [X1 X2], H2 as [Y1 Y2]. destruct Hg as (Hw & Hx & Hy & Hv). split.
  - intros i j v Hi Hj Hv'. rewrite Y1 by lia.
    assert (0 <= image (ky0 g) (ky1 g) (ny g) (j - gw g) < ny g) by (apply (image_interior _ _ _ (gw g)); lia).
    rewrite X1 by lia. reflexivity.
  - intros l Hl. rewrite Y2, X2; auto.
Qed.

(** Directions, 3D *)
Lemma dirx3 mhd g a s s' : grid_ok3d g ->
  run_kernels [make_boundary3d mhd g a FACE_XMIN; make_boundary3d mhd g a FACE_XMAX] s s' ->
  (forall i j k v, 0 <= i < nx g + 2 * gw g -> 0 <= j < ny g + 2 * gw g -> 0 <= k < nz g + 2 * gw g -> 0 <= v < nbvar g ->
     s' (Loc a i j k v) = along mhd 0 (kx0 g) (kx1 g) (nx g) (i - gw g) v
        (s (Loc a (gw g + image (kx0 g) (kx1 g) (nx g) (i - gw g)) j k v))) /\
  (forall l, ~ alloc3d g a l -> s' l = s l).
Proof.
  intros ((Hw & Hx & Hy & Hv) & Hz) H. apply run_kernels_2 in H. destruct H as (s1 & H1 & H2).
  apply face3_spec in H1; try lia; [|apply no_race_ok; lia].
  apply face3_spec in H2; try lia; [|apply no_race_ok; lia].
  destruct H1 as [A1 F1], H2 as [A2 F2]. split.
  - intros i j k v Hi Hj Hk Hv'.
    assert (i < gw g \/ gw g <= i < nx g + gw g \/ nx g + gw g <= i) as [C|[C|C]] by lia.
    + rewrite F2 by not_in_slab tt.
      let E := fresh in assert (E := A1 (i, j, k) v); cbn [src_f at_cell sg_f] in E; rewrite E by (unfold slab3; lia); clear E.
      unfold kx0 at 1. rewrite along_lo by lia. rewrite (src_lo_image _ (kx1 g)) by lia. reflexivity.
    + rewrite F2 by not_in_slab tt. rewrite F1 by not_in_slab tt.
      rewrite along_int by lia. rewrite image_id by lia. do 2 f_equal. lia.
    + let E := fresh in assert (E := A2 (i, j, k) v); cbn [src_f at_cell sg_f] in E; rewrite E by (unfold slab3; lia); clear E.
      unfold kx1 at 1. rewrite along_hi by lia. rewrite (src_hi_image _ (kx0 g)) by lia.
      rewrite F1; [reflexivity|].
      assert (0 <= image (kx0 g) (kx1 g) (nx g) (i - gw g) < nx g) by (apply (image_interior _ _ _ (gw g)); lia).
      unfold kx1 in *. not_in_slab tt.
  - intros l Hl. assert (forall f c v, slab3 g f c -> 0 <= v < nbvar g -> l <> at_cell a c v).
    { intros f [[i j] k] v Hc Hv' ->. apply Hl. unfold alloc3d. cbn [at_cell la li lj lk lv]. unfold slab3 in Hc. destruct f; lia. }
    rewrite F2 by (intros; eauto). apply F1. eauto.
Qed.

Lemma diry3 mhd g a s s' : grid_ok3d g ->
  run_kernels [make_boundary3d mhd g a FACE_YMIN; make_boundary3d mhd g a FACE_YMAX] s s' ->
  (forall i j k v, 0 <= i < nx g + 2 * gw g -> 0 <= j < ny g + 2 * gw g -> 0 <= k < nz g + 2 * gw g -> 0 <= v < nbvar g ->
     s' (Loc a i j k v) = along mhd 1 (ky0 g) (ky1 g) (ny g) (j - gw g) v
        (s (Loc a i (gw g + image (ky0 g) (ky1 g) (ny g) (j - gw g)) k v))) /\
  (forall l, ~ alloc3d g a l -> s' l = s l).
Proof.
  intros ((Hw & Hx & Hy & Hv) & Hz) H. apply run_kernels_2 in H. destruct H as (s1 & H1 & H2).
  apply face3_spec in H1; try lia; [|apply no_race_ok; lia].
  apply face3_spec in H2; try lia; [|apply no_race_ok; lia].
  destruct H1 as [A1 F1], H2 as [A2 F2]. split.
  - intros i j k v Hi Hj Hk Hv'.
    assert (j < gw g \/ gw g <= j < ny g + gw g \/ ny g + gw g <= j) as [C|[C|C]] by lia.
    + rewrite F2 by not_in_slab tt.
      let E := fresh in assert (E := A1 (i, j, k) v); cbn [src_f at_cell sg_f] in E; rewrite E by (unfold slab3; lia); clear E.
      unfold ky0 at 1. rewrite along_lo by lia. rewrite (src_lo_image _ (ky1 g)) by lia. reflexivity.
    + rewrite F2 by not_in_slab tt. rewrite F1 by not_in_slab tt.
      rewrite along_int by lia. rewrite image_id by lia. do 2 f_equal. lia.
    + let E := fresh in assert (E := A2 (i, j, k) v); cbn [src_f at_cell sg_f] in E; rewrite E by (unfold slab3; lia); clear E.
      unfold ky1 at 1. rewrite along_hi by lia. rewrite (src_hi_image _ (ky0 g)) by lia.
      rewrite F1; [reflexivity|].
      assert (0 <= image (ky0 g) (ky1 g) (ny g) (j - gw g) < ny g) by (apply (image_interior _ _ _ (gw g)); lia).
      unfold ky1 in *. not_in_slab tt.
  - intros l Hl. assert (forall f c v, slab3 g f c -> 0 <= v < nbvar g -> l <> at_cell a c v).
    { intros f [[i j] k] v Hc Hv' ->. apply Hl. unfold alloc3d. cbn [at_cell la li lj lk lv]. unfold slab3 in Hc. destruct f; lia. }
    rewrite F2 by (intros; eauto). apply F1. eauto.
Qed.

Lemma dirz3 mhd g a s s' : grid_ok3d g ->
  run_kernels [make_boundary3d mhd g a FACE_ZMIN; make_boundary3d mhd g a FACE_ZMAX] s s' ->
  (forall i j k v, 0 <= i < nx g + 2 * gw g -> 0 <= j < ny g + 2 * gw g -> 0 <= k < nz g + 2 * gw g -> 0 <= v < nbvar g ->
     s' (Loc a i j k v) = along mhd 2 (kz0 g) (kz1 g) (nz g) (k - gw g) v
        (s (Loc a i j (gw g + image (kz0 g) (kz1 g) (nz g) (k - gw g)) v))) /\
  (forall l, ~ alloc3d g a l -> s' l = s l).
Proof.
  intros ((Hw & Hx & Hy & Hv) & Hz) H. apply run_kernels_2 in H. destruct H as (s1 & H1 & H2).
  apply face3_spec in H1; try lia; [|apply no_race_ok; lia].
  apply face3_spec in H2; try lia; [|apply no_race_ok; lia].
  destruct H1 as [A1 F1], H2 as [A2 F2]. split.
  - intros i j k v Hi Hj Hk Hv'.
    assert (k < gw g \/ gw g <= k < nz g + gw g \/ nz g + gw g <= k) as [C|[C|C]] by lia.
    + rewrite F2 by not_in_slab tt.
      let E := fresh in assert (E := A1 (i, j, k) v); cbn [src_f at_cell sg_f] in E; rewrite E by (unfold slab3; lia); clear E.
      unfold kz0 at 1. rewrite along_lo by lia. rewrite (src_lo_image _ (kz1 g)) by lia. reflexivity.
    + rewrite F2 by not_in_slab tt. rewrite F1 by not_in_slab tt.
      rewrite along_int by lia. rewrite image_id by lia. do 2 f_equal. lia.
    + let E := fresh in assert (E := A2 (i, j, k) v); cbn [src_f at_cell sg_f] in E; rewrite E by (unfold slab3; lia); clear E.
      unfold kz1 at 1. rewrite along_hi by lia. rewrite (src_hi_image _ (kz0 g)) by lia.
      rewrite F1; [reflexivity|].
      assert (0 <= image (kz0 g) (kz1 g) (nz g) (k - gw g) < nz g) by (apply (image_interior _ _ _ (gw g)); lia).
      unfold kz1 in *. not_in_slab tt.
  - intros l Hl. assert (forall f c v, slab3 g f c -> 0 <= v < nbvar g -> l <> at_cell a c v).
    { intros f [[i j] k] v Hc Hv' ->. apply Hl. unfold alloc3d. cbn [at_cell la li lj lk lv]. unfold slab3 in Hc. destruct f; lia. }
    rewrite F2 by (intros; eauto). apply F1. eauto.
Qed.

Lemma fill3_spec mhd g a s s' : grid_ok3d g ->
  run_kernels (make_boundaries_serial3d mhd g a) s s' ->
  (forall i j k v, 0 <= i < nx g + 2 * gw g -> 0 <= j < ny g + 2 * gw g -> 0 <= k < nz g + 2 * gw g -> 0 <= v < nbvar g ->
     s' (Loc a i j k v) = filled3d mhd g (fun i j k v => s (Loc a i j k v)) i j k v) /\
  (forall l, ~ alloc3d g a l -> s' l = s l).
Proof.
  intros Hg H. unfold make_boundaries_serial3d in H. cbn [map] in H.
  change (run_kernels (([make_boundary3d (T:=T) mhd g a FACE_XMIN; make_boundary3d mhd g a FACE_XMAX] ++
          [make_boundary3d mhd g a FACE_YMIN; make_boundary3d mhd g a FACE_YMAX]) ++
          [make_boundary3d mhd g a FACE_ZMIN; make_boundary3d mhd g a FACE_ZMAX]) s s') in H.
  apply run_kernels_app in H. destruct H as (s2 & H & H3).
  apply run_kernels_app in H. destruct H as (s1 & H1 & H2).
  apply dirx3 in H1; auto. apply diry3 in H2; auto. apply dirz3 in H3; auto.
  destruct H1 as [X1 X2], H2 as [Y1 Y2], H3 as [Z1 Z2]. destruct Hg as ((Hw & Hx & Hy & Hv) & Hz). split.
  - intros i j k v Hi Hj Hk Hv'. rewrite Z1 by lia.
    assert (0 <= image (kz0 g) (kz1 g) (nz g) (k - gw g) < nz g) by (apply (image_interior _ _ _ (gw g)); lia).
    rewrite Y1 by lia.
    assert (0 <= image (ky0 g) (ky1 g) (ny g) (j - gw g) < ny g) by (apply (image_interior _ _ _ (gw g)); lia).
    rewrite X1 by lia. reflexivity.
  - intros l Hl. rewrite Z2, Y2, X2; auto.
Qed.


(** ** Determinism *)
Lemma and_dec (P Q : Prop) : {P} + {~ P} -> {Q} + {~ Q} -> {P /\ Q} + {~ (P /\ Q)}.
Proof. intros [HP|HP] [HQ|HQ]; [left|right|right|right]; tauto. Qed.

Lemma face_dec2 g f (l : loc) a : {c : cell & {v | slab2 g f c /\ 0 <= v < nbvar g /\ l = at_cell a c v}} +
  {forall c v, slab2 g f c -> 0 <= v < nbvar g -> l <> at_cell a c v}.
Proof.
  destruct l as [a' i j k v].
  assert (D : {slab2 g f (i, j, k) /\ 0 <= v < nbvar g /\ a' = a} + {~ (slab2 g f (i, j, k) /\ 0 <= v < nbvar g /\ a' = a)}).
  { unfold slab2. destruct f; repeat match goal with
     | |- {?P /\ ?Q} + {_} => apply and_dec
     | |- {_ <= _} + {_} => apply Z_le_dec
     | |- {_ < _} + {_} => apply Z_lt_dec
     | |- {_ = _} + {_} => apply Z.eq_dec
     | |- {False} + {_} => right; tauto
     end. }
  destruct D as [(D1 & D2 & ->)|D]; [left; exists (i, j, k), v; auto|].
  right. intros [[i' j'] k'] v' Hc Hv H. apply D. cbn in H. inversion H; subst. auto.
Qed.

Lemma face_dec3 g f (l : loc) a : {c : cell & {v | slab3 g f c /\ 0 <= v < nbvar g /\ l = at_cell a c v}} +
  {forall c v, slab3 g f c -> 0 <= v < nbvar g -> l <> at_cell a c v}.
Proof.
  destruct l as [a' i j k v].
  assert (D : {slab3 g f (i, j, k) /\ 0 <= v < nbvar g /\ a' = a} + {~ (slab3 g f (i, j, k) /\ 0 <= v < nbvar g /\ a' = a)}).
  { unfold slab3. destruct f; repeat match goal with
     | |- {?P /\ ?Q} + {_} => apply and_dec
     | |- {_ <= _} + {_} => apply Z_le_dec
     | |- {_ < _} + {_} => apply Z_lt_dec
     | |- {_ = _} + {_} => apply Z.eq_dec
     | |- {False} + {_} => right; tauto
     end. }
  destruct D as [(D1 & D2 & ->)|D]; [left; exists (i, j, k), v; auto|].
  right. intros [[i' j'] k'] v' Hc Hv H. apply D. cbn in H. inversion H; subst. auto.
Qed.

(** Kernels whose result is determined by the start memory. *)
Definition det_kernel (ps : list (prog T unit)) : Prop :=
  forall s1 s2 s1' s2', seq s1 s2 -> par_exec s1 ps s1' -> par_exec s2 ps s2' -> seq s1' s2'.

Lemma det_kernels kers : (forall ps, In ps kers -> det_kernel ps) ->
  forall s1 s2 s1' s2', seq s1 s2 -> run_kernels kers s1 s1' -> run_kernels kers s2 s2' -> seq s1' s2'.
Proof.
  induction kers as [|ps kers IH]; intros Hd s1 s2 s1' s2' He H1 H2.
  - inversion H1; inversion H2; subst; auto.
  - inversion H1 as [|? ? ? t1 ? Hp1 Hk1]; inversion H2 as [|? ? ? t2 ? Hp2 Hk2]; subst.
    apply (IH (fun ps Hps => Hd ps (or_intror Hps)) t1 t2 s1' s2'); auto.
    apply (Hd ps (or_introl eq_refl) s1 s2); auto.
Qed.

Lemma face2_det mhd g f a : 0 < gw g -> 0 <= nx g -> 0 <= ny g -> no_race_f g f ->
  det_kernel (make_boundary2d mhd g a f).
Proof.
  intros Hw Hx Hy Hr s1 s2 s1' s2' He H1 H2 l.
  apply face2_spec in H1; auto. apply face2_spec in H2; auto.
  destruct H1 as [A1 F1], H2 as [A2 F2].
  destruct (face_dec2 g f l a) as [(c & v & Hc & Hv & ->)|Hn].
  - rewrite A1, A2 by auto. now rewrite (He _).
  - rewrite F1, F2 by auto. apply He.
Qed.

Lemma face3_det mhd g f a : 0 < gw g -> 0 <= nx g -> 0 <= ny g -> 0 <= nz g -> no_race_f g f ->
  det_kernel (make_boundary3d mhd g a f).
Proof.
  intros Hw Hx Hy Hz Hr s1 s2 s1' s2' He H1 H2 l.
  apply face3_spec in H1; auto. apply face3_spec in H2; auto.
  destruct H1 as [A1 F1], H2 as [A2 F2].
  destruct (face_dec3 g f l a) as [(c & v & Hc & Hv & ->)|Hn].
  - rewrite A1, A2 by auto. now rewrite (He _).
  - rewrite F1, F2 by auto. apply He.
Qed.

Lemma fill2_det mhd g a s s1 s2 :
  0 < gw g -> 0 <= nx g -> 0 <= ny g ->
  (forall f, In f [FACE_XMIN; FACE_XMAX; FACE_YMIN; FACE_YMAX] -> no_race_f g f) ->
  run_kernels (make_boundaries_serial2d mhd g a) s s1 ->
  run_kernels (make_boundaries_serial2d mhd g a) s s2 -> seq s1 s2.
Proof.
  intros Hw Hx Hy Hr. apply det_kernels; [|intros l; reflexivity].
  intros ps Hps. unfold make_boundaries_serial2d in Hps. apply in_map_iff in Hps.
  destruct Hps as (f & <- & Hf). apply face2_det; auto.
Qed.

Lemma fill3_det mhd g a s s1 s2 :
  0 < gw g -> 0 <= nx g -> 0 <= ny g -> 0 <= nz g ->
  (forall f, no_race_f g f) ->
  run_kernels (make_boundaries_serial3d mhd g a) s s1 ->
  run_kernels (make_boundaries_serial3d mhd g a) s s2 -> seq s1 s2.
Proof.
  intros Hw Hx Hy Hz Hr. apply det_kernels; [|intros l; reflexivity].
  intros ps Hps. unfold make_boundaries_serial3d in Hps. apply in_map_iff in Hps.
  destruct Hps as (f & <- & Hf). apply face3_det; auto.
Qed.

(** ** Memory safety *)
Lemma src_lo_in bt n w i : 0 < w -> 0 <= n -> 0 <= i < w -> 0 <= src_lo bt n w i < n + 2 * w.
Proof. unfold src_lo. intros. destruct (bt =? BC_DIRICHLET); [lia|]. destruct (bt =? BC_NEUMANN); lia. Qed.
Lemma src_hi_in bt n w i : 0 < w -> 0 <= n -> n + w <= i < n + 2 * w -> 0 <= src_hi bt n w i < n + 2 * w.
Proof. unfold src_hi. intros. destruct (bt =? BC_DIRICHLET); [lia|]. destruct (bt =? BC_NEUMANN); lia. Qed.

Lemma assign_safe (P : loc -> Prop) a nb dst src (sg : Z -> T) :
  (forall v, 0 <= v < nb -> P (at_cell a dst v)) -> (forall v, 0 <= v < nb -> P (at_cell a src v)) ->
  accesses_in P (assign_cell a nb dst src sg).
Proof.
  intros Hd Hs. destruct (assign_cell_fp a nb dst src sg) as (H1 & H2 & H3). repeat split.
  - eapply reads_in_mono; [|exact H2]. intros l (v & Hv & ->). auto.
  - eapply writes_in_mono; [|exact H3]. intros l (v & Hv & ->). auto.
  - eapply rmws_in_mono; [|exact H1]. intros l [].
Qed.

Lemma fill2_safe mhd g a ps p : 0 < gw g -> 0 <= nx g -> 0 <= ny g ->
  In ps (make_boundaries_serial2d mhd g a) -> In p ps -> accesses_in (T:=T) (alloc2d g a) p.
Proof.
  intros Hw Hx Hy Hps Hp. unfold make_boundaries_serial2d in Hps. apply in_map_iff in Hps.
  destruct Hps as (f & <- & Hf). unfold make_boundary2d, parallel_for in Hp. apply in_map_iff in Hp.
  destruct Hp as (index & <- & Hi). apply In_zrange in Hi.
  destruct (cases2 mhd g f a index) as [([[i j] k] & Hc & He & ->)| ->]; try lia.
  2: { repeat split; exact I. }
  apply assign_safe; intros v Hv; unfold slab2 in Hc; destruct Hc as [-> Hc];
    cbn [at_cell src_f]; destruct f; try contradiction; cbn [at_cell]; unfold alloc2d; cbn [la li lj lk lv];
    repeat match goal with
    | |- context [src_lo ?b ?n ?w ?x] => pose proof (src_lo_in b n w x Hw); generalize dependent (src_lo b n w x); intros
    | |- context [src_hi ?b ?n ?w ?x] => pose proof (src_hi_in b n w x Hw); generalize dependent (src_hi b n w x); intros
    end; lia.
Qed.

Lemma fill3_safe mhd g a ps p : 0 < gw g -> 0 <= nx g -> 0 <= ny g -> 0 <= nz g ->
  In ps (make_boundaries_serial3d mhd g a) -> In p ps -> accesses_in (T:=T) (alloc3d g a) p.
Proof.
  intros Hw Hx Hy Hz Hps Hp. unfold make_boundaries_serial3d in Hps. apply in_map_iff in Hps.
  destruct Hps as (f & <- & Hf). unfold make_boundary3d, parallel_for in Hp. apply in_map_iff in Hp.
  destruct Hp as (index & <- & Hi). apply In_zrange in Hi.
  destruct (cases3 mhd g f a index) as [([[i j] k] & Hc & He & ->)| ->]; try lia.
  2: { repeat split; exact I. }
  apply assign_safe; intros v Hv; unfold slab3 in Hc;
    cbn [at_cell src_f]; destruct f; cbn [at_cell]; unfold alloc3d; cbn [la li lj lk lv];
    repeat match goal with
    | |- context [src_lo ?b ?n ?w ?x] => pose proof (src_lo_in b n w x Hw); generalize dependent (src_lo b n w x); intros
    | |- context [src_hi ?b ?n ?w ?x] => pose proof (src_hi_in b n w x Hw); generalize dependent (src_hi b n w x); intros
    end; lia.
Qed.

(** ** Idempotence and interior *)
Lemma filled2d_interior mhd g (u : Z -> Z -> Z -> T) i j v :
  gw g <= i < gw g + nx g -> gw g <= j < gw g + ny g -> filled2d mhd g u i j v = u i j v.
Proof.
  intros Hi Hj. unfold filled2d. rewrite !along_int, !image_id by lia. f_equal; lia.
Qed.
Lemma filled3d_interior mhd g (u : Z -> Z -> Z -> Z -> T) i j k v :
  gw g <= i < gw g + nx g -> gw g <= j < gw g + ny g -> gw g <= k < gw g + nz g ->
  filled3d mhd g u i j k v = u i j k v.
Proof.
  intros Hi Hj Hk. unfold filled3d. rewrite !along_int, !image_id by lia. f_equal; lia.
Qed.

Lemma alloc2d_dec g a l : alloc2d g a l \/ ~ alloc2d g a l.
Proof. unfold alloc2d. lia. Qed.
Lemma alloc3d_dec g a l : alloc3d g a l \/ ~ alloc3d g a l.
Proof. unfold alloc3d. lia. Qed.

Lemma fill2_idem mhd g a s s1 s2 : grid_ok2d g ->
  run_kernels (make_boundaries_serial2d mhd g a) s s1 ->
  run_kernels (make_boundaries_serial2d mhd g a) s1 s2 -> seq s2 s1.
Proof.
  intros Hg H1 H2. apply fill2_spec in H1; auto. apply fill2_spec in H2; auto.
  destruct H1 as [A1 F1], H2 as [A2 F2]. intros l. destruct (alloc2d_dec g a l) as [Hl|Hl].
  - destruct l as [a' i j k v]. unfold alloc2d in Hl. cbn [la li lj lk lv] in Hl.
    destruct Hl as (-> & Hi & Hj & -> & Hv). rewrite A2, A1 by auto.
    destruct Hg as (Hw & Hx & Hy & _). unfold filled2d.
    assert (0 <= image (ky0 g) (ky1 g) (ny g) (j - gw g) < ny g) by (apply (image_interior _ _ _ (gw g)); lia).
    assert (0 <= image (kx0 g) (kx1 g) (nx g) (i - gw g) < nx g) by (apply (image_interior _ _ _ (gw g)); lia).
    rewrite A1 by lia. rewrite filled2d_interior by lia. reflexivity.
  - rewrite F2; auto.
Qed.

Lemma fill3_idem mhd g a s s1 s2 : grid_ok3d g ->
  run_kernels (make_boundaries_serial3d mhd g a) s s1 ->
  run_kernels (make_boundaries_serial3d mhd g a) s1 s2 -> seq s2 s1.
Proof.
  intros Hg H1 H2. apply fill3_spec in H1; auto. apply fill3_spec in H2; auto.
  destruct H1 as [A1 F1], H2 as [A2 F2]. intros l. destruct (alloc3d_dec g a l) as [Hl|Hl].
  - destruct l as [a' i j k v]. unfold alloc3d in Hl. cbn [la li lj lk lv] in Hl.
    destruct Hl as (-> & Hi & Hj & Hk & Hv). rewrite A2, A1 by auto.
    destruct Hg as ((Hw & Hx & Hy & _) & Hz). unfold filled3d.
    assert (0 <= image (kz0 g) (kz1 g) (nz g) (k - gw g) < nz g) by (apply (image_interior _ _ _ (gw g)); lia).
    assert (0 <= image (ky0 g) (ky1 g) (ny g) (j - gw g) < ny g) by (apply (image_interior _ _ _ (gw g)); lia).
    assert (0 <= image (kx0 g) (kx1 g) (nx g) (i - gw g) < nx g) by (apply (image_interior _ _ _ (gw g)); lia).
    rewrite A1 by lia. rewrite filled3d_interior by lia. reflexivity.
  - rewrite F2; auto.
Qed.

End Fill.
