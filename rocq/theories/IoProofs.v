(** Files give back what was written. *)
From Coq Require Import ZArith List Bool String Permutation Lia.
From Verif Require Import Arith Par ParProofs GridModel MpiModel IoModel IoSpec.
Import ListNotations.
Open Scope Z_scope.

(** ** Assignments *)
Section Assign.
Context {T : Type}.
Implicit Types (m : buf T) (l : list (Z * T)).

Lemma assign_cons m p l : assign m (p :: l) = assign (bupd m (fst p) (snd p)) l.
Proof. reflexivity. Qed.

Lemma assign_app m l1 l2 : assign m (l1 ++ l2) = assign (assign m l1) l2.
Proof. unfold assign. apply fold_left_app. Qed.

Lemma assign_out m l a : ~ In a (map fst l) -> assign m l a = m a.
Proof.
  revert m. induction l as [|p l IH]; intros m H; [reflexivity|].
  rewrite assign_cons, IH by (intro; apply H; right; auto).
  unfold bupd. destruct (Z.eqb_spec a (fst p)); auto. exfalso. apply H. left. auto.
Qed.

Lemma assign_in m l a x : (forall p, In p l -> fst p = a -> snd p = x) -> In a (map fst l) -> assign m l a = x.
Proof.
  revert m. induction l as [|p l IH]; intros m H Hin; [destruct Hin|].
  rewrite assign_cons. destruct (in_dec Z.eq_dec a (map fst l)) as [Hl|Hl].
  - apply IH; auto. intros q Hq. apply H. right; auto.
  - rewrite assign_out by auto. destruct Hin as [Hp|]; [|contradiction].
    unfold bupd. rewrite (proj2 (Z.eqb_eq a (fst p))) by auto. apply H; [left|]; auto.
Qed.
End Assign.

(** ** Boxes and offsets *)
Definition box (ns : list Z) : list (list Z) := points (map (fun n => (0, 1, n, 1)) ns).

Definition inbox : list Z -> list Z -> Prop := Forall2 (fun n x => 0 <= x < n).

Lemma range_count s n : slab_range (s, 1, n, 1) = map (Z.add s) (zrange 0 n).
Proof.
  unfold slab_range. change (zrange 0 1) with [0]. cbn [map]. induction (zrange 0 n) as [|a l IH]; [reflexivity|].
  cbn [flat_map]. rewrite IH. cbn [app map]. f_equal. lia.
Qed.
Lemma range_block s n : slab_range (s, 1, 1, n) = map (Z.add s) (zrange 0 n).
Proof.
  unfold slab_range. change (zrange 0 1) with [0]. cbn [flat_map]. rewrite app_nil_r.
  apply map_ext. intros; lia.
Qed.

Lemma In_box ns q : In q (box ns) <-> inbox ns q.
Proof.
  unfold box. revert q. induction ns as [|n ns IH]; intros q; cbn [map points].
  - split; [intros [<-|[]]; constructor | intros H; inversion H; left; auto].
  - rewrite range_count, in_flat_map. split.
    + intros (x & Hx & Hq). apply in_map_iff in Hx as (y & <- & Hy). apply In_zrange in Hy.
      apply in_map_iff in Hq as (r & <- & Hr). constructor; [lia|]. apply IH; auto.
    + intros H. inversion H as [|n' x ns' r Hx Hr]; subst. exists x. split.
      * apply in_map_iff. exists x. split; [lia|]. apply In_zrange; lia.
      * apply in_map_iff. exists r. split; auto. apply IH; auto.
Qed.

Definition vadd (s q : list Z) : list Z := map (fun p => fst p + snd p) (combine s q).

Lemma flat_map_map' {A B C} (f : A -> B) (h : B -> list C) l : flat_map h (map f l) = flat_map (fun x => h (f x)) l.
Proof. induction l; cbn; congruence. Qed.

Lemma points_box (mk : Z -> Z -> Z * Z * Z * Z) (Hmk : forall s n, slab_range (mk s n) = map (Z.add s) (zrange 0 n)) ss ns :
  List.length ss = List.length ns ->
  points (map (fun p => mk (fst p) (snd p)) (combine ss ns)) = map (vadd ss) (box ns).
Proof.
  unfold box. revert ss. induction ns as [|n ns IH]; intros [|s ss] H; try discriminate H; [reflexivity|].
  cbn [combine map points fst snd]. injection H as H. rewrite (IH ss H), Hmk, range_count.
  rewrite !flat_map_map'. generalize (zrange 0 n); intros l. induction l as [|x l IHl]; [reflexivity|].
  cbn [flat_map]. rewrite IHl, map_app. f_equal. rewrite !map_map. apply map_ext. intros q. unfold vadd. cbn. f_equal.
Qed.

Lemma combine_map' {A B C} (f : A -> B) (h : A -> C) l : combine (map f l) (map h l) = map (fun x => (f x, h x)) l.
Proof. induction l; cbn; congruence. Qed.

Lemma product_pos ns : Forall (fun n => 0 < n) ns -> 0 < product ns.
Proof. induction 1; cbn; nia. Qed.

Lemma inbox_pos ns q : inbox ns q -> Forall (fun n => 0 < n) ns.
Proof. induction 1; constructor; auto; lia. Qed.

Lemma offset_range ns q : inbox ns q -> 0 <= offset ns q < product ns.
Proof.
  induction 1 as [|n x ns q Hx Hq IH]; cbn; [lia|].
  nia.
Qed.

Lemma offset_inj ns p q : inbox ns p -> inbox ns q -> offset ns p = offset ns q -> p = q.
Proof.
  intros Hp. revert q. induction Hp as [|n x ns p Hx Hp IH]; intros q Hq; inversion Hq as [|n' y ns' q' Hy Hq']; subst; auto.
  cbn. intros E. pose proof (offset_range _ _ Hp). pose proof (offset_range _ _ Hq').
  assert (x = y) by nia. subst y. f_equal. apply IH; auto. lia.
Qed.

(** ** Transfers *)
Lemma box_length ns : List.length (box ns) = List.length (box ns). Proof. reflexivity. Qed.

Lemma pairs_box {T} (ds : dataset T) mdims ms fdims fs ns msl fsl :
  points msl = map (vadd ms) (box ns) -> points fsl = map (vadd fs) (box ns) ->
  fits mdims msl = true -> fits fdims fsl = true -> ds_dims ds = fdims ->
  pairs ds (Space mdims msl) (Space fdims fsl) =
    Some (map (fun q => (offset mdims (vadd ms q), offset fdims (vadd fs q))) (box ns)).
Proof.
  intros E1 E2 F1 F2 D. unfold pairs. cbn [sp_dims sp_sel]. rewrite F1, F2, E1, E2, !map_length.
  destruct (list_eq_dec Z.eq_dec fdims (ds_dims ds)) as [_|N]; [|congruence].
  rewrite Nat.eqb_refl. cbn [andb]. rewrite !map_map, combine_map'. reflexivity.
Qed.

(** ** Fields *)
Lemma fields_range b3 mhd g v : io_grid b3 mhd g -> In v (fields b3 mhd) <-> 0 <= v < nbvar g.
Proof.
  intros (_ & _ & _ & _ & ->). unfold fields, ID, IE, IU, IV, IW, IA, IB, IC.
  destruct b3, mhd; cbn; lia.
Qed.
Lemma fields_NoDup b3 mhd : NoDup (fields b3 mhd).
Proof. destruct b3, mhd; cbn; repeat (constructor; [cbn; unfold ID, IE, IU, IV, IW, IA, IB, IC; lia|]); constructor. Qed.

Lemma name_inj b3 mhd v w : In v (fields b3 mhd) -> In w (fields b3 mhd) -> variables_names v = variables_names w -> v = w.
Proof.
  assert (F : forall x, In x (fields b3 mhd) -> x = 0 \/ x = 1 \/ x = 2 \/ x = 3 \/ x = 4 \/ x = 5 \/ x = 6 \/ x = 7)
    by (intros x; destruct b3, mhd; cbn; unfold ID, IE, IU, IV, IW, IA, IB, IC; lia).
  intros Hv Hw. destruct (F v Hv) as [->|[->|[->|[->|[->|[->|[->| ->]]]]]]];
  destruct (F w Hw) as [->|[->|[->|[->|[->|[->|[->| ->]]]]]]]; cbn; congruence.
Qed.

Lemma find_set_nth {T} (l : list (string * dataset T)) (vs : list Z) (nm : Z -> string) n v nd :
  map fst l = map nm vs -> (forall w, In w vs -> nm w = nm v -> w = v) -> NoDup vs ->
  nth_error vs n = Some v -> nth_error l n = Some nd -> find_set l (nm v) = Some (snd nd).
Proof.
  revert l n. induction vs as [|w vs IH]; intros [|[s d] l] n E Hinj Hnd Hv Hl;
    try (destruct n; discriminate Hv); try discriminate E.
  cbn in E. injection E as E1 E2. cbn [find_set]. destruct n as [|n].
  - cbn in Hv, Hl. injection Hv as ->. injection Hl as <-. subst s. rewrite String.eqb_refl. reflexivity.
  - cbn in Hv, Hl. inversion Hnd as [|? ? N1 N2]; subst. destruct (String.eqb_spec (nm w) (nm v)) as [Ew|Ew].
    + exfalso. apply N1. rewrite (Hinj w (or_introl eq_refl) Ew). eapply nth_error_In; eauto.
    + eapply IH; eauto. intros x Hx. apply Hinj. right; auto.
Qed.

Section Io.
Context {TT T : Type} {AT : Arith T}.
Variable b3 mhd : bool.
Variable c : ioconf.

Definition cell_index (g : grid) (i j k : Z) : Z := i + isize g * j + isize g * jsize g * k.

Lemma In_host_cells g i j k : In (i, j, k) (host_cells b3 g) <-> in_array b3 g i j k.
Proof.
  unfold host_cells, in_array. rewrite in_flat_map. split.
  - intros (k' & Hk & H). apply in_flat_map in H as (j' & Hj & H). apply in_map_iff in H as (i' & E & Hi).
    injection E as -> -> ->. apply In_zrange in Hi, Hj, Hk. destruct b3; lia.
  - intros (Hi & Hj & Hk). exists k. split; [apply In_zrange; destruct b3; lia|].
    apply in_flat_map. exists j. split; [apply In_zrange; lia|]. apply in_map_iff. exists i. split; auto. apply In_zrange; lia.
Qed.

Lemma cell_index_inj g i j k i' j' k' : in_array b3 g i j k -> in_array b3 g i' j' k' ->
  cell_index g i j k = cell_index g i' j' k' -> i = i' /\ j = j' /\ k = k'.
Proof.
  unfold in_array, cell_index. intros (Hi & Hj & Hk) (Hi' & Hj' & Hk') E.
  assert (G : offset [if b3 then ksize g else 1; jsize g; isize g] [k; j; i] = offset [if b3 then ksize g else 1; jsize g; isize g] [k'; j'; i']).
  { cbn [offset product]. lia. }
  apply offset_inj in G.
  - injection G as -> -> ->. auto.
  - repeat constructor; try lia; destruct b3; lia.
  - repeat constructor; try lia; destruct b3; lia.
Qed.

Lemma cell_index_range g i j k : in_array b3 g i j k -> 0 <= cell_index g i j k < vsize b3 g.
Proof.
  unfold in_array, cell_index, vsize. intros (Hi & Hj & Hk).
  pose proof (offset_range [if b3 then ksize g else 1; jsize g; isize g] [k; j; i]) as R.
  cbn [offset product] in R.
  assert (inbox [if b3 then ksize g else 1; jsize g; isize g] [k; j; i]) as B
    by (repeat constructor; try lia; destruct b3; lia).
  specialize (R B). lia.
Qed.

Lemma voff_left g i j k v : in_array b3 g i j k -> voff b3 LayoutLeft g i j k v = vsize b3 g * v + cell_index g i j k.
Proof. unfold in_array, voff, vsize, cell_index. intros (_ & _ & Hk). destruct b3; [ring|subst k; ring]. Qed.

Lemma voff_inj ly g i j k v i' j' k' v' : in_array b3 g i j k -> in_array b3 g i' j' k' ->
  0 <= v < nbvar g -> 0 <= v' < nbvar g ->
  voff b3 ly g i j k v = voff b3 ly g i' j' k' v' -> i = i' /\ j = j' /\ k = k' /\ v = v'.
Proof.
  intros H H' Hv Hv'. destruct ly.
  - rewrite !voff_left by auto. pose proof (cell_index_range g i j k H). pose proof (cell_index_range g i' j' k' H').
    intros E. assert (v = v') by nia. subst v'. destruct (cell_index_inj g i j k i' j' k' H H'); [lia|]. tauto.
  - destruct H as (Hi & Hj & Hk), H' as (Hi' & Hj' & Hk'). unfold voff. intros E.
    assert (G : offset [isize g; jsize g; if b3 then ksize g else 1; nbvar g] [i; j; k; v]
              = offset [isize g; jsize g; if b3 then ksize g else 1; nbvar g] [i'; j'; k'; v']).
    { cbn [offset product]. destruct b3; [lia|]. subst k k'. lia. }
    apply offset_inj in G.
    + injection G as -> -> -> ->. auto.
    + repeat constructor; try lia; destruct b3; lia.
    + repeat constructor; try lia; destruct b3; lia.
Qed.

Lemma copy_out_spec ly g (m d : buf T) v i j k : in_array b3 g i j k ->
  copy_out b3 ly g m d v (cell_index g i j k) = elem b3 ly g m i j k v.
Proof.
  intros H. unfold copy_out, elem. destruct ly.
  - rewrite voff_left by auto. reflexivity.
  - apply assign_in.
    + intros p Hp E. apply in_map_iff in Hp as (((i' & j') & k') & <- & Hq). cbn [fst snd] in *.
      apply In_host_cells in Hq. destruct (cell_index_inj g i' j' k' i j k Hq H E) as (-> & -> & ->). reflexivity.
    + rewrite map_map. apply in_map_iff. exists (i, j, k). split; [reflexivity|]. apply In_host_cells; auto.
Qed.

(** What reading variable [v] stores at (i,j,k), given the buffer. *)
Definition stored (g : grid) (d : buf T) (i j k v : Z) : T :=
  if halfResolution c then upscaled b3 g d i j k v else d (cell_index g i j k).

Lemma copy_in_spec ly g (d m : buf T) v w i j k : in_array b3 g i j k -> 0 <= v < nbvar g -> 0 <= w < nbvar g ->
  elem b3 ly g (copy_in b3 c ly g d m v) i j k w = if w =? v then stored g d i j k v else elem b3 ly g m i j k w.
Proof.
  intros H Hv Hw. unfold copy_in, elem, stored.
  assert (LOOP : forall val : Z -> Z -> Z -> T,
    assign m (map (fun q => let '(i, j, k) := q in (voff b3 ly g i j k v, val i j k)) (host_cells b3 g)) (voff b3 ly g i j k w)
    = if w =? v then val i j k else m (voff b3 ly g i j k w)).
  { intros val. destruct (Z.eqb_spec w v) as [->|N].
    - apply assign_in.
      + intros p Hp E. apply in_map_iff in Hp as (((i' & j') & k') & <- & Hq). cbn [fst snd] in *.
        apply In_host_cells in Hq. destruct (voff_inj ly g i' j' k' v i j k v Hq H Hv Hv E) as (-> & -> & -> & _). reflexivity.
      + rewrite map_map. apply in_map_iff. exists (i, j, k). split; [reflexivity|]. apply In_host_cells; auto.
    - apply assign_out. rewrite map_map. intros Hin. apply in_map_iff in Hin as (((i' & j') & k') & E & Hq).
      cbn [fst] in E. apply In_host_cells in Hq. destruct (voff_inj ly g i' j' k' v i j k w Hq H Hv Hw E) as (_ & _ & _ & E'). congruence. }
  destruct (halfResolution c); [apply (LOOP (fun i j k => upscaled b3 g d i j k v))|].
  destruct ly; [|apply (LOOP (fun i j k => d (cell_index g i j k)))].
  rewrite voff_left by auto. pose proof (cell_index_range g i j k H). destruct (Z.eqb_spec w v) as [->|N].
  - apply assign_in.
    + intros p Hp E. apply in_map_iff in Hp as (n & <- & Hn). cbn [fst snd] in *. f_equal. lia.
    + rewrite map_map. apply in_map_iff. exists (cell_index g i j k). split; [reflexivity|]. apply In_zrange; lia.
  - apply assign_out. rewrite map_map. intros Hin. apply in_map_iff in Hin as (n & E & Hn). cbn [fst] in E.
    apply In_zrange in Hn. apply N. nia.
Qed.

(** Reading the fields one after the other. *)
Lemma fold_read ly g (f : h5file TT T) memory file vs (P : Z -> Z -> Z -> Prop) (val : Z -> Z -> Z -> Z -> T) :
  (forall v, In v vs -> 0 <= v < nbvar g) -> (forall i j k, P i j k -> in_array b3 g i j k) -> NoDup vs ->
  (forall v d i j k, In v vs -> P i j k ->
     stored g (match find_set (h_sets f) (variables_names v) with Some ds => H5Dread ds memory file d | None => d end) i j k v = val i j k v) ->
  forall dm i j k v, P i j k -> In v vs ->
    elem b3 ly g (snd (fold_left (read_field b3 c ly g f memory file) vs dm)) i j k v = val i j k v.
Proof.
  intros Hr HP. induction vs as [|w vs IH] using rev_ind; intros Hnd Hval dm i j k v Hp Hv; [destruct Hv|].
  rewrite fold_left_app. cbn [fold_left]. unfold read_field at 1. cbn [snd].
  assert (Hw : In w (vs ++ [w])) by (apply in_or_app; right; left; auto).
  rewrite copy_in_spec by auto. destruct (Z.eqb_spec v w) as [->|N].
  - apply Hval; auto.
  - apply IH; auto.
    + intros; apply Hr; apply in_or_app; auto.
    + apply NoDup_remove_1 in Hnd. rewrite app_nil_r in Hnd; auto.
    + intros; apply Hval; auto. apply in_or_app; auto.
    + apply in_app_or in Hv as [|[|[]]]; auto; congruence.
Qed.

Lemma buffers_nth ly g (m d : buf T) vs n v : nth_error vs n = Some v ->
  exists d0, nth_error (buffers b3 ly g m d vs) n = Some (v, copy_out b3 ly g m d0 v).
Proof.
  revert d n. induction vs as [|w vs IH]; intros d [|n] H; try discriminate H.
  - injection H as ->. exists d. reflexivity.
  - apply IH. exact H.
Qed.
Lemma buffers_fst ly g (m d : buf T) vs : map fst (buffers b3 ly g m d vs) = vs.
Proof. revert d. induction vs as [|w vs IH]; intros d; cbn; [|rewrite IH]; reflexivity. Qed.
End Io.
