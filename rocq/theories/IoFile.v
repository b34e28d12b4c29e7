(** Saving and loading: what a file holds, and what is read from it. *)
From Coq Require Import ZArith List Bool String Permutation Lia.
From Verif Require Import Arith Par ParProofs GridModel MpiModel MpiTopo IoModel IoSpec IoProofs.
Import ListNotations.
Open Scope Z_scope.

Section Points.
Variable b3 : bool.

Definition in3 (NX NY NZ i j k : Z) : Prop := 0 <= i < NX /\ 0 <= j < NY /\ (if b3 then 0 <= k < NZ else k = 0).

Lemma vadd_dims a b d k j i : vadd (dims_of b3 a b d) (dims_of b3 k j i) = dims_of b3 (a + k) (b + j) (d + i).
Proof. destruct b3; reflexivity. Qed.

Lemma inbox_dims NX NY NZ i j k : in3 NX NY NZ i j k -> inbox (dims_of b3 NZ NY NX) (dims_of b3 k j i).
Proof. unfold in3. intros (? & ? & ?). destruct b3; repeat constructor; lia. Qed.

Lemma inbox_dims_inv NX NY NZ q : inbox (dims_of b3 NZ NY NX) q ->
  exists i j k, q = dims_of b3 k j i /\ in3 NX NY NZ i j k.
Proof.
  unfold in3. destruct b3; cbn; intros H.
  - inversion H as [|? k ? ? ? P1]; subst. inversion P1 as [|? j ? ? ? P2]; subst. inversion P2 as [|? i ? ? ? P3]; subst.
    inversion P3; subst. exists i, j, k. auto.
  - inversion H as [|? j ? ? ? P2]; subst. inversion P2 as [|? i ? ? ? P3]; subst. inversion P3; subst.
    exists i, j, 0. auto.
Qed.

Definition kz (k : Z) : Z := if b3 then k else 0.
Lemma offset_dims NX NY NZ i j k : offset (dims_of b3 NZ NY NX) (dims_of b3 k j i) = i + NX * (j + NY * kz k).
Proof. unfold kz. destruct b3; cbn [dims_of offset product]; ring. Qed.
Lemma offset_cell g i j k : offset (dims_of b3 (ksize g) (jsize g) (isize g)) (dims_of b3 k j i) = cell_index g i j (kz k).
Proof. rewrite offset_dims. unfold cell_index. ring. Qed.
Lemma dims_inj (NX NY NZ i j k i' j' k' : Z) : in3 NX NY NZ i j k -> in3 NX NY NZ i' j' k' ->
  dims_of b3 k j i = dims_of b3 k' j' i' -> i = i' /\ j = j' /\ k = k'.
Proof. unfold in3. intros (_ & _ & H) (_ & _ & H') E. destruct b3; cbn in E; injection E; intros; subst; auto. Qed.

(** The slabs of the code: count [n] of blocks of 1, or one block of [n]. *)
Lemma slab_count a b d z y x : points (dims_of b3 (a, 1, z, 1) (b, 1, y, 1) (d, 1, x, 1)) = map (vadd (dims_of b3 a b d)) (box (dims_of b3 z y x)).
Proof.
  rewrite <- (points_box (fun s n => (s, 1, n, 1)) range_count) by (destruct b3; reflexivity). destruct b3; reflexivity.
Qed.
Lemma slab_block a b d z y x : points (dims_of b3 (a, 1, 1, z) (b, 1, 1, y) (d, 1, 1, x)) = map (vadd (dims_of b3 a b d)) (box (dims_of b3 z y x)).
Proof.
  rewrite <- (points_box (fun s n => (s, 1, 1, n)) range_block) by (destruct b3; reflexivity). destruct b3; reflexivity.
Qed.
Lemma slab_whole z y x : points (map (fun n => (0, 1, n, 1)) (dims_of b3 z y x)) = map (vadd (dims_of b3 0 0 0)) (box (dims_of b3 z y x)).
Proof. rewrite <- slab_count. destruct b3; reflexivity. Qed.

Lemma fits_count NZ NY NX a b d z y x :
  (b3 = true -> 0 <= a /\ 1 <= z /\ a + z <= NZ) -> 0 <= b -> 1 <= y -> b + y <= NY -> 0 <= d -> 1 <= x -> d + x <= NX ->
  fits (dims_of b3 NZ NY NX) (dims_of b3 (a, 1, z, 1) (b, 1, y, 1) (d, 1, x, 1)) = true.
Proof. intros. destruct b3; cbn [dims_of fits]; rewrite ?andb_true_iff, ?Z.leb_le; intuition lia. Qed.
Lemma fits_block NZ NY NX a b d z y x :
  (b3 = true -> 0 <= a /\ 1 <= z /\ a + z <= NZ) -> 0 <= b -> 1 <= y -> b + y <= NY -> 0 <= d -> 1 <= x -> d + x <= NX ->
  fits (dims_of b3 NZ NY NX) (dims_of b3 (a, 1, 1, z) (b, 1, 1, y) (d, 1, 1, x)) = true.
Proof. intros. destruct b3; cbn [dims_of fits]; rewrite ?andb_true_iff, ?Z.leb_le; intuition lia. Qed.
Lemma fits_whole NZ NY NX : (b3 = true -> 1 <= NZ) -> 1 <= NY -> 1 <= NX ->
  fits (dims_of b3 NZ NY NX) (map (fun n => (0, 1, n, 1)) (dims_of b3 NZ NY NX)) = true.
Proof. intros. destruct b3; cbn [dims_of map fits]; rewrite ?andb_true_iff, ?Z.leb_le; intuition lia. Qed.
End Points.

(** ** Writing *)
Section Write.
Context {T : Type}.

(** All processes together write [H]. *)
Lemma collective_holds (fill : T) (FD : list Z) (np : nat) (lists : nat -> list (Z * T)) (H : list Z -> T) ds' :
  (forall r p, (r < np)%nat -> In p (lists r) -> exists q, inbox FD q /\ p = (offset FD q, H q)) ->
  (forall q, inbox FD q -> exists r, (r < np)%nat /\ In (offset FD q, H q) (lists r)) ->
  collective (DS FD (fun _ => fill)) (map lists (List.seq 0 np)) ds' ->
  ds_dims ds' = FD /\ forall q, inbox FD q -> ds_val ds' (offset FD q) = H q.
Proof.
  intros Hw Hc (l & Hp & ->). cbn. split; auto. intros q Hq. apply assign_in.
  - intros p Hl E. apply (Permutation_in p Hp) in Hl. apply in_concat in Hl as (x & Hx & Hpx).
    apply in_map_iff in Hx as (r & <- & Hr). apply in_seq in Hr. destruct (Hw r p ltac:(lia) Hpx) as (q' & Hq' & ->).
    cbn [fst snd] in *. f_equal. eapply offset_inj; eauto.
  - destruct (Hc q Hq) as (r & Hr & Hin). apply in_map_iff. exists (offset FD q, H q). split; auto.
    apply (Permutation_in _ (Permutation_sym Hp)). apply in_concat. exists (lists r). split; auto.
    apply in_map. apply in_seq. lia.
Qed.

Lemma write_list_box (ds : dataset T) mdims ms fdims fs ns msl fsl data p :
  points msl = map (vadd ms) (box ns) -> points fsl = map (vadd fs) (box ns) ->
  fits mdims msl = true -> fits fdims fsl = true -> ds_dims ds = fdims ->
  In p (write_list ds (Space mdims msl) (Space fdims fsl) data) <->
  exists q, inbox ns q /\ p = (offset fdims (vadd fs q), data (offset mdims (vadd ms q))).
Proof.
  intros. unfold write_list. erewrite pairs_box by eauto. rewrite map_map, in_map_iff. cbn [fst snd]. split.
  - intros (q & <- & Hq). exists q. split; auto. apply In_box; auto.
  - intros (q & Hq & ->). exists q. split; auto. apply In_box; auto.
Qed.

Lemma read_box (ds : dataset T) mdims ms fdims fs ns msl fsl data q :
  points msl = map (vadd ms) (box ns) -> points fsl = map (vadd fs) (box ns) ->
  fits mdims msl = true -> fits fdims fsl = true -> ds_dims ds = fdims ->
  (forall q, inbox ns q -> inbox mdims (vadd ms q)) ->
  (forall q q', inbox ns q -> inbox ns q' -> vadd ms q = vadd ms q' -> q = q') ->
  inbox ns q ->
  H5Dread ds (Space mdims msl) (Space fdims fsl) data (offset mdims (vadd ms q)) = ds_val ds (offset fdims (vadd fs q)).
Proof.
  intros E1 E2 F1 F2 D Hm Hinj Hq. unfold H5Dread. erewrite pairs_box by eauto. rewrite map_map. cbn [fst snd]. apply assign_in.
  - intros p Hp E. apply in_map_iff in Hp as (q' & <- & Hq'). cbn [fst snd] in *. apply In_box in Hq'.
    apply offset_inj in E; auto. apply Hinj in E; auto. subst. reflexivity.
  - rewrite map_map. apply in_map_iff. exists q. split; [reflexivity|]. apply In_box; auto.
Qed.

Lemma read_keeps (ds : dataset T) mdims ms fdims fs ns msl fsl data q :
  points msl = map (vadd ms) (box ns) -> points fsl = map (vadd fs) (box ns) ->
  fits mdims msl = true -> fits fdims fsl = true -> ds_dims ds = fdims ->
  (forall q, inbox ns q -> inbox mdims (vadd ms q)) ->
  inbox mdims q -> (forall q', inbox ns q' -> vadd ms q' <> q) ->
  H5Dread ds (Space mdims msl) (Space fdims fsl) data (offset mdims q) = data (offset mdims q).
Proof.
  intros E1 E2 F1 F2 D Hm Hq Hout. unfold H5Dread. erewrite pairs_box by eauto. rewrite map_map. cbn [fst snd]. apply assign_out.
  rewrite map_map. intros Hin. apply in_map_iff in Hin as (q' & E & Hq'). cbn [fst] in E. apply In_box in Hq'.
  apply offset_inj in E; auto. eapply Hout; eauto.
Qed.
End Write.

Section Files.
Context {TT T : Type} {AT : Arith T}.
Variable b3 mhd : bool.

Lemma in_array_k g i j k : in_array b3 g i j k -> b3 = false -> k = 0.
Proof. unfold in_array. intros (_ & _ & H) ->. auto. Qed.

(** First index written, and extents of the file, of a serial run. *)
Definition first_ (c : ioconf) (g : grid) : Z := if ghostIncluded c then 0 else gw g.
Definition first_z (c : ioconf) (g : grid) : Z := if b3 then first_ c g else 0.
Definition extent (c : ioconf) (g : grid) (n : Z) : Z := if ghostIncluded c then n + 2 * gw g else n.

Lemma Hsize g : isize g = nx g + 2 * gw g /\ jsize g = ny g + 2 * gw g /\ ksize g = nz g + 2 * gw g.
Proof. unfold isize, imax, imin, jsize, jmax, jmin, ksize, kmax, kmin. lia. Qed.

Lemma save_memory_slab c g : save_memory b3 c g =
  Space (dims_of b3 (ksize g) (jsize g) (isize g))
        (dims_of b3 (first_ c g, 1, extent c g (nz g), 1) (first_ c g, 1, extent c g (ny g), 1) (first_ c g, 1, extent c g (nx g), 1)).
Proof. unfold save_memory, first_, extent. destruct (ghostIncluded c); reflexivity. Qed.
Lemma save_file_slab c g : save_file b3 c g = whole (dims_of b3 (extent c g (nz g)) (extent c g (ny g)) (extent c g (nx g))).
Proof. unfold save_file, extent. destruct (ghostIncluded c); reflexivity. Qed.

Lemma vadd0 k j i : vadd (dims_of b3 0 0 0) (dims_of b3 k j i) = dims_of b3 k j i.
Proof. rewrite vadd_dims. reflexivity. Qed.

(** From a list of datasets, one per field, to [file_holds]. *)
Lemma holds_nth NX NY NZ G (f : h5file TT T) :
  map fst (h_sets f) = map variables_names (fields b3 mhd) ->
  (forall n v nd, nth_error (fields b3 mhd) n = Some v -> nth_error (h_sets f) n = Some nd ->
     ds_dims (snd nd) = dims_of b3 NZ NY NX /\
     forall i j k, in3 b3 NX NY NZ i j k -> ds_val (snd nd) (offset (dims_of b3 NZ NY NX) (dims_of b3 k j i)) = G i j k v) ->
  file_holds b3 mhd NX NY NZ G f.
Proof.
  intros Hn Hd v Hv. apply In_nth_error in Hv as (n & Hn').
  assert (L : List.length (h_sets f) = List.length (fields b3 mhd)) by (rewrite <- (map_length fst), Hn, map_length; reflexivity).
  destruct (nth_error (h_sets f) n) as [nd|] eqn:E.
  2:{ apply nth_error_None in E. assert (n < List.length (fields b3 mhd))%nat by (apply nth_error_Some; congruence). lia. }
  destruct (Hd n v nd Hn' E) as (D1 & D2). exists (snd nd). split; [|split].
  - eapply find_set_nth; eauto.
    + intros w Hw. apply (name_inj b3 mhd); auto. eapply nth_error_In; eauto.
    + apply fields_NoDup.
  - rewrite D1. destruct b3; reflexivity.
  - intros i j k Hi Hj Hk. rewrite <- D2 by (repeat split; auto; lia). f_equal. rewrite offset_dims. unfold kz.
    destruct b3; [reflexivity|]. subst k. reflexivity.
Qed.

Lemma save_holds c ly g fill (m junk : buf T) iStep (totalTime : TT) :
  io_grid b3 mhd g ->
  file_holds b3 mhd (extent c g (nx g)) (extent c g (ny g)) (extent c g (nz g))
    (fun i j k v => elem b3 ly g m (first_ c g + i) (first_ c g + j) (first_z c g + k) v)
    (save b3 mhd c ly g fill m junk iStep totalTime).
Proof.
  intros Hg. pose proof Hg as (Hx & Hy & Hz & Hw & _). destruct (Hsize g) as (Si & Sj & Sk).
  apply holds_nth; cbn [save h_sets].
  - rewrite map_map. cbn [fst]. rewrite <- (map_map fst variables_names), buffers_fst. reflexivity.
  - intros n v nd Hv Hnd. destruct (buffers_nth b3 ly g m junk (fields b3 mhd) n v Hv) as (d0 & Hb).
    rewrite (map_nth_error _ _ _ Hb) in Hnd. injection Hnd as <-. cbn [fst snd].
    set (NZ := extent c g (nz g)). set (NY := extent c g (ny g)). set (NX := extent c g (nx g)).
    rewrite save_file_slab, save_memory_slab. fold NX NY NZ. split; [reflexivity|].
    assert (FIT : fits (dims_of b3 (ksize g) (jsize g) (isize g)) (dims_of b3 (first_ c g, 1, NZ, 1) (first_ c g, 1, NY, 1) (first_ c g, 1, NX, 1)) = true)
      by (apply fits_count; unfold first_, NX, NY, NZ, extent; destruct (ghostIncluded c); try lia; intros Hb3; specialize (Hz Hb3); lia).
    assert (WH : fits (dims_of b3 NZ NY NX) (map (fun n => (0, 1, n, 1)) (dims_of b3 NZ NY NX)) = true)
      by (apply fits_whole; unfold NX, NY, NZ, extent; destruct (ghostIncluded c); try lia; intros Hb3; specialize (Hz Hb3); lia).
    assert (B : forall p, In p (write_list (H5Dcreate fill (whole (dims_of b3 NZ NY NX)))
        (Space (dims_of b3 (ksize g) (jsize g) (isize g)) (dims_of b3 (first_ c g, 1, NZ, 1) (first_ c g, 1, NY, 1) (first_ c g, 1, NX, 1)))
        (whole (dims_of b3 NZ NY NX)) (copy_out b3 ly g m d0 v)) <->
      exists q, inbox (dims_of b3 NZ NY NX) q /\
        p = (offset (dims_of b3 NZ NY NX) (vadd (dims_of b3 0 0 0) q),
             copy_out b3 ly g m d0 v (offset (dims_of b3 (ksize g) (jsize g) (isize g)) (vadd (dims_of b3 (first_ c g) (first_ c g) (first_ c g)) q)))).
    { intros p. apply write_list_box; auto; [apply slab_count | apply slab_whole]. }
    intros i j k Hin. unfold H5Dwrite. cbn [ds_val H5Dcreate].
    assert (V : copy_out b3 ly g m d0 v (offset (dims_of b3 (ksize g) (jsize g) (isize g))
                  (vadd (dims_of b3 (first_ c g) (first_ c g) (first_ c g)) (dims_of b3 k j i)))
                = elem b3 ly g m (first_ c g + i) (first_ c g + j) (first_z c g + k) v).
    { rewrite vadd_dims, offset_cell.
      replace (kz b3 (first_ c g + k)) with (first_z c g + k)
        by (destruct Hin as (_ & _ & K); unfold kz, first_z; destruct b3; lia).
      apply copy_out_spec. destruct Hin as (I & J & K). unfold in_array, first_z, first_, NX, NY, NZ, extent in *.
      destruct b3, (ghostIncluded c); lia. }
    apply assign_in.
    + intros p Hp E. apply B in Hp as (q & Hq & ->). cbn [fst snd] in *.
      apply inbox_dims_inv in Hq as (i' & j' & k' & -> & Hin'). rewrite vadd0 in E.
      apply offset_inj in E; try (apply inbox_dims; auto).
      destruct (dims_inj b3 NX NY NZ i' j' k' i j k Hin' Hin E) as (-> & -> & ->). exact V.
    + apply in_map_iff. exists (offset (dims_of b3 NZ NY NX) (dims_of b3 k j i), elem b3 ly g m (first_ c g + i) (first_ c g + j) (first_z c g + k) v).
      split; [reflexivity|]. apply B. exists (dims_of b3 k j i). split; [apply inbox_dims; auto|]. rewrite vadd0, V. reflexivity.
Qed.

(** ** Reading *)

(** A dataset that holds [G], read into a buffer. *)
Lemma read_at (ds : dataset T) MX MY MZ o msl FX FY FZ a b d fsl x y z (H : Z -> Z -> Z -> T) data i j k :
  points msl = map (vadd (dims_of b3 o o o)) (box (dims_of b3 z y x)) ->
  points fsl = map (vadd (dims_of b3 a b d)) (box (dims_of b3 z y x)) ->
  fits (dims_of b3 MZ MY MX) msl = true -> fits (dims_of b3 FZ FY FX) fsl = true ->
  ds_dims ds = dims_of b3 FZ FY FX ->
  0 <= o -> o + x <= MX -> o + y <= MY -> (b3 = true -> o + z <= MZ) ->
  0 <= d -> d + x <= FX -> 0 <= b -> b + y <= FY -> (b3 = true -> 0 <= a /\ a + z <= FZ) ->
  (forall i j k, in3 b3 FX FY FZ i j k -> ds_val ds (i + FX * (j + FY * k)) = H i j k) ->
  in3 b3 x y z i j k ->
  H5Dread ds (Space (dims_of b3 MZ MY MX) msl) (Space (dims_of b3 FZ FY FX) fsl) data
    (o + i + MX * (o + j + MY * kz b3 (o + k))) = H (d + i) (b + j) (kz b3 (a + k)).
Proof.
  intros P1 P2 F1 F2 D Ho Bx By Bz Hd Cx Hb Cy Ha Hv Hin.
  pose proof (read_box ds (dims_of b3 MZ MY MX) (dims_of b3 o o o) (dims_of b3 FZ FY FX) (dims_of b3 a b d) (dims_of b3 z y x)
               msl fsl data (dims_of b3 k j i) P1 P2 F1 F2 D) as R.
  rewrite !vadd_dims, !offset_dims in R. rewrite R.
  - apply Hv. destruct Hin as (I & J & K). unfold in3, kz. destruct b3; try (specialize (Ha eq_refl)); lia.
  - intros q Hq. apply inbox_dims_inv in Hq as (i' & j' & k' & -> & (I & J & K)). rewrite vadd_dims. 
    destruct b3; cbn [dims_of]; repeat constructor; try (specialize (Bz eq_refl)); lia.
  - intros q q' Hq Hq' E. apply inbox_dims_inv in Hq as (i1 & j1 & k1 & -> & (I & J & K)).
    apply inbox_dims_inv in Hq' as (i2 & j2 & k2 & -> & (I' & J' & K')). rewrite !vadd_dims in E.
    destruct b3; cbn [dims_of] in *; injection E; intros; repeat f_equal; lia.
  - apply inbox_dims; auto.
Qed.

Lemma holds_at NX NY NZ G (f : h5file TT T) v : file_holds b3 mhd NX NY NZ G f -> In v (fields b3 mhd) ->
  exists ds, find_set (h_sets f) (variables_names v) = Some ds /\ ds_dims ds = dims_of b3 NZ NY NX /\
    forall i j k, in3 b3 NX NY NZ i j k -> ds_val ds (i + NX * (j + NY * k)) = G i j k v.
Proof.
  intros Hf Hv. destruct (Hf v Hv) as (ds & E & D & V). exists ds. split; auto. split.
  - rewrite D. destruct b3; reflexivity.
  - intros i j k (I & J & K). apply V; auto.
Qed.

Lemma load_piece c ly g (f : h5file TT T) o msl FX FY FZ a b d fsl x y z G dm i j k v :
  io_grid b3 mhd g -> halfResolution c = false ->
  points msl = map (vadd (dims_of b3 o o o)) (box (dims_of b3 z y x)) ->
  points fsl = map (vadd (dims_of b3 a b d)) (box (dims_of b3 z y x)) ->
  fits (dims_of b3 (ksize g) (jsize g) (isize g)) msl = true -> fits (dims_of b3 FZ FY FX) fsl = true ->
  0 <= o -> o + x <= isize g -> o + y <= jsize g -> (b3 = true -> o + z <= ksize g) ->
  0 <= d -> d + x <= FX -> 0 <= b -> b + y <= FY -> (b3 = true -> 0 <= a /\ a + z <= FZ) ->
  file_holds b3 mhd FX FY FZ G f ->
  in3 b3 x y z i j k -> In v (fields b3 mhd) ->
  elem b3 ly g (snd (fold_left (read_field b3 c ly g f (Space (dims_of b3 (ksize g) (jsize g) (isize g)) msl)
                                           (Space (dims_of b3 FZ FY FX) fsl)) (fields b3 mhd) dm))
    (o + i) (o + j) (kz b3 (o + k)) v = G (d + i) (b + j) (kz b3 (a + k)) v.
Proof.
  intros Hg Hh P1 P2 F1 F2 Ho Bx By Bz Hd Cx Hb Cy Ha Hf Hin Hv.
  pose (P := fun i' j' k' => exists i j k, in3 b3 x y z i j k /\ i' = o + i /\ j' = o + j /\ k' = kz b3 (o + k)).
  pose (val := fun i' j' k' v => G (d + (i' - o)) (b + (j' - o)) (kz b3 (a + (k' - o))) v).
  replace (G (d + i) (b + j) (kz b3 (a + k)) v) with (val (o + i) (o + j) (kz b3 (o + k)) v)
    by (unfold val, kz; destruct b3; f_equal; lia).
  apply (fold_read b3 c ly g f _ _ (fields b3 mhd) P val); auto.
  - intros w Hw. apply (fields_range b3 mhd g w Hg); auto.
  - intros i' j' k' (i1 & j1 & k1 & (I & J & K) & -> & -> & ->). unfold in_array, kz. destruct b3; try (specialize (Bz eq_refl)); lia.
  - apply fields_NoDup.
  - intros w data i' j' k' Hw (i1 & j1 & k1 & H1 & -> & -> & ->). unfold stored. rewrite Hh.
    destruct (holds_at FX FY FZ G f w Hf Hw) as (ds & -> & D & V).
    unfold cell_index. replace (o + i1 + isize g * (o + j1) + isize g * jsize g * kz b3 (o + k1))
      with (o + i1 + isize g * (o + j1 + jsize g * kz b3 (o + k1))) by ring.
    rewrite (read_at ds (isize g) (jsize g) (ksize g) o msl FX FY FZ a b d fsl x y z (fun i j k => G i j k w)) by auto.
    unfold val, kz. destruct b3; f_equal; lia.
  - exists i, j, k. auto.
Qed.

(** Serial reading at the same resolution. *)
Lemma load_holds c ly g (f : h5file TT T) junk m G i j k v :
  io_grid b3 mhd g -> halfResolution c = false ->
  file_holds b3 mhd (extent c g (nx g)) (extent c g (ny g)) (extent c g (nz g)) G f ->
  in3 b3 (extent c g (nx g)) (extent c g (ny g)) (extent c g (nz g)) i j k -> In v (fields b3 mhd) ->
  elem b3 ly g (fst (fst (load b3 mhd c ly g f junk m))) (first_ c g + i) (first_ c g + j) (first_z c g + k) v = G i j k v.
Proof.
  intros Hg Hh Hf Hin Hv. pose proof Hg as (Hx & Hy & Hz & Hw & _). destruct (Hsize g) as (Si & Sj & Sk).
  replace (first_z c g + k) with (kz b3 (first_ c g + k)) by (destruct Hin as (_ & _ & K); unfold kz, first_z; destruct b3; lia).
  replace (G i j k v) with (G (0 + i) (0 + j) (kz b3 (0 + k)) v) by (destruct Hin as (_ & _ & K); unfold kz; destruct b3; f_equal; lia).
  unfold load. cbn [fst].
  replace (load_memory b3 c g) with (Space (dims_of b3 (ksize g) (jsize g) (isize g))
        (dims_of b3 (first_ c g, 1, extent c g (nz g), 1) (first_ c g, 1, extent c g (ny g), 1) (first_ c g, 1, extent c g (nx g), 1))).
  2:{ unfold load_memory, first_, extent, read_size. rewrite Hh, Si, Sj, Sk. destruct (ghostIncluded c); reflexivity. }
  replace (load_file b3 c g) with (whole (dims_of b3 (extent c g (nz g)) (extent c g (ny g)) (extent c g (nx g)))).
  2:{ unfold load_file, extent, read_size. rewrite Hh. destruct (ghostIncluded c); reflexivity. }
  unfold whole.
  apply load_piece with (x := extent c g (nx g)) (y := extent c g (ny g)) (z := extent c g (nz g)); auto;
    try (unfold first_, extent; destruct (ghostIncluded c); lia).
  - apply slab_count.
  - apply slab_whole.
  - apply fits_count; unfold first_, extent; destruct (ghostIncluded c); try lia; intros Hb3; specialize (Hz Hb3); lia.
  - apply fits_whole; unfold extent; destruct (ghostIncluded c); try lia; intros Hb3; specialize (Hz Hb3); lia.
Qed.
End Files.
