(** Restarting on a grid twice as fine. *)
From Coq Require Import ZArith List Bool String Permutation Lia.
From Verif Require Import Arith Par ParProofs GridModel MpiModel MpiSpec MpiTopo IoModel IoSpec IoProofs IoFile IoMpi.
Import ListNotations.
Open Scope Z_scope.

Section Upscale.
Context {TT T : Type} {AT : Arith T}.
Variable b3 mhd : bool.

Lemma quot_twice n : Z.quot (2 * n) 2 = n.
Proof. rewrite Z.mul_comm. apply Z.quot_mul. lia. Qed.

Lemma low_index g i : 0 <= i + gw g -> Z.quot (i + gw g) 2 = parent g i.
Proof.
  intros H. rewrite Z.quot_div_nonneg by lia. unfold parent.
  replace (i + gw g) with (i - gw g + gw g * 2) by lia. rewrite Z.div_add by lia. lia.
Qed.

Lemma low_parity g i : (i + gw g - 2 * parent g i =? 0) = negb (Z.odd (i - gw g)).
Proof.
  unfold parent. rewrite <- Z.negb_even, negb_involutive. rewrite Zeven_mod. unfold Zeq_bool.
  pose proof (Z.div_mod (i - gw g) 2 ltac:(lia)) as E.
  destruct (Z.eqb_spec (i + gw g - 2 * (gw g + (i - gw g) / 2)) 0) as [Z0|N].
  - replace ((i - gw g) mod 2) with 0 by lia. reflexivity.
  - pose proof (Z.mod_pos_bound (i - gw g) 2 ltac:(lia)). replace ((i - gw g) mod 2) with 1 by lia. reflexivity.
Qed.

(** The interpolation, in terms of the coarse field in the buffer. *)
Lemma upscaled_refined g (data : buf T) (F : Z -> Z -> Z -> Z -> T) i j k v iL jL :
  iL = Z.quot (nx g) 2 + 2 * gw g -> jL = Z.quot (ny g) 2 + 2 * gw g ->
  0 <= i + gw g -> 0 <= j + gw g -> 0 <= k + gw g ->
  (forall a b d, parent g i <= a <= parent g i + 1 -> parent g j <= b <= parent g j + 1 ->
     (if b3 then parent g k <= d <= parent g k + 1 else d = 0) ->
     data (a + iL * b + iL * jL * d) = F a b d v) ->
  upscaled b3 g data i j k v = refined b3 g F i j k v.
Proof.
  intros EL EJ Hi Hj Hk HF. unfold upscaled, refined. rewrite !low_index by auto. rewrite <- EL, <- EJ, !low_parity.
  assert (K : (if b3 then parent g k else 0) = kz b3 (parent g k)) by reflexivity.
  rewrite HF by (try lia; destruct b3; lia).
  destruct (v =? IA) eqn:VA; [|destruct (v =? IB) eqn:VB; [|destruct (v =? IC) eqn:VC]]; cbn [andb].
  - destruct (Z.odd (i - gw g)); cbn [negb]; [|].
    + rewrite HF by (try lia; destruct b3; lia). reflexivity.
    + assert (v =? IB = false) as -> by (apply Z.eqb_eq in VA; subst; reflexivity).
      assert (v =? IC = false) as -> by (apply Z.eqb_eq in VA; subst; reflexivity). destruct b3; reflexivity.
  - destruct (Z.odd (j - gw g)); cbn [negb].
    + rewrite HF by (try lia; destruct b3; lia). reflexivity.
    + assert (v =? IC = false) as -> by (apply Z.eqb_eq in VB; subst; reflexivity). destruct b3; reflexivity.
  - destruct b3; cbn [andb]; [|reflexivity]. rewrite low_parity. destruct (Z.odd (k - gw g)); cbn [negb]; [|reflexivity].
    rewrite HF by lia. reflexivity.
  - destruct b3; reflexivity.
Qed.

Lemma parent_range g n i : 2 <= gw g -> 0 <= i < 2 * n + 2 * gw g -> 0 <= parent g i /\ parent g i + 1 < n + 2 * gw g.
Proof.
  intros Hw Hi. unfold parent. pose proof (Z.div_mod (i - gw g) 2 ltac:(lia)). pose proof (Z.mod_pos_bound (i - gw g) 2 ltac:(lia)). lia.
Qed.

(** Reading a piece of a coarse file, ghost cells included. *)
Lemma load_piece_half c ly g gc (f : h5file TT T) msl FX FY FZ a b d fsl G dm i j k v :
  io_grid b3 mhd g -> io_grid b3 mhd gc -> twice b3 gc g -> 2 <= gw g -> halfResolution c = true ->
  points msl = map (vadd (dims_of b3 0 0 0)) (box (dims_of b3 (ksize gc) (jsize gc) (isize gc))) ->
  points fsl = map (vadd (dims_of b3 a b d)) (box (dims_of b3 (ksize gc) (jsize gc) (isize gc))) ->
  fits (dims_of b3 (ksize gc) (jsize gc) (isize gc)) msl = true -> fits (dims_of b3 FZ FY FX) fsl = true ->
  0 <= d -> d + isize gc <= FX -> 0 <= b -> b + jsize gc <= FY -> (b3 = true -> 0 <= a /\ a + ksize gc <= FZ) ->
  file_holds b3 mhd FX FY FZ G f ->
  in_array b3 g i j k -> In v (fields b3 mhd) ->
  elem b3 ly g (snd (fold_left (read_field b3 c ly g f (Space (dims_of b3 (ksize gc) (jsize gc) (isize gc)) msl)
                                           (Space (dims_of b3 FZ FY FX) fsl)) (fields b3 mhd) dm)) i j k v
  = refined b3 g (fun i j k v => G (d + i) (b + j) (kz b3 (a + k)) v) i j k v.
Proof.
  intros Hg Hgc (Tx & Ty & Tz & Tw & _) Hw Hh P1 P2 F1 F2 Hd Cx Hb Cy Ha Hf Hin Hv.
  destruct (Hsize g) as (Si & Sj & Sk). destruct (Hsize gc) as (Ci & Cj & Ck).
  apply (fold_read b3 c ly g f _ _ (fields b3 mhd) (in_array b3 g)
           (fun i j k v => refined b3 g (fun i j k v => G (d + i) (b + j) (kz b3 (a + k)) v) i j k v)); auto.
  - intros w Hwf. apply (fields_range b3 mhd g w Hg); auto.
  - apply fields_NoDup.
  - intros w data i' j' k' Hwf (I & J & K). unfold stored. rewrite Hh.
    destruct (holds_at b3 mhd FX FY FZ G f w Hf Hwf) as (ds & -> & D & V).
    apply upscaled_refined with (iL := isize gc) (jL := jsize gc).
    + rewrite Ci, Tx, Tw, quot_twice. reflexivity.
    + rewrite Cj, Ty, Tw, quot_twice. reflexivity.
    + lia. 
    + lia.
    + destruct b3; lia.
    + pose proof (parent_range g (nx gc) i' Hw ltac:(lia)). pose proof (parent_range g (ny gc) j' Hw ltac:(lia)).
      intros a' b' d' A B Dk.
      assert (KK : b3 = true -> 0 <= parent g k' /\ parent g k' + 1 < ksize gc).
      { intros Hb3. rewrite Hb3 in K. specialize (Tz Hb3). pose proof (parent_range g (nz gc) k' Hw ltac:(lia)). lia. }
      pose proof (read_at b3 ds (isize gc) (jsize gc) (ksize gc) 0 msl FX FY FZ a b d fsl (isize gc) (jsize gc) (ksize gc)
        (fun i j k => G i j k w) data a' b' d' P1 P2 F1 F2 D ltac:(lia) ltac:(lia) ltac:(lia) ltac:(intros; lia) Hd Cx Hb Cy Ha V) as RD.
      assert (IN : in3 b3 (isize gc) (jsize gc) (ksize gc) a' b' d').
      { unfold in3. destruct b3; [specialize (KK eq_refl)|]; lia. }
      specialize (RD IN). cbv beta in RD. rewrite <- RD. f_equal.
      unfold kz. destruct b3; [ring|]. subst d'. ring.
Qed.

(** Serial upscaled restart from a file that contains its ghost cells. *)
Lemma load_half c ly g gc (f : h5file TT T) junk m G i j k v :
  io_grid b3 mhd g -> io_grid b3 mhd gc -> twice b3 gc g -> 2 <= gw g ->
  halfResolution c = true -> ghostIncluded c = true ->
  file_holds b3 mhd (isize gc) (jsize gc) (ksize gc) G f ->
  in_array b3 g i j k -> In v (fields b3 mhd) ->
  elem b3 ly g (fst (fst (load b3 mhd c ly g f junk m))) i j k v = refined b3 g G i j k v.
Proof.
  intros Hg Hgc Ht Hw Hh Hgh Hf Hin Hv. pose proof Hgc as (Hx & Hy & Hz & _). pose proof Ht as (Tx & Ty & Tz & Tw & _).
  destruct (Hsize gc) as (Ci & Cj & Ck).
  unfold load. cbn [fst].
  assert (Q : forall n m, n = 2 * m -> Z.quot n 2 + 2 * gw g = m + 2 * gw gc)
    by (intros n m' ->; rewrite quot_twice, Tw; reflexivity).
  assert (EM : load_memory b3 c g = Space (dims_of b3 (ksize gc) (jsize gc) (isize gc))
       (dims_of b3 (0, 1, ksize gc, 1) (0, 1, jsize gc, 1) (0, 1, isize gc, 1))).
  { unfold load_memory, read_size. rewrite Hh, Hgh, Ci, Cj, Ck, (Q _ _ Tx), (Q _ _ Ty). destruct b3; cbn [dims_of]; [|reflexivity].
    rewrite (Q _ _ (Tz eq_refl)). reflexivity. }
  assert (EF : load_file b3 c g = whole (dims_of b3 (ksize gc) (jsize gc) (isize gc))).
  { unfold load_file, read_size. rewrite Hh, Hgh, Ci, Cj, Ck, (Q _ _ Tx), (Q _ _ Ty). destruct b3; cbn [dims_of]; [|reflexivity].
    rewrite (Q _ _ (Tz eq_refl)). reflexivity. }
  rewrite EM, EF. unfold whole.
  rewrite (load_piece_half c ly g gc f _ _ _ _ 0 0 0 _ G) with (i := i) (j := j) (k := k) (v := v); auto; try lia.
  - assert (EG : forall i j k w, (b3 = false -> k = 0) -> G (0 + i) (0 + j) (kz b3 (0 + k)) w = G i j k w)
      by (intros i0 j0 k0 w H0; unfold kz; destruct b3; [|rewrite H0 by auto]; reflexivity).
    unfold refined. repeat (rewrite EG by (intros ->; reflexivity)).
    destruct b3; cbn [andb]; [rewrite !EG by discriminate; reflexivity|reflexivity].
  - apply slab_count.
  - apply slab_whole.
  - apply fits_count; try lia; intros Hb; specialize (Hz Hb); lia.
  - apply fits_whole; try lia; intros Hb; specialize (Hz Hb); lia.
Qed.

(** The same in parallel: process [r] reads its piece, ghost cells included. *)
Lemma load_mpi_half c ly g gc tp (f : h5file TT T) r junk m G i j k v :
  io_grid b3 mhd g -> io_grid b3 mhd gc -> io_topo b3 tp -> twice b3 gc g -> 2 <= gw g ->
  halfResolution c = true -> withGhosts c = true -> (r < nprocs tp)%nat ->
  file_holds b3 mhd (fdim c gc (nx gc) (mx tp)) (fdim c gc (ny gc) (my tp)) (fdim c gc (nz gc) (mz tp)) G f ->
  in_array b3 g i j k -> In v (fields b3 mhd) ->
  elem b3 ly g (fst (fst (load_mpi b3 mhd c ly g tp f r junk m))) i j k v
  = refined b3 g (fun i j k v => G (rx tp r * stride_ c gc (nx gc) + i) (ry tp r * stride_ c gc (ny gc) + j)
                                   (kz b3 (rz tp r * stride_ c gc (nz gc) + k)) v) i j k v.
Proof.
  intros Hg Hgc Htp Ht Hw Hh Hgh Hr Hf Hin Hv. pose proof Hgc as (Hx & Hy & Hz & _). pose proof Ht as (Tx & Ty & Tz & Tw & _).
  destruct (Hsize gc) as (Ci & Cj & Ck).
  assert (TOK : topo_ok tp) by (destruct Htp as (? & ? & ? & _); repeat split; auto).
  destruct (coords_range tp TOK r Hr) as (Rx & Ry & Rz).
  unfold load_mpi. cbn [fst]. unfold load_file_mpi, read_size. rewrite Hh, piece_file_slab.
  assert (CH : forall n, chunk c gc n = n + 2 * gw gc) by (intros; unfold chunk; rewrite Hgh; reflexivity).
  assert (EM : load_memory_mpi b3 c g = Space (dims_of b3 (ksize gc) (jsize gc) (isize gc))
       (dims_of b3 (0, 1, 1, ksize gc) (0, 1, 1, jsize gc) (0, 1, 1, isize gc))).
  { unfold load_memory_mpi, read_size. rewrite Hh, Hgh, Ci, Cj, Ck, Tx, Ty, !quot_twice, Tw. destruct b3; cbn [dims_of]; [|reflexivity].
    rewrite (Tz eq_refl), !quot_twice. reflexivity. }
  assert (EF : Space (dims_of b3 (fdim c g (nz g ÷ 2) (mz tp)) (fdim c g (ny g ÷ 2) (my tp)) (fdim c g (nx g ÷ 2) (mx tp)))
     (dims_of b3 (rz tp r * stride_ c g (nz g ÷ 2), 1, 1, chunk c g (nz g ÷ 2)) (ry tp r * stride_ c g (ny g ÷ 2), 1, 1, chunk c g (ny g ÷ 2))
        (rx tp r * stride_ c g (nx g ÷ 2), 1, 1, chunk c g (nx g ÷ 2)))
     = Space (dims_of b3 (fdim c gc (nz gc) (mz tp)) (fdim c gc (ny gc) (my tp)) (fdim c gc (nx gc) (mx tp)))
     (dims_of b3 (rz tp r * stride_ c gc (nz gc), 1, 1, ksize gc) (ry tp r * stride_ c gc (ny gc), 1, 1, jsize gc)
        (rx tp r * stride_ c gc (nx gc), 1, 1, isize gc))).
  { rewrite Tx, Ty, !quot_twice. unfold fdim, stride_, chunk. rewrite Hgh, Tw, Ci, Cj, Ck. destruct b3; cbn [dims_of]; [|reflexivity].
    rewrite (Tz eq_refl), !quot_twice. reflexivity. }
  rewrite EM, EF.
  pose proof (piece_in b3 mhd c gc Hgc (nx gc) (mx tp) (rx tp r) Hx Rx) as Px. rewrite CH, <- Ci in Px.
  pose proof (piece_in b3 mhd c gc Hgc (ny gc) (my tp) (ry tp r) Hy Ry) as Py. rewrite CH, <- Cj in Py.
  apply (load_piece_half c ly g gc f _ _ _ _ (rz tp r * stride_ c gc (nz gc)) (ry tp r * stride_ c gc (ny gc)) (rx tp r * stride_ c gc (nx gc)) _ G (junk, m)); auto; try lia.
  - apply slab_block.
  - apply slab_block.
  - apply fits_block; try lia; intros Hb; specialize (Hz Hb); lia.
  - rewrite Ci, Cj, Ck, <- !CH. apply (file_fits b3 mhd c gc tp Hgc Htp); auto.
  - intros Hb. pose proof (piece_in b3 mhd c gc Hgc (nz gc) (mz tp) (rz tp r) (Hz Hb) Rz) as Pz. rewrite CH, <- Ck in Pz. lia.
Qed.
End Upscale.
