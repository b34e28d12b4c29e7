(** Parallel files. *)
From Coq Require Import ZArith List Bool String Permutation Lia.
From Verif Require Import Arith Par ParProofs GridModel MpiModel MpiSpec MpiTopo IoModel IoSpec IoProofs IoFile.
Import ListNotations.
Open Scope Z_scope.

Section Mpi.
Context {TT T : Type} {AT : Arith T}.
Variable b3 mhd : bool.

(** Size of the piece of one process, distance between pieces, extent of the
    file, and first index of the local array written. *)
Definition chunk (c : ioconf) (g : grid) (n : Z) : Z := if withGhosts c then n + 2 * gw g else n.
Definition stride_ (c : ioconf) (g : grid) (n : Z) : Z := if allghostIncluded c then n + 2 * gw g else n.
Definition fdim (c : ioconf) (g : grid) (n m : Z) : Z := stride_ c g n * (m - 1) + chunk c g n.
Definition firstm (c : ioconf) (g : grid) : Z := if withGhosts c then 0 else gw g.

Lemma piece_file_slab c g tp zr yr xr r : piece_file b3 c g tp zr yr xr r =
  Space (dims_of b3 (fdim c g zr (mz tp)) (fdim c g yr (my tp)) (fdim c g xr (mx tp)))
        (dims_of b3 (rz tp r * stride_ c g zr, 1, 1, chunk c g zr) (ry tp r * stride_ c g yr, 1, 1, chunk c g yr)
                    (rx tp r * stride_ c g xr, 1, 1, chunk c g xr)).
Proof.
  unfold piece_file, rx, ry, rz, fdim, stride_, chunk, withGhosts. destruct (coords tp r) as [[cx cy] cz].
  destruct (allghostIncluded c), (ghostIncluded c); cbn [orb]; f_equal; f_equal; ring.
Qed.

Lemma save_memory_mpi_slab c g : save_memory_mpi b3 c g =
  Space (dims_of b3 (ksize g) (jsize g) (isize g))
    (dims_of b3 (firstm c g, 1, 1, chunk c g (nz g)) (firstm c g, 1, 1, chunk c g (ny g)) (firstm c g, 1, 1, chunk c g (nx g))).
Proof. unfold save_memory_mpi, firstm, chunk. destruct (withGhosts c); reflexivity. Qed.

Lemma cover c g n m X : 0 < n -> 0 <= gw g -> 0 < m -> 0 <= X < fdim c g n m ->
  exists q i, 0 <= q < m /\ 0 <= i < chunk c g n /\ X = q * stride_ c g n + i.
Proof.
  unfold fdim. intros Hn Hw Hm HX.
  assert (S : 0 < stride_ c g n <= chunk c g n)
    by (unfold stride_, chunk, withGhosts; destruct (allghostIncluded c), (ghostIncluded c); cbn [orb]; lia).
  set (s := stride_ c g n) in *. set (k := chunk c g n) in *.
  destruct (Z.lt_ge_cases X (s * (m - 1))) as [L|L].
  - exists (X / s), (X mod s). pose proof (Z.mod_pos_bound X s ltac:(lia)). pose proof (Z.div_mod X s ltac:(lia)).
    assert (0 <= X / s) by (apply Z.div_pos; lia). assert (X / s < m - 1) by (apply Z.div_lt_upper_bound; lia).
    split; [lia|]. split; [lia|]. lia.
  - exists (m - 1), (X - s * (m - 1)). split; [lia|]. split; [lia|]. lia.
Qed.

Section OneFile.
Variable c : ioconf.
Variable ly : layout.
Variable g : grid.
Variable tp : topo.
Hypothesis Hg : io_grid b3 mhd g.
Hypothesis Htp : io_topo b3 tp.

Lemma tp_ok : topo_ok tp. Proof. destruct Htp as (? & ? & ? & _). repeat split; auto. Qed.

Lemma z_layer r : (r < nprocs tp)%nat -> b3 = false -> rz tp r = 0.
Proof. intros Hr Hb. destruct (coords_range tp tp_ok r Hr) as (_ & _ & H). destruct Htp as (_ & _ & _ & E). rewrite (E Hb) in H. lia. Qed.

Lemma stride_pos n : 0 < n -> 0 < stride_ c g n.
Proof. destruct Hg as (_ & _ & _ & Hw & _). unfold stride_. destruct (allghostIncluded c); lia. Qed.
Lemma chunk_pos n : 0 < n -> 0 < chunk c g n.
Proof. destruct Hg as (_ & _ & _ & Hw & _). unfold chunk. destruct (withGhosts c); lia. Qed.
Lemma piece_in n m q : 0 < n -> 0 <= q < m -> 0 <= q * stride_ c g n /\ q * stride_ c g n + chunk c g n <= fdim c g n m.
Proof. intros Hn Hq. pose proof (stride_pos n Hn). unfold fdim. split; nia. Qed.

Lemma mem_fits : fits (dims_of b3 (ksize g) (jsize g) (isize g))
    (dims_of b3 (firstm c g, 1, 1, chunk c g (nz g)) (firstm c g, 1, 1, chunk c g (ny g)) (firstm c g, 1, 1, chunk c g (nx g))) = true.
Proof.
  destruct Hg as (Hx & Hy & Hz & Hw & _). destruct (Hsize g) as (Si & Sj & Sk).
  apply fits_block; unfold firstm, chunk; destruct (withGhosts c); try lia; intros Hb; specialize (Hz Hb); lia.
Qed.

Lemma file_fits zr yr xr r : (b3 = true -> 0 < zr) -> 0 < yr -> 0 < xr -> (r < nprocs tp)%nat ->
  fits (dims_of b3 (fdim c g zr (mz tp)) (fdim c g yr (my tp)) (fdim c g xr (mx tp)))
       (dims_of b3 (rz tp r * stride_ c g zr, 1, 1, chunk c g zr) (ry tp r * stride_ c g yr, 1, 1, chunk c g yr)
                    (rx tp r * stride_ c g xr, 1, 1, chunk c g xr)) = true.
Proof.
  intros Hz Hy Hx Hr. destruct (coords_range tp tp_ok r Hr) as (Cx & Cy & Cz).
  pose proof (piece_in xr (mx tp) (rx tp r) Hx Cx). pose proof (piece_in yr (my tp) (ry tp r) Hy Cy).
  pose proof (chunk_pos xr Hx). pose proof (chunk_pos yr Hy).
  apply fits_block; try lia. intros Hb. specialize (Hz Hb).
  pose proof (piece_in zr (mz tp) (rz tp r) Hz Cz). pose proof (chunk_pos zr Hz). lia.
Qed.

(** Every process writes its part of [G]. *)
Lemma save_mpi_holds fill (m junk : nat -> buf T) iStep (totalTime : TT) f (G : Z -> Z -> Z -> Z -> T) :
  reassembleInFile c = true ->
  (forall r i j k v, (r < nprocs tp)%nat -> In v (fields b3 mhd) ->
     in3 b3 (chunk c g (nx g)) (chunk c g (ny g)) (chunk c g (nz g)) i j k ->
     elem b3 ly g (m r) (firstm c g + i) (firstm c g + j) (kz b3 (firstm c g + k)) v
     = G (rx tp r * stride_ c g (nx g) + i) (ry tp r * stride_ c g (ny g) + j) (kz b3 (rz tp r * stride_ c g (nz g) + k)) v) ->
  save_mpi b3 mhd c ly g tp fill m junk iStep totalTime f ->
  file_holds b3 mhd (fdim c g (nx g) (mx tp)) (fdim c g (ny g) (my tp)) (fdim c g (nz g) (mz tp)) G f.
Proof.
  intros Hre HG (_ & _ & Hn & Hs). pose proof Hg as (Hx & Hy & Hz & Hw & _). destruct (Hsize g) as (Si & Sj & Sk).
  apply holds_nth; auto. intros n v nd Hv Hnd. specialize (Hs n v nd Hv Hnd).
  assert (Hvf : In v (fields b3 mhd)) by (eapply nth_error_In; eauto).
  set (FD := dims_of b3 (fdim c g (nz g) (mz tp)) (fdim c g (ny g) (my tp)) (fdim c g (nx g) (mx tp))).
  pose (H := fun q : list Z => match q with [k; j; i] => G i j k v | [j; i] => G i j 0 v | _ => fill end).
  assert (HH : forall i j k, H (dims_of b3 k j i) = G i j (kz b3 k) v) by (intros; unfold kz; destruct b3; reflexivity).
  unfold H5Dcreate in Hs. replace (sp_dims (save_file_mpi b3 c g tp 0)) with FD in Hs
    by (unfold save_file_mpi; rewrite Hre, piece_file_slab; reflexivity).
  assert (VAL : forall r i j k, (r < nprocs tp)%nat -> in3 b3 (chunk c g (nx g)) (chunk c g (ny g)) (chunk c g (nz g)) i j k ->
     forall d0, copy_out b3 ly g (m r) d0 v (offset (dims_of b3 (ksize g) (jsize g) (isize g))
                  (vadd (dims_of b3 (firstm c g) (firstm c g) (firstm c g)) (dims_of b3 k j i)))
       = G (rx tp r * stride_ c g (nx g) + i) (ry tp r * stride_ c g (ny g) + j) (kz b3 (rz tp r * stride_ c g (nz g) + k)) v).
  { intros r i j k Hr Hin d0. rewrite vadd_dims, offset_cell, <- HG by auto. apply copy_out_spec.
    destruct Hin as (I & J & K). unfold in_array, kz, firstm, chunk in *. destruct b3, (withGhosts c); lia. }
  assert (B : forall r p, (r < nprocs tp)%nat ->
    In p (match nth_error (buffers b3 ly g (m r) (junk r) (fields b3 mhd)) n with
          | Some vd => write_list (DS (sp_dims (save_file_mpi b3 c g tp r)) (fun _ => fill)) (save_memory_mpi b3 c g) (save_file_mpi b3 c g tp r) (snd vd)
          | None => [] end) <->
    exists i j k, in3 b3 (chunk c g (nx g)) (chunk c g (ny g)) (chunk c g (nz g)) i j k /\
      p = (offset FD (dims_of b3 (rz tp r * stride_ c g (nz g) + k) (ry tp r * stride_ c g (ny g) + j) (rx tp r * stride_ c g (nx g) + i)),
           G (rx tp r * stride_ c g (nx g) + i) (ry tp r * stride_ c g (ny g) + j) (kz b3 (rz tp r * stride_ c g (nz g) + k)) v)).
  { intros r p Hr. destruct (buffers_nth b3 ly g (m r) (junk r) (fields b3 mhd) n v Hv) as (d0 & ->).
    unfold save_file_mpi. rewrite Hre, piece_file_slab, save_memory_mpi_slab. fold FD. cbn [sp_dims snd].
    pose proof (write_list_box (DS FD (fun _ => fill)) _ _ _ _ (dims_of b3 (chunk c g (nz g)) (chunk c g (ny g)) (chunk c g (nx g))) _ _ (copy_out b3 ly g (m r) d0 v) p
      (slab_block b3 _ _ _ _ _ _) (slab_block b3 _ _ _ _ _ _) mem_fits (file_fits _ _ _ r Hz Hy Hx Hr) eq_refl) as WL.
    fold FD in WL. rewrite WL.
    split.
    - intros (q & Hq & ->). apply inbox_dims_inv in Hq as (i & j & k & -> & Hin). exists i, j, k. split; auto.
      rewrite (VAL r i j k Hr Hin), vadd_dims. reflexivity.
    - intros (i & j & k & Hin & ->). exists (dims_of b3 k j i). split; [apply inbox_dims; auto|].
      rewrite (VAL r i j k Hr Hin), vadd_dims. reflexivity. }
  eapply (collective_holds fill FD (nprocs tp) _ H) in Hs.
  - destruct Hs as (D & V). split; auto. intros i j k Hin. change (dims_of b3 (fdim c g (nz g) (mz tp)) (fdim c g (ny g) (my tp)) (fdim c g (nx g) (mx tp))) with FD. rewrite V by (apply inbox_dims; auto). rewrite HH.
    destruct Hin as (_ & _ & K). unfold kz. destruct b3; auto. subst k. auto.
  - intros r p Hr Hp. apply (B r p Hr) in Hp as (i & j & k & Hin & ->).
    exists (dims_of b3 (rz tp r * stride_ c g (nz g) + k) (ry tp r * stride_ c g (ny g) + j) (rx tp r * stride_ c g (nx g) + i)).
    split; [|rewrite HH; reflexivity].
    destruct (coords_range tp tp_ok r Hr) as (Cx & Cy & Cz). destruct Hin as (I & J & K).
    pose proof (piece_in (nx g) (mx tp) (rx tp r) Hx Cx). pose proof (piece_in (ny g) (my tp) (ry tp r) Hy Cy).
    assert (ZZ : b3 = true -> 0 <= rz tp r * stride_ c g (nz g) + k < fdim c g (nz g) (mz tp)).
    { intros Hb. rewrite Hb in K. pose proof (piece_in (nz g) (mz tp) (rz tp r) (Hz Hb) Cz). lia. }
    unfold FD, inbox. clear - ZZ H0 H1 I J. destruct b3; cbn [dims_of]; [apply Forall2_cons; [apply ZZ; reflexivity|]|];
      (apply Forall2_cons; [lia|]); (apply Forall2_cons; [lia|]); apply Forall2_nil.
  - intros q Hq. apply inbox_dims_inv in Hq as (X & Y & Z0 & -> & (HX & HY & HZ)).
    destruct Htp as (Mx & My & Mz & Mz1).
    destruct (cover c g (nx g) (mx tp) X Hx Hw Mx HX) as (qx & i & Qx & I & ->).
    destruct (cover c g (ny g) (my tp) Y Hy Hw My HY) as (qy & j & Qy & J & ->).
    assert (HZ' : exists qz k, 0 <= qz < mz tp /\ (if b3 then 0 <= k < chunk c g (nz g) else k = 0) /\ kz b3 Z0 = kz b3 (qz * stride_ c g (nz g) + k)).
    { unfold kz. destruct b3.
      - destruct (cover c g (nz g) (mz tp) Z0 (Hz eq_refl) Hw Mz HZ) as (qz & k & Qz & K & ->). exists qz, k. auto.
      - exists 0, 0. repeat split; auto; lia. }
    destruct HZ' as (qz & k & Qz & K & EZ).
    destruct (coords_rank_in tp tp_ok qx qy qz Qx Qy Qz) as (Ex & Ey & Ez).
    exists (cart_rank tp (qx, qy, qz)). split; [apply cart_rank_lt; apply tp_ok|].
    apply B; [apply cart_rank_lt; apply tp_ok|]. exists i, j, k. rewrite Ex, Ey, Ez. split; [repeat split; auto; lia|].
    rewrite HH, EZ. f_equal. f_equal. unfold kz in EZ. destruct b3; [rewrite EZ|]; reflexivity.
Qed.

(** Each process reads its part of [G]. *)
Lemma load_mpi_holds (f : h5file TT T) r junk m G i j k v :
  halfResolution c = false -> (r < nprocs tp)%nat ->
  file_holds b3 mhd (fdim c g (nx g) (mx tp)) (fdim c g (ny g) (my tp)) (fdim c g (nz g) (mz tp)) G f ->
  in3 b3 (chunk c g (nx g)) (chunk c g (ny g)) (chunk c g (nz g)) i j k -> In v (fields b3 mhd) ->
  elem b3 ly g (fst (fst (load_mpi b3 mhd c ly g tp f r junk m))) (firstm c g + i) (firstm c g + j) (kz b3 (firstm c g + k)) v
  = G (rx tp r * stride_ c g (nx g) + i) (ry tp r * stride_ c g (ny g) + j) (kz b3 (rz tp r * stride_ c g (nz g) + k)) v.
Proof.
  intros Hh Hr Hf Hin Hv. pose proof Hg as (Hx & Hy & Hz & Hw & _). destruct (Hsize g) as (Si & Sj & Sk).
  unfold load_mpi. cbn [fst]. unfold load_file_mpi, read_size. rewrite Hh, piece_file_slab.
  replace (load_memory_mpi b3 c g) with (save_memory_mpi b3 c g).
  2:{ unfold load_memory_mpi, save_memory_mpi, read_size. rewrite Hh, Si, Sj, Sk. reflexivity. }
  rewrite save_memory_mpi_slab. destruct (coords_range tp tp_ok r Hr) as (Cx & Cy & Cz).
  pose proof (piece_in (nx g) (mx tp) (rx tp r) Hx Cx). pose proof (piece_in (ny g) (my tp) (ry tp r) Hy Cy).
  apply load_piece with (x := chunk c g (nx g)) (y := chunk c g (ny g)) (z := chunk c g (nz g)); auto;
    try (unfold firstm, chunk; destruct (withGhosts c); lia); try lia.
  - apply slab_block.
  - apply slab_block.
  - apply mem_fits.
  - apply file_fits; auto.
  - intros Hb. pose proof (piece_in (nz g) (mz tp) (rz tp r) (Hz Hb) Cz). lia.
Qed.
End OneFile.
End Mpi.
