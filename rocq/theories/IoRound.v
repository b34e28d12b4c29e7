(** Writing and reading back. *)
From Coq Require Import ZArith List Bool String Permutation Lia.
From Verif Require Import Arith Par ParProofs GridModel MpiModel MpiSpec MpiTopo IoModel IoSpec IoProofs IoFile IoMpi.
Import ListNotations.
Open Scope Z_scope.

Section Round.
Context {TT T : Type} {AT : Arith T}.
Variable b3 mhd : bool.

Lemma field_of v g : io_grid b3 mhd g -> 0 <= v < nbvar g -> In v (fields b3 mhd).
Proof. intros Hg Hv. apply (fields_range b3 mhd g v Hg). exact Hv. Qed.

Lemma round_trip c ly1 ly2 g fill (m junk junk' m' : buf T) iStep (t : TT) i j k v :
  io_grid b3 mhd g -> halfResolution c = false ->
  (if ghostIncluded c then in_array b3 g i j k else interior b3 g i j k) -> 0 <= v < nbvar g ->
  elem b3 ly2 g (fst (fst (load b3 mhd c ly2 g (save b3 mhd c ly1 g fill m junk iStep t) junk' m'))) i j k v
  = elem b3 ly1 g m i j k v.
Proof.
  intros Hg Hh Hin Hv. pose proof (save_holds b3 mhd c ly1 g fill m junk iStep t Hg) as HF.
  destruct (Hsize g) as (Si & Sj & Sk).
  set (i' := i - first_ c g). set (j' := j - first_ c g). set (k' := k - first_z b3 c g).
  assert (I3 : in3 b3 (extent c g (nx g)) (extent c g (ny g)) (extent c g (nz g)) i' j' k').
  { unfold in3, i', j', k', first_z, first_, extent. unfold in_array, interior in Hin. rewrite Si, Sj, Sk in Hin.
    destruct (ghostIncluded c), b3; lia. }
  pose proof (load_holds b3 mhd c ly2 g _ junk' m' _ i' j' k' v Hg Hh HF I3 (field_of v g Hg Hv)) as H.
  cbv beta in H. replace (first_ c g + i') with i in H by (unfold i'; lia). replace (first_ c g + j') with j in H by (unfold j'; lia).
  replace (first_z b3 c g + k') with k in H by (unfold k'; lia). exact H.
Qed.

(** The process a position of the file is taken from. *)
Definition own c g n m X := Z.min (X / stride_ c g n) (m - 1).

Lemma stride_chunk c g n : 0 < n -> 0 <= gw g -> 0 < stride_ c g n <= chunk c g n.
Proof. intros. unfold stride_, chunk, withGhosts. destruct (allghostIncluded c), (ghostIncluded c); cbn [orb]; lia. Qed.

Lemma own_piece c g n m q i : 0 < n -> 0 <= gw g -> 0 <= q < m -> 0 <= i < chunk c g n ->
  let X := q * stride_ c g n + i in
  0 <= own c g n m X < m /\ 0 <= X - own c g n m X * stride_ c g n < chunk c g n.
Proof.
  intros Hn Hw Hq Hi X. destruct (stride_chunk c g n Hn Hw) as (S1 & S2). unfold own.
  set (s := stride_ c g n) in *. assert (0 <= X) by (unfold X; nia).
  pose proof (Z.div_mod X s ltac:(lia)). pose proof (Z.mod_pos_bound X s ltac:(lia)).
  assert (0 <= X / s) by (apply Z.div_pos; lia).
  split; [lia|]. destruct (Z.min_spec (X / s) (m - 1)) as [(L & ->)|(L & ->)].
  - split; nia.
  - split; [nia|]. unfold X. nia.
Qed.

Lemma own_disjoint c g n m q i : 0 < n -> 0 <= gw g -> 0 <= q < m -> 0 <= i < chunk c g n -> chunk c g n = stride_ c g n ->
  own c g n m (q * stride_ c g n + i) = q.
Proof.
  intros Hn Hw Hq Hi E. destruct (stride_chunk c g n Hn Hw) as (S1 & S2). unfold own. rewrite E in Hi.
  replace (q * stride_ c g n + i) with (i + q * stride_ c g n) by lia.
  rewrite Z.div_add by lia. rewrite Z.div_small by lia. lia.
Qed.

Section File.
Variables (c : ioconf) (ly : layout) (g : grid) (tp : topo).
Hypothesis Hg : io_grid b3 mhd g.
Hypothesis Htp : io_topo b3 tp.

Definition Gown (m : nat -> buf T) (X Y Z0 v : Z) : T :=
  let qx := own c g (nx g) (mx tp) X in let qy := own c g (ny g) (my tp) Y in
  let qz := if b3 then own c g (nz g) (mz tp) Z0 else 0 in
  elem b3 ly g (m (cart_rank tp (qx, qy, qz)))
    (firstm c g + (X - qx * stride_ c g (nx g))) (firstm c g + (Y - qy * stride_ c g (ny g)))
    (kz b3 (firstm c g + (Z0 - qz * stride_ c g (nz g)))) v.

(** Positions of the file written by two processes hold the same value in both. *)
Definition agree (m : nat -> buf T) : Prop :=
  forall r1 r2 i1 j1 k1 i2 j2 k2 v, (r1 < nprocs tp)%nat -> (r2 < nprocs tp)%nat -> In v (fields b3 mhd) ->
    in3 b3 (chunk c g (nx g)) (chunk c g (ny g)) (chunk c g (nz g)) i1 j1 k1 ->
    in3 b3 (chunk c g (nx g)) (chunk c g (ny g)) (chunk c g (nz g)) i2 j2 k2 ->
    rx tp r1 * stride_ c g (nx g) + i1 = rx tp r2 * stride_ c g (nx g) + i2 ->
    ry tp r1 * stride_ c g (ny g) + j1 = ry tp r2 * stride_ c g (ny g) + j2 ->
    (b3 = true -> rz tp r1 * stride_ c g (nz g) + k1 = rz tp r2 * stride_ c g (nz g) + k2) ->
    elem b3 ly g (m r1) (firstm c g + i1) (firstm c g + j1) (kz b3 (firstm c g + k1)) v
    = elem b3 ly g (m r2) (firstm c g + i2) (firstm c g + j2) (kz b3 (firstm c g + k2)) v.

Lemma topo_ok_io : topo_ok tp.
Proof. destruct Htp as (? & ? & ? & _). repeat split; auto. Qed.

Lemma rz_2d r : b3 = false -> (r < nprocs tp)%nat -> rz tp r = 0.
Proof. intros Hb Hr. destruct (coords_range tp topo_ok_io r Hr) as (_ & _ & H). destruct Htp as (_ & _ & _ & E). rewrite (E Hb) in H. lia. Qed.

Lemma Gown_piece m r i j k v : agree m -> (r < nprocs tp)%nat -> In v (fields b3 mhd) ->
  in3 b3 (chunk c g (nx g)) (chunk c g (ny g)) (chunk c g (nz g)) i j k ->
  elem b3 ly g (m r) (firstm c g + i) (firstm c g + j) (kz b3 (firstm c g + k)) v
  = Gown m (rx tp r * stride_ c g (nx g) + i) (ry tp r * stride_ c g (ny g) + j) (kz b3 (rz tp r * stride_ c g (nz g) + k)) v.
Proof.
  pose proof topo_ok_io as TOK. assert (MZ : 0 < mz tp) by (apply TOK).
  intros HA Hr Hv Hin. pose proof Hg as (Hx & Hy & Hz & Hw & _). destruct Hin as (Ii & Ij & Ik).
  destruct (coords_range tp TOK r Hr) as (Rx & Ry & Rz).
  destruct (own_piece c g (nx g) (mx tp) (rx tp r) i Hx Hw Rx Ii) as (Ox & Px).
  destruct (own_piece c g (ny g) (my tp) (ry tp r) j Hy Hw Ry Ij) as (Oy & Py).
  unfold Gown, agree in *. cbv zeta.
  set (X := rx tp r * stride_ c g (nx g) + i) in *. set (Y := ry tp r * stride_ c g (ny g) + j) in *.
  set (qx := own c g (nx g) (mx tp) X) in *. set (qy := own c g (ny g) (my tp) Y) in *.
  destruct b3 eqn:Eb; cbn [kz] in *.
  - specialize (Hz eq_refl). destruct (own_piece c g (nz g) (mz tp) (rz tp r) k Hz Hw Rz Ik) as (Oz & Pz).
    set (W := rz tp r * stride_ c g (nz g) + k) in *. set (qz := own c g (nz g) (mz tp) W) in *.
    destruct (coords_rank_in tp TOK qx qy qz Ox Oy Oz) as (E1 & E2 & E3).
    apply (HA r (cart_rank tp (qx, qy, qz)) i j k (X - qx * stride_ c g (nx g)) (Y - qy * stride_ c g (ny g)) (W - qz * stride_ c g (nz g)) v); auto.
    + apply cart_rank_lt, TOK.
    + repeat split; lia.
    + repeat split; lia.
    + rewrite E1. unfold X. lia.
    + rewrite E2. unfold Y. lia.
    + intros _. rewrite E3. unfold W. lia.
  - assert (Oz : 0 <= 0 < mz tp) by lia.
    destruct (coords_rank_in tp TOK qx qy 0 Ox Oy Oz) as (E1 & E2 & E3).
    apply (HA r (cart_rank tp (qx, qy, 0)) i j 0 (X - qx * stride_ c g (nx g)) (Y - qy * stride_ c g (ny g)) 0 v); auto.
    + apply cart_rank_lt, TOK.
    + repeat split; lia.
    + repeat split; lia.
    + rewrite E1. unfold X. lia.
    + rewrite E2. unfold Y. lia.
    + discriminate.
Qed.

(** With disjoint pieces there is nothing to agree on. *)
Lemma agree_disjoint m : withGhosts c = allghostIncluded c -> agree m.
Proof.
  intros E r1 r2 i1 j1 k1 i2 j2 k2 v H1 H2 Hv (I1 & J1 & K1) (I2 & J2 & K2) Ex Ey Ez.
  pose proof Hg as (Hx & Hy & Hz & Hw & _).
  assert (CS : forall n, chunk c g n = stride_ c g n) by (intros; unfold chunk, stride_; rewrite E; reflexivity).
  destruct (coords_range tp topo_ok_io r1 H1) as (Rx1 & Ry1 & Rz1). destruct (coords_range tp topo_ok_io r2 H2) as (Rx2 & Ry2 & Rz2).
  assert (A : forall n m q1 q2 i1 i2, 0 < n -> 0 <= q1 < m -> 0 <= q2 < m -> 0 <= i1 < chunk c g n -> 0 <= i2 < chunk c g n ->
    q1 * stride_ c g n + i1 = q2 * stride_ c g n + i2 -> q1 = q2 /\ i1 = i2).
  { intros n mm q1 q2 a b Hn Q1 Q2 A B EE. pose proof (own_disjoint c g n mm q1 a Hn Hw Q1 A (CS n)) as O1.
    pose proof (own_disjoint c g n mm q2 b Hn Hw Q2 B (CS n)) as O2. rewrite EE in O1. rewrite O1 in O2. subst q2. split; [reflexivity|lia]. }
  destruct (A _ _ _ _ _ _ Hx Rx1 Rx2 I1 I2 Ex) as (Ax & ->). destruct (A _ _ _ _ _ _ Hy Ry1 Ry2 J1 J2 Ey) as (Ay & ->).
  pose proof (fun E0 => rz_2d r1 E0 H1) as Z1. pose proof (fun E0 => rz_2d r2 E0 H2) as Z2.
  assert (Az : rz tp r1 = rz tp r2 /\ k1 = k2).
  { clear Htp. destruct b3; [|rewrite Z1, Z2 by reflexivity; split; lia]. apply (A _ (mz tp) _ _ _ _ (Hz eq_refl)); auto. }
  destruct Az as (Az & ->).
  replace r2 with r1; [reflexivity|]. rewrite <- (rank_of_coords tp topo_ok_io r1 H1), <- (rank_of_coords tp topo_ok_io r2 H2), Ax, Ay, Az. reflexivity.
Qed.

(** Agreement of the arrays in terms of global cells. *)
Lemma agree_halo m : allghostIncluded c = false -> ghostIncluded c = true ->
  (forall r1 r2 i1 j1 k1 i2 j2 k2 v, (r1 < nprocs tp)%nat -> (r2 < nprocs tp)%nat -> 0 <= v < nbvar g ->
     in_array b3 g i1 j1 k1 -> in_array b3 g i2 j2 k2 ->
     global_index tp g r1 i1 j1 k1 = global_index tp g r2 i2 j2 k2 ->
     elem b3 ly g (m r1) i1 j1 k1 v = elem b3 ly g (m r2) i2 j2 k2 v) -> agree m.
Proof.
  intros Ha Hgh HC r1 r2 i1 j1 k1 i2 j2 k2 v H1 H2 Hv I1 I2 Ex Ey Ez. destruct (Hsize g) as (Si & Sj & Sk).
  assert (W : withGhosts c = true) by (unfold withGhosts; rewrite Hgh; reflexivity).
  assert (F0 : firstm c g = 0) by (unfold firstm; rewrite W; reflexivity). rewrite F0, !Z.add_0_l.
  assert (S0 : forall n, stride_ c g n = n) by (intros; unfold stride_; rewrite Ha; reflexivity).
  assert (C0 : forall n, chunk c g n = n + 2 * gw g) by (intros; unfold chunk; rewrite W; reflexivity).
  unfold in3 in I1, I2. rewrite !C0, <- Si, <- Sj, <- Sk in I1, I2. rewrite !S0 in *.
  assert (K1 : kz b3 k1 = k1) by (unfold kz; destruct b3; lia). assert (K2 : kz b3 k2 = k2) by (unfold kz; destruct b3; lia).
  rewrite K1, K2. apply HC; auto.
  - apply (fields_range b3 mhd g v Hg). exact Hv.
  - unfold global_index. unfold rx, ry, rz in Ex, Ey, Ez.
    pose proof (rz_2d r1) as Z1. pose proof (rz_2d r2) as Z2. unfold rz in Z1, Z2.
    destruct (coords tp r1) as [[a1 b1] c1], (coords tp r2) as [[a2 b2] c2].
    assert (c1 * nz g + (k1 - gw g) = c2 * nz g + (k2 - gw g)).
    { destruct b3; [specialize (Ez eq_refl); lia|]. specialize (Z1 eq_refl H1). specialize (Z2 eq_refl H2). subst. lia. }
    f_equal; [f_equal|]; lia.
Qed.

Lemma mpi_file fill (m junk : nat -> buf T) iStep (t : TT) f : reassembleInFile c = true -> agree m ->
  save_mpi b3 mhd c ly g tp fill m junk iStep t f ->
  file_holds b3 mhd (fdim c g (nx g) (mx tp)) (fdim c g (ny g) (my tp)) (fdim c g (nz g) (mz tp)) (Gown m) f.
Proof.
  intros Hre HA. apply (save_mpi_holds b3 mhd c ly g tp Hg Htp fill m junk iStep t f (Gown m) Hre).
  intros r i j k v Hr Hv Hin. apply Gown_piece; auto.
Qed.

Lemma round_trip_mpi ly2 fill (m junk : nat -> buf T) iStep (t : TT) f r junk' m' i j k v :
  halfResolution c = false -> reassembleInFile c = true -> agree m -> save_mpi b3 mhd c ly g tp fill m junk iStep t f ->
  (r < nprocs tp)%nat -> (if withGhosts c then in_array b3 g i j k else interior b3 g i j k) -> 0 <= v < nbvar g ->
  elem b3 ly2 g (fst (fst (load_mpi b3 mhd c ly2 g tp f r junk' m'))) i j k v = elem b3 ly g (m r) i j k v.
Proof.
  intros Hh Hre HA HS Hr Hin Hv. pose proof (mpi_file _ _ _ _ _ _ Hre HA HS) as HF. destruct (Hsize g) as (Si & Sj & Sk).
  set (i' := i - firstm c g). set (j' := j - firstm c g). set (k' := if b3 then k - firstm c g else 0).
  assert (I3 : in3 b3 (chunk c g (nx g)) (chunk c g (ny g)) (chunk c g (nz g)) i' j' k').
  { unfold in3, i', j', k', firstm, chunk. unfold in_array, interior in Hin. rewrite Si, Sj, Sk in Hin.
    destruct (withGhosts c), b3; lia. }
  pose proof (load_mpi_holds b3 mhd c ly2 g tp Hg Htp f r junk' m' _ i' j' k' v Hh Hr HF I3 (field_of v g Hg Hv)) as H.
  rewrite <- Gown_piece in H; auto; [|apply (field_of v g Hg Hv)].
  replace (firstm c g + i') with i in H by (unfold i'; lia). replace (firstm c g + j') with j in H by (unfold j'; lia).
  replace (kz b3 (firstm c g + k')) with k in H; [exact H|].
  unfold kz, k'. unfold in_array, interior in Hin. destruct (withGhosts c), b3; lia.
Qed.
End File.

(** Reading with another decomposition (no ghost cells in the file). *)
Lemma portable c ly1 g1 tp1 ly2 g2 tp2 fill (m junk : nat -> buf T) iStep (t : TT) f r1 r2 junk' m' i1 j1 k1 i2 j2 k2 v :
  io_grid b3 mhd g1 -> io_topo b3 tp1 -> io_grid b3 mhd g2 -> io_topo b3 tp2 ->
  nx g1 * mx tp1 = nx g2 * mx tp2 -> ny g1 * my tp1 = ny g2 * my tp2 -> (b3 = true -> nz g1 * mz tp1 = nz g2 * mz tp2) ->
  withGhosts c = false -> reassembleInFile c = true -> halfResolution c = false ->
  save_mpi b3 mhd c ly1 g1 tp1 fill m junk iStep t f ->
  (r1 < nprocs tp1)%nat -> (r2 < nprocs tp2)%nat -> interior b3 g1 i1 j1 k1 -> interior b3 g2 i2 j2 k2 ->
  global_index tp1 g1 r1 i1 j1 k1 = global_index tp2 g2 r2 i2 j2 k2 -> 0 <= v < nbvar g1 ->
  elem b3 ly2 g2 (fst (fst (load_mpi b3 mhd c ly2 g2 tp2 f r2 junk' m'))) i2 j2 k2 v = elem b3 ly1 g1 (m r1) i1 j1 k1 v.
Proof.
  intros Hg1 Ht1 Hg2 Ht2 Nx Ny Nz Hw Hre Hh HS Hr1 Hr2 Hi1 Hi2 HG Hv.
  assert (Ha : allghostIncluded c = false) by (unfold withGhosts in Hw; destruct (ghostIncluded c); [discriminate|exact Hw]).
  assert (HA : agree c ly1 g1 tp1 m) by (apply agree_disjoint; auto; congruence).
  pose proof (mpi_file c ly1 g1 tp1 Hg1 Ht1 _ _ _ _ _ _ Hre HA HS) as HF.
  assert (F0 : forall g, firstm c g = gw g) by (intros; unfold firstm; rewrite Hw; reflexivity).
  assert (S0 : forall g n, stride_ c g n = n) by (intros; unfold stride_; rewrite Ha; reflexivity).
  assert (C0 : forall g n, chunk c g n = n) by (intros; unfold chunk; rewrite Hw; reflexivity).
  assert (FD : forall g n m, fdim c g n m = n * m) by (intros; unfold fdim; rewrite S0, C0; ring).
  assert (HF2 : file_holds b3 mhd (fdim c g2 (nx g2) (mx tp2)) (fdim c g2 (ny g2) (my tp2)) (fdim c g2 (nz g2) (mz tp2)) (Gown c ly1 g1 tp1 m) f).
  { rewrite !FD in *. rewrite Nx, Ny in HF. destruct b3; [rewrite (Nz eq_refl) in HF; exact HF|exact HF]. }
  assert (I2 : in3 b3 (chunk c g2 (nx g2)) (chunk c g2 (ny g2)) (chunk c g2 (nz g2)) (i2 - gw g2) (j2 - gw g2) (if b3 then k2 - gw g2 else 0)).
  { unfold in3. rewrite !C0. unfold interior in Hi2. destruct b3; lia. }
  assert (I1 : in3 b3 (chunk c g1 (nx g1)) (chunk c g1 (ny g1)) (chunk c g1 (nz g1)) (i1 - gw g1) (j1 - gw g1) (if b3 then k1 - gw g1 else 0)).
  { unfold in3. rewrite !C0. unfold interior in Hi1. destruct b3; lia. }
  pose proof (field_of v g1 Hg1 Hv) as Hf.
  pose proof (load_mpi_holds b3 mhd c ly2 g2 tp2 Hg2 Ht2 f r2 junk' m' _ _ _ _ v Hh Hr2 HF2 I2 Hf) as L.
  pose proof (Gown_piece c ly1 g1 tp1 Hg1 Ht1 m r1 _ _ _ v HA Hr1 Hf I1) as P.
  rewrite !F0, !S0 in *.
  assert (E1 : forall g b, gw g + (b - gw g) = b) by (intros; lia). rewrite !E1 in *.
  assert (K : forall g k, (if b3 then True else k = 0) -> kz b3 (gw g + (if b3 then k - gw g else 0)) = k)
    by (intros; unfold kz; destruct b3; lia).
  rewrite (K g2 k2) in L by (unfold interior in Hi2; destruct b3; tauto). rewrite (K g1 k1) in P by (unfold interior in Hi1; destruct b3; tauto).
  rewrite L, P. unfold global_index in HG. unfold rx, ry, rz. destruct (coords tp1 r1) as [[a1 b1] c1], (coords tp2 r2) as [[a2 b2] c2].
  injection HG as Gx Gy Gz. rewrite <- Gx, <- Gy.
  replace (kz b3 (c2 * nz g2 + (if b3 then k2 - gw g2 else 0))) with (kz b3 (c1 * nz g1 + (if b3 then k1 - gw g1 else 0)))
    by (unfold kz; destruct b3; lia). reflexivity.
Qed.

(** A file of the serial writer without ghost cells, read in parallel, and the
    converse: the serial program is one process. *)
Lemma serial_writer_reader c ly1 g1 ly2 g2 tp2 fill (m junk : buf T) iStep (t : TT) r2 junk' m' i2 j2 k2 v :
  io_grid b3 mhd g1 -> io_grid b3 mhd g2 -> io_topo b3 tp2 ->
  nx g1 = nx g2 * mx tp2 -> ny g1 = ny g2 * my tp2 -> (b3 = true -> nz g1 = nz g2 * mz tp2) ->
  withGhosts c = false -> halfResolution c = false ->
  (r2 < nprocs tp2)%nat -> interior b3 g2 i2 j2 k2 -> 0 <= v < nbvar g1 ->
  let '(x, y, z) := global_index tp2 g2 r2 i2 j2 k2 in
  elem b3 ly2 g2 (fst (fst (load_mpi b3 mhd c ly2 g2 tp2 (save b3 mhd c ly1 g1 fill m junk iStep t) r2 junk' m'))) i2 j2 k2 v
  = elem b3 ly1 g1 m (gw g1 + x) (gw g1 + y) (if b3 then gw g1 + z else 0) v.
Proof.
  intros Hg1 Hg2 Ht2 Nx Ny Nz Hw Hh Hr2 Hi2 Hv.
  pose proof (save_holds b3 mhd c ly1 g1 fill m junk iStep t Hg1) as HF.
  assert (Ha : allghostIncluded c = false /\ ghostIncluded c = false)
    by (unfold withGhosts in Hw; destruct (ghostIncluded c), (allghostIncluded c); try discriminate; auto).
  destruct Ha as (Ha & Hgi).
  assert (F0 : forall g, firstm c g = gw g) by (intros; unfold firstm; rewrite Hw; reflexivity).
  assert (S0 : forall g n, stride_ c g n = n) by (intros; unfold stride_; rewrite Ha; reflexivity).
  assert (C0 : forall g n, chunk c g n = n) by (intros; unfold chunk; rewrite Hw; reflexivity).
  assert (FD : forall g n m, fdim c g n m = n * m) by (intros; unfold fdim; rewrite S0, C0; ring).
  assert (E0 : forall g n, extent c g n = n) by (intros; unfold extent; rewrite Hgi; reflexivity).
  assert (FF : first_ c g1 = gw g1) by (unfold first_; rewrite Hgi; reflexivity).
  set (f := save b3 mhd c ly1 g1 fill m junk iStep t) in *.
  assert (HF2 : file_holds b3 mhd (fdim c g2 (nx g2) (mx tp2)) (fdim c g2 (ny g2) (my tp2)) (fdim c g2 (nz g2) (mz tp2))
     (fun i j k v => elem b3 ly1 g1 m (first_ c g1 + i) (first_ c g1 + j) (first_z b3 c g1 + k) v) f).
  { rewrite !FD, <- Nx, <- Ny. rewrite !E0 in HF. destruct b3; [rewrite <- (Nz eq_refl); exact HF|exact HF]. }
  assert (I2 : in3 b3 (chunk c g2 (nx g2)) (chunk c g2 (ny g2)) (chunk c g2 (nz g2)) (i2 - gw g2) (j2 - gw g2) (if b3 then k2 - gw g2 else 0)).
  { unfold in3. rewrite !C0. unfold interior in Hi2. destruct b3; lia. }
  pose proof (field_of v g1 Hg1 Hv) as Hf.
  pose proof (load_mpi_holds b3 mhd c ly2 g2 tp2 Hg2 Ht2 f r2 junk' m' _ _ _ _ v Hh Hr2 HF2 I2 Hf) as L.
  rewrite !F0, !S0 in L. unfold first_z in L. rewrite FF in L.
  assert (E1 : forall g b, gw g + (b - gw g) = b) by (intros; lia). rewrite !E1 in L.
  replace (kz b3 (gw g2 + (if b3 then k2 - gw g2 else 0))) with k2 in L
    by (unfold interior in Hi2; unfold kz; destruct b3; lia).
  unfold global_index. unfold rx, ry, rz in L. destruct (coords tp2 r2) as [[a2 b2] c2]. rewrite L. f_equal. unfold kz. destruct b3; lia.
Qed.

Lemma parallel_writer_serial_reader c ly1 g1 tp1 ly2 g2 fill (m junk : nat -> buf T) iStep (t : TT) f r1 junk' m' i1 j1 k1 v :
  io_grid b3 mhd g1 -> io_topo b3 tp1 -> io_grid b3 mhd g2 ->
  nx g1 * mx tp1 = nx g2 -> ny g1 * my tp1 = ny g2 -> (b3 = true -> nz g1 * mz tp1 = nz g2) ->
  withGhosts c = false -> reassembleInFile c = true -> halfResolution c = false ->
  save_mpi b3 mhd c ly1 g1 tp1 fill m junk iStep t f ->
  (r1 < nprocs tp1)%nat -> interior b3 g1 i1 j1 k1 -> 0 <= v < nbvar g1 ->
  let '(x, y, z) := global_index tp1 g1 r1 i1 j1 k1 in
  elem b3 ly2 g2 (fst (fst (load b3 mhd c ly2 g2 f junk' m'))) (gw g2 + x) (gw g2 + y) (if b3 then gw g2 + z else 0) v
  = elem b3 ly1 g1 (m r1) i1 j1 k1 v.
Proof.
  intros Hg1 Ht1 Hg2 Nx Ny Nz Hw Hre Hh HS Hr1 Hi1 Hv.
  assert (Ha : allghostIncluded c = false /\ ghostIncluded c = false)
    by (unfold withGhosts in Hw; destruct (ghostIncluded c), (allghostIncluded c); try discriminate; auto).
  destruct Ha as (Ha & Hgi).
  assert (HA : agree c ly1 g1 tp1 m) by (apply agree_disjoint; auto; congruence).
  pose proof (mpi_file c ly1 g1 tp1 Hg1 Ht1 _ _ _ _ _ _ Hre HA HS) as HF.
  assert (F0 : forall g, firstm c g = gw g) by (intros; unfold firstm; rewrite Hw; reflexivity).
  assert (S0 : forall g n, stride_ c g n = n) by (intros; unfold stride_; rewrite Ha; reflexivity).
  assert (C0 : forall g n, chunk c g n = n) by (intros; unfold chunk; rewrite Hw; reflexivity).
  assert (FD : forall g n m, fdim c g n m = n * m) by (intros; unfold fdim; rewrite S0, C0; ring).
  assert (E0 : forall g n, extent c g n = n) by (intros; unfold extent; rewrite Hgi; reflexivity).
  assert (FF : first_ c g2 = gw g2) by (unfold first_; rewrite Hgi; reflexivity).
  assert (HF2 : file_holds b3 mhd (extent c g2 (nx g2)) (extent c g2 (ny g2)) (extent c g2 (nz g2)) (Gown c ly1 g1 tp1 m) f).
  { rewrite !FD in HF. rewrite Nx, Ny in HF. rewrite !E0. destruct b3; [rewrite (Nz eq_refl) in HF; exact HF|exact HF]. }
  assert (I1 : in3 b3 (chunk c g1 (nx g1)) (chunk c g1 (ny g1)) (chunk c g1 (nz g1)) (i1 - gw g1) (j1 - gw g1) (if b3 then k1 - gw g1 else 0)).
  { unfold in3. rewrite !C0. unfold interior in Hi1. destruct b3; lia. }
  pose proof (field_of v g1 Hg1 Hv) as Hf.
  pose proof (Gown_piece c ly1 g1 tp1 Hg1 Ht1 m r1 _ _ _ v HA Hr1 Hf I1) as P.
  destruct (coords_range tp1 (topo_ok_io tp1 Ht1) r1 Hr1) as (Rx & Ry & Rz). pose proof (rz_2d tp1 Ht1 r1) as R2.
  unfold rx, ry, rz in *. unfold global_index. destruct (coords tp1 r1) as [[a1 b1] c1].
  set (X := a1 * nx g1 + (i1 - gw g1)). set (Y := b1 * ny g1 + (j1 - gw g1)). set (W := c1 * nz g1 + (k1 - gw g1)).
  assert (I2 : in3 b3 (extent c g2 (nx g2)) (extent c g2 (ny g2)) (extent c g2 (nz g2)) X Y (if b3 then W else 0)).
  { unfold in3. rewrite !E0. unfold interior in Hi1. unfold X, Y, W. rewrite <- Nx, <- Ny.
    destruct Hg1 as (? & ? & H3 & _). split; [nia|split; [nia|]]. destruct b3; [|reflexivity]. rewrite <- (Nz eq_refl). specialize (H3 eq_refl). nia. }
  pose proof (load_holds b3 mhd c ly2 g2 f junk' m' _ _ _ _ v Hg2 Hh HF2 I2 Hf) as L.
  unfold first_z in L. rewrite FF in L. rewrite !F0, !S0 in P.
  assert (E1 : forall g b, gw g + (b - gw g) = b) by (intros; lia). rewrite !E1 in P.
  replace (kz b3 (gw g1 + (if b3 then k1 - gw g1 else 0))) with k1 in P
    by (unfold interior in Hi1; unfold kz; destruct b3; lia).
  rewrite P. replace (if b3 then gw g2 + W else 0) with ((if b3 then gw g2 else 0) + (if b3 then W else 0)) by (destruct b3; lia).
  rewrite L. fold X Y. f_equal. unfold kz, W. destruct b3; lia.
Qed.
End Round.
