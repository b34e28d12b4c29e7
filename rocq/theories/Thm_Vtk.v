(** Theorems about VTK files: C52.  Specification: VtkSpec.v. *)
From Coq Require Import ZArith List Bool String Lia.
From Verif Require Import Par ParProofs GridModel MpiModel MpiSpec MpiTopo IoModel IoSpec VtkModel VtkSpec VtkProofs.
Import ListNotations.
Open Scope Z_scope.

(** ** C52: a VTK file lists every interior cell of every variable exactly once, x fastest *)
(** ASCII files: one array per variable, under its name, with nx ny (nz) values, the value of
    interior cell (i,j,k) at position i + nx*(j + ny*k). *)
Theorem C52_ascii : forall (T : Type) b3 g (U : Z -> Z -> Z -> Z -> T) v, vtk_grid b3 g -> 0 <= v < nbvar g ->
  exists values, at_ (ascii_arrays b3 g U) v = Some (variables_names v, values) /\
    Z.of_nat (List.length values) = nx g * ny g * layers b3 g /\
    forall i j k, 0 <= i < nx g -> 0 <= j < ny g -> 0 <= k < layers b3 g ->
      at_ values (i + nx g * (j + ny g * k)) = Some (U (gw g + i) (gw g + j) (if b3 then gw g + k else 0) v).
Proof.
  intros T b3 g U v (Hx & Hy & Hz & Hw & Hn) Hv. exists (ascii_values b3 g U v).
  rewrite (ascii_binary b3 g Hx Hy Hz Hw U v). split; [|split].
  - unfold ascii_arrays. rewrite at_map, at_zrange by lia. cbn [option_map]. rewrite Z.add_0_l, (ascii_binary b3 g Hx Hy Hz Hw U v). reflexivity.
  - apply binary_length; auto.
  - intros. apply binary_at; auto.
Qed.
Print Assumptions C52_ascii.

(** Binary files: the bytes at the announced offset are the size of the block followed by the
    values in the same order, and nothing else is written.  [enc], [enc64] are the bytes of a
    real_t and of a uint64_t in memory (native byte order). *)
Theorem C52_binary : forall (T byte : Type) b3 g (U : Z -> Z -> Z -> Z -> T) s (enc : T -> list byte) enc64 v data o,
  vtk_grid b3 g -> 0 < s -> (forall x, Z.of_nat (List.length (enc x)) = s) -> (forall n, Z.of_nat (List.length (enc64 n)) = 8) ->
  0 <= v < nbvar g -> at_ (binary_header b3 g s) v = Some (variables_names v, Some o) ->
  appended_data b3 g U byte s enc enc64 = Some data ->
  Z.of_nat (List.length data) = nbvar g * (8 + nx g * ny g * layers b3 g * s) /\
  (forall b, 0 <= b < 8 -> at_ data (o + b) = at_ (enc64 (nx g * ny g * layers b3 g * s)) b) /\
  (forall i j k b, 0 <= i < nx g -> 0 <= j < ny g -> 0 <= k < layers b3 g -> 0 <= b < s ->
     at_ data (o + 8 + s * (i + nx g * (j + ny g * k)) + b) = at_ (enc (U (gw g + i) (gw g + j) (if b3 then gw g + k else 0) v)) b).
Proof.
  intros T byte b3 g U s enc enc64 v data o (Hx & Hy & Hz & Hw & Hn) Hs He H8 Hv Ho HD.
  unfold binary_header in Ho. rewrite at_map, at_zrange in Ho by lia. cbn [option_map] in Ho. rewrite Z.add_0_l in Ho.
  injection Ho as Ho. apply (offset_value b3 g Hz) in Ho.
  pose proof (nzf_pos b3 g Hz) as HL. assert (P : 0 < nx g * ny g * layers b3 g) by nia. assert (P' : 0 < nx g * ny g * layers b3 g * s) by nia.
  split; [|split].
  - eapply appended_length; eauto.
  - intros b Hb. rewrite Ho. rewrite (appended_block b3 g Hx Hy Hz U byte s enc enc64 Hs He H8 data v _ HD Hv) by lia. apply header_bytes; auto.
  - intros i j k b Hi Hj Hk Hb. rewrite Ho.
    assert (I0 : 0 <= i + nx g * (j + ny g * k) < nx g * ny g * layers b3 g).
    { assert (0 <= j + ny g * k < ny g * layers b3 g) by nia. nia. }
    replace (v * (8 + nx g * ny g * layers b3 g * s) + 8 + s * (i + nx g * (j + ny g * k)) + b)
      with (v * (8 + nx g * ny g * layers b3 g * s) + (8 + (s * (i + nx g * (j + ny g * k)) + b))) by ring.
    rewrite (appended_block b3 g Hx Hy Hz U byte s enc enc64 Hs He H8 data v _ HD Hv) by nia. apply value_bytes; auto.
Qed.
Print Assumptions C52_binary.

(** No arithmetic overflow happens while the header is written if the number of values of all
    variables but one fits an int. *)
Theorem C52_no_overflow : forall (T byte : Type) b3 g (U : Z -> Z -> Z -> Z -> T) s (enc : T -> list byte) enc64,
  vtk_grid b3 g -> (nbvar g - 1) * (nx g * ny g * layers b3 g) <= int_max -> nx g * ny g * layers b3 g <= int_max ->
  (exists data, appended_data b3 g U byte s enc enc64 = Some data) /\
  forall v, 0 <= v < nbvar g -> at_ (binary_header b3 g s) v = Some (variables_names v, Some (v * (8 + nx g * ny g * layers b3 g * s))).
Proof.
  intros T byte b3 g U s enc enc64 (Hx & Hy & Hz & Hw & Hn) H1 H2. pose proof (nzf_pos b3 g Hz) as HL.
  assert (P : 0 < nx g * ny g * layers b3 g) by nia. split.
  - unfold appended_data. rewrite words_defined by auto. eauto.
  - intros v Hv. unfold binary_header. rewrite at_map, at_zrange by lia. cbn [option_map]. rewrite Z.add_0_l.
    rewrite offset_defined; auto; [lia|]. nia.
Qed.
Print Assumptions C52_no_overflow.

(** The bound is real: a run with 1024^3 cells (8 GB per variable in double precision) overflows
    an int while the offset of the third variable is computed. *)
Theorem C52_offset_overflow_refuted : exists g s, vtk_grid true g /\ nx g * ny g * nz g <= int_max /\
  at_ (binary_header true g s) 2 = Some (variables_names 2, None).
Proof. exists (Grid 1024 1024 1024 2 5 (fun _ => 3)), 8. split; [repeat split; cbn; lia|]. split; [unfold int_max; cbn; lia|reflexivity]. Qed.
Print Assumptions C52_offset_overflow_refuted.

(** Parallel 3D files: the extents announced in the header file are those written in the piece
    files, and every cell of the domain is in exactly one piece. *)
Theorem C52_pieces : forall g tp, vtk_grid true g -> topo_ok tp ->
  (forall r, pvti_piece true g tp r = vti_extent_mpi true g tp r) /\
  forall X Y W, covers (pvti_whole true g tp) X Y W ->
    exists r, (r < nprocs tp)%nat /\ covers (pvti_piece true g tp r) X Y W /\
      forall r', (r' < nprocs tp)%nat -> covers (pvti_piece true g tp r') X Y W -> r' = r.
Proof.
  intros g tp (Hx & Hy & Hz & Hw & Hn) Htp. specialize (Hz eq_refl).
  assert (E : forall r, pvti_piece true g tp r = vti_extent_mpi true g tp r).
  { intros r. unfold pvti_piece, vti_extent_mpi. destruct (coords tp r) as [[cx cy] cz].
    assert (S : forall c n, (if c =? 0 then (0, n) else (c * n, c * n + n)) = (c * n, c * n + n)).
    { intros c n. destruct (Z.eqb_spec c 0) as [->|]; reflexivity. }
    rewrite !S. reflexivity. }
  split; [exact E|]. intros X Y W (CX & CY & CW).
  assert (Q : forall n m q, 0 < n -> 0 <= q < m * n -> 0 <= q / n < m /\ q / n * n <= q < q / n * n + n).
  { intros n m q H0 H1. pose proof (Z.div_mod q n ltac:(lia)). pose proof (Z.mod_pos_bound q n H0).
    split; [split; [apply Z.div_pos; lia|apply Z.div_lt_upper_bound; lia]|lia]. }
  destruct (Q _ _ _ Hx CX) as (QX & QX'). destruct (Q _ _ _ Hy CY) as (QY & QY'). destruct (Q _ _ _ Hz CW) as (QW & QW').
  exists (cart_rank tp (X / nx g, Y / ny g, W / nz g)). split; [apply cart_rank_lt; auto|].
  destruct (coords_rank_in tp Htp _ _ _ QX QY QW) as (E1 & E2 & E3).
  split.
  - rewrite E. unfold vti_extent_mpi, covers. unfold rx, ry, rz in *. destruct (coords tp _) as [[cx cy] cz]. subst. auto.
  - intros r' Hr' HC. rewrite E in HC. unfold vti_extent_mpi, covers in HC.
    rewrite <- (rank_of_coords tp Htp r' Hr'). unfold rx, ry, rz. destruct (coords tp r') as [[cx cy] cz].
    destruct HC as (H1 & H2 & H3).
    assert (U : forall n q c, 0 < n -> c * n <= q < c * n + n -> c = q / n).
    { intros n q c Hn0 Hq. apply (Z.div_unique_pos q n c (q - c * n)); lia. }
    rewrite (U _ _ _ Hx H1), (U _ _ _ Hy H2), (U _ _ _ Hz H3). reflexivity.
Qed.
Print Assumptions C52_pieces.

(** In 2D the header announces pieces one cell thick in z, whereas the piece files and the
    whole extent are flat. *)
Theorem C52_pieces2_refuted : forall g tp r, pvti_piece false g tp r <> vti_extent_mpi false g tp r /\
  snd (pvti_piece false g tp r) = (0, 1) /\ snd (pvti_whole false g tp) = (0, 0).
Proof. intros g tp r. unfold pvti_piece, vti_extent_mpi. destruct (coords tp r) as [[cx cy] cz]. repeat split. intros E. injection E. discriminate. Qed.
Print Assumptions C52_pieces2_refuted.

(** The hypotheses are met: a 3 x 2 x 2 grid with ghost width 2, values encoded as 8 bytes. *)
Example C52_example : vtk_grid true (Grid 3 2 2 2 5 (fun _ => 3)) /\ topo_ok (Topo 2 1 2) /\
  ascii_values true (Grid 3 2 2 2 5 (fun _ => 3)) (fun i j k v => 1000 * k + 100 * j + 10 * i + v) 1
  = [2221; 2231; 2241; 2321; 2331; 2341; 3221; 3231; 3241; 3321; 3331; 3341] /\
  offset_of true (Grid 3 2 2 2 5 (fun _ => 3)) 8 1 = Some 104 /\
  covers (pvti_whole true (Grid 3 2 2 2 5 (fun _ => 3)) (Topo 2 1 2)) 5 1 3.
Proof. repeat split; try (cbn; lia); reflexivity. Qed.
