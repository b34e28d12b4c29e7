(** Theorems about HDF5 result files: C53 and C72.  Specifications: IoSpec.v ([elem], [in_array],
    [interior], [global_index], [refined], [twice]) and IoFieldSpec.v ([face_div], [total]).
    [T] is the type of the values, [TT] that of the time attribute; both arbitrary, so the
    values read back are the very bit patterns written. *)
From Coq Require Import ZArith List Bool String Lia Reals Lra QArith.
From Verif Require Import Arith Par GridModel MpiModel MpiSpec HydroSpec IoModel IoSpec IoFieldSpec IoProofs IoFile IoMpi IoRound IoUpscale IoDiv IoOrder.
Import ListNotations.
Open Scope Z_scope.

(** ** C53: what is written is what is read back *)
(** Serial files: the step number, the time, and every value of the interior (of the whole
    array when ghost cells are included), whatever the memory layouts of the writing and of
    the reading program, and whatever was in the buffers before. *)
Theorem C53_roundtrip : forall (TT T : Type) (AT : Arith T) b3 mhd c ly1 ly2 g fill (m junk junk' m' : buf T) iStep (t : TT),
  io_grid b3 mhd g -> halfResolution c = false ->
  let r := load b3 mhd c ly2 g (save b3 mhd c ly1 g fill m junk iStep t) junk' m' in
  snd (fst r) = iStep /\ snd r = t /\
  forall i j k v, (if ghostIncluded c then in_array b3 g i j k else interior b3 g i j k) -> 0 <= v < nbvar g ->
    elem b3 ly2 g (fst (fst r)) i j k v = elem b3 ly1 g m i j k v.
Proof. intros. split; [reflexivity|split; [reflexivity|]]. intros. apply round_trip; auto. Qed.
Print Assumptions C53_roundtrip.

(** Parallel files, for every order in which the pieces of the processes reach the file. *)
Theorem C53_roundtrip_mpi : forall (TT T : Type) (AT : Arith T) b3 mhd c ly1 ly2 g tp fill (m junk : nat -> buf T) iStep (t : TT) f r junk' m',
  io_grid b3 mhd g -> io_topo b3 tp -> halfResolution c = false -> reassembleInFile c = true ->
  (allghostIncluded c = true \/ ghostIncluded c = false) ->
  save_mpi b3 mhd c ly1 g tp fill m junk iStep t f -> (r < nprocs tp)%nat ->
  let l := load_mpi b3 mhd c ly2 g tp f r junk' m' in
  snd (fst l) = iStep /\ snd l = t /\
  forall i j k v, (if allghostIncluded c then in_array b3 g i j k else interior b3 g i j k) -> 0 <= v < nbvar g ->
    elem b3 ly2 g (fst (fst l)) i j k v = elem b3 ly1 g (m r) i j k v.
Proof.
  intros TT T AT b3 mhd c ly1 ly2 g tp fill m junk iStep t f r junk' m' Hg Htp Hh Hre Hc HS Hr l.
  split; [apply HS|split; [apply HS|]]. intros i j k v Hin Hv.
  assert (W : withGhosts c = allghostIncluded c).
  { unfold withGhosts. destruct (ghostIncluded c), (allghostIncluded c); cbn; auto. destruct Hc; discriminate. }
  apply (round_trip_mpi b3 mhd c ly1 g tp Hg Htp ly2 fill m junk iStep t f r); auto.
  - apply agree_disjoint; auto.
  - rewrite W. exact Hin.
Qed.
Print Assumptions C53_roundtrip_mpi.

(** With one layer of ghost cells around the whole domain ([ghostIncluded]) the pieces overlap:
    the round trip holds if the ghost cells agree with the cells of the neighbours they image. *)
Theorem C53_roundtrip_halo : forall (TT T : Type) (AT : Arith T) b3 mhd c ly1 ly2 g tp fill (m junk : nat -> buf T) iStep (t : TT) f r junk' m',
  io_grid b3 mhd g -> io_topo b3 tp -> halfResolution c = false -> reassembleInFile c = true ->
  allghostIncluded c = false -> ghostIncluded c = true ->
  (forall r1 r2 i1 j1 k1 i2 j2 k2 v, (r1 < nprocs tp)%nat -> (r2 < nprocs tp)%nat -> 0 <= v < nbvar g ->
     in_array b3 g i1 j1 k1 -> in_array b3 g i2 j2 k2 -> global_index tp g r1 i1 j1 k1 = global_index tp g r2 i2 j2 k2 ->
     elem b3 ly1 g (m r1) i1 j1 k1 v = elem b3 ly1 g (m r2) i2 j2 k2 v) ->
  save_mpi b3 mhd c ly1 g tp fill m junk iStep t f -> (r < nprocs tp)%nat ->
  forall i j k v, in_array b3 g i j k -> 0 <= v < nbvar g ->
    elem b3 ly2 g (fst (fst (load_mpi b3 mhd c ly2 g tp f r junk' m'))) i j k v = elem b3 ly1 g (m r) i j k v.
Proof.
  intros TT T AT b3 mhd c ly1 ly2 g tp fill m junk iStep t f r junk' m' Hg Htp Hh Hre Ha Hgh HC HS Hr i j k v Hin Hv.
  apply (round_trip_mpi b3 mhd c ly1 g tp Hg Htp ly2 fill m junk iStep t f r); auto.
  - apply agree_halo; auto.
  - unfold withGhosts. rewrite Hgh. exact Hin.
Qed.
Print Assumptions C53_roundtrip_halo.

(** Ghost cells are refreshed at the beginning of a step, so at the time of an output they are
    those of the previous state.  Then a [ghostIncluded] file can lose interior values: here
    process 0 holds [a] everywhere and process 1 [b] (with [a] still in the former's ghosts and
    conversely), one outcome of the write makes process 0 read [b] back in one of its interior cells. *)
Theorem C53_roundtrip_halo_refuted : exists c g tp i j, io_grid false false g /\ io_topo false tp /\
  halfResolution c = false /\ reassembleInFile c = true /\ allghostIncluded c = false /\ ghostIncluded c = true /\
  interior false g i j 0 /\
  forall (T : Type) (AT : Arith T) (a b : T),
  let m (r : nat) : buf T := fun _ => if (r =? 0)%nat then a else b in
  exists f : h5file R T, save_mpi false false c LayoutLeft g tp a m m 0 0%R f /\
    elem false LayoutLeft g (m 0%nat) i j 0 ID = a /\
    elem false LayoutLeft g (fst (fst (load_mpi false false c LayoutLeft g tp f 0 (fun _ => a) (fun _ => a)))) i j 0 ID = b.
Proof.
  exists (IoConf true false true false), (Grid 2 1 1 1 4 (fun _ => 3)), (Topo 2 1 1), 2, 1.
  split; [repeat split; try (cbn; lia); discriminate|]. split; [repeat split; cbn; lia|].
  do 4 (split; [reflexivity|]). split; [repeat split; cbn; lia|].
  intros T AT a b m. eexists. split; [apply in_order_save|]. split; [reflexivity|]. vm_compute. reflexivity.
Qed.
Print Assumptions C53_roundtrip_halo_refuted.

(** A file without ghost cells does not depend on the decomposition: it may be read by another
    number of processes, in another arrangement. *)
Theorem C53_portable : forall (TT T : Type) (AT : Arith T) b3 mhd c ly1 g1 tp1 ly2 g2 tp2 fill (m junk : nat -> buf T) iStep (t : TT) f r1 r2 junk' m' i1 j1 k1 i2 j2 k2 v,
  io_grid b3 mhd g1 -> io_topo b3 tp1 -> io_grid b3 mhd g2 -> io_topo b3 tp2 ->
  nx g1 * mx tp1 = nx g2 * mx tp2 -> ny g1 * my tp1 = ny g2 * my tp2 -> (b3 = true -> nz g1 * mz tp1 = nz g2 * mz tp2) ->
  ghostIncluded c = false -> allghostIncluded c = false -> reassembleInFile c = true -> halfResolution c = false ->
  save_mpi b3 mhd c ly1 g1 tp1 fill m junk iStep t f ->
  (r1 < nprocs tp1)%nat -> (r2 < nprocs tp2)%nat -> interior b3 g1 i1 j1 k1 -> interior b3 g2 i2 j2 k2 ->
  global_index tp1 g1 r1 i1 j1 k1 = global_index tp2 g2 r2 i2 j2 k2 -> 0 <= v < nbvar g1 ->
  elem b3 ly2 g2 (fst (fst (load_mpi b3 mhd c ly2 g2 tp2 f r2 junk' m'))) i2 j2 k2 v = elem b3 ly1 g1 (m r1) i1 j1 k1 v.
Proof. intros. apply (portable b3 mhd c ly1 g1 tp1 ly2 g2 tp2 fill m junk iStep t f r1 r2); auto. unfold withGhosts. rewrite H6, H7. reflexivity. Qed.
Print Assumptions C53_portable.

(** The same between the serial and the parallel program, in both directions. *)
Theorem C53_serial_to_parallel : forall (TT T : Type) (AT : Arith T) b3 mhd c ly1 g1 ly2 g2 tp2 fill (m junk : buf T) iStep (t : TT) r junk' m' i j k v,
  io_grid b3 mhd g1 -> io_grid b3 mhd g2 -> io_topo b3 tp2 ->
  nx g1 = nx g2 * mx tp2 -> ny g1 = ny g2 * my tp2 -> (b3 = true -> nz g1 = nz g2 * mz tp2) ->
  ghostIncluded c = false -> allghostIncluded c = false -> halfResolution c = false ->
  (r < nprocs tp2)%nat -> interior b3 g2 i j k -> 0 <= v < nbvar g1 ->
  let '(x, y, z) := global_index tp2 g2 r i j k in
  elem b3 ly2 g2 (fst (fst (load_mpi b3 mhd c ly2 g2 tp2 (save b3 mhd c ly1 g1 fill m junk iStep t) r junk' m'))) i j k v
  = elem b3 ly1 g1 m (gw g1 + x) (gw g1 + y) (if b3 then gw g1 + z else 0) v.
Proof. intros. apply serial_writer_reader; auto. unfold withGhosts. rewrite H5, H6. reflexivity. Qed.
Print Assumptions C53_serial_to_parallel.

Theorem C53_parallel_to_serial : forall (TT T : Type) (AT : Arith T) b3 mhd c ly1 g1 tp1 ly2 g2 fill (m junk : nat -> buf T) iStep (t : TT) f r junk' m' i j k v,
  io_grid b3 mhd g1 -> io_topo b3 tp1 -> io_grid b3 mhd g2 ->
  nx g1 * mx tp1 = nx g2 -> ny g1 * my tp1 = ny g2 -> (b3 = true -> nz g1 * mz tp1 = nz g2) ->
  ghostIncluded c = false -> allghostIncluded c = false -> reassembleInFile c = true -> halfResolution c = false ->
  save_mpi b3 mhd c ly1 g1 tp1 fill m junk iStep t f ->
  (r < nprocs tp1)%nat -> interior b3 g1 i j k -> 0 <= v < nbvar g1 ->
  let '(x, y, z) := global_index tp1 g1 r i j k in
  elem b3 ly2 g2 (fst (fst (load b3 mhd c ly2 g2 f junk' m'))) (gw g2 + x) (gw g2 + y) (if b3 then gw g2 + z else 0) v
  = elem b3 ly1 g1 (m r) i j k v.
Proof. intros. apply (parallel_writer_serial_reader b3 mhd c ly1 g1 tp1 ly2 g2 fill m junk iStep t f r); auto. unfold withGhosts. rewrite H5, H6. reflexivity. Qed.
Print Assumptions C53_parallel_to_serial.

(** Files written with [reassembleInFile = false] cannot be restarted from with the same
    settings: the reader, which ignores the setting, asks for extents the file does not have. *)
Theorem C53_stacked_refuted : forall (TT T : Type) c ly g tp fill (m junk : nat -> buf T) iStep (t : TT) f r v ds,
  io_grid false false g -> io_topo false tp -> 2 <= mx tp ->
  halfResolution c = false -> reassembleInFile c = false -> ghostIncluded c = false -> allghostIncluded c = false ->
  save_mpi false false c ly g tp fill m junk iStep t f -> In v (fields false false) ->
  find_set (h_sets f) (variables_names v) = Some ds ->
  ds_dims ds <> sp_dims (load_file_mpi false c g tp r).
Proof.
  intros TT T c ly g tp fill m junk iStep t f r v ds Hg Htp Hm Hh Hre Hgi Ha HS Hv Hf.
  destruct HS as (_ & _ & Hn & Hs). destruct (In_nth_error _ _ Hv) as (n & En).
  assert (L : List.length (h_sets f) = List.length (fields false false)) by (rewrite <- (map_length fst), Hn, map_length; reflexivity).
  destruct (nth_error (h_sets f) n) as [nd|] eqn:Ed.
  2:{ apply nth_error_None in Ed. assert (n < List.length (fields false false))%nat by (apply nth_error_Some; congruence). lia. }
  assert (Hf' : find_set (h_sets f) (variables_names v) = Some (snd nd)).
  { apply (find_set_nth (h_sets f) (fields false false) variables_names n); auto; [|apply fields_NoDup].
    intros w Hw E. apply (name_inj false false); auto. } rewrite Hf in Hf'. injection Hf' as ->.
  destruct (Hs n v nd En Ed) as (l & _ & ->). cbn [ds_dims H5Dcreate].
  unfold save_file_mpi, load_file_mpi, stacked_file, piece_file, read_size, withGhosts. rewrite Hre, Ha, Hgi, Hh.
  destruct (coords tp r) as [[cx cy] cz]. cbn [sp_dims dims_of orb]. destruct Hg as (? & ? & _).
  intros E. injection E as E1 E2. nia.
Qed.
Print Assumptions C53_stacked_refuted.

(** The hypotheses are met. *)
Example C53_example : io_grid true true (Grid 4 6 8 3 8 (fun _ => 3)) /\ io_topo true (Topo 2 3 2) /\
  interior true (Grid 4 6 8 3 8 (fun _ => 3)) 3 8 10 /\
  (11 < nprocs (Topo 2 3 2))%nat /\ global_index (Topo 2 3 2) (Grid 4 6 8 3 8 (fun _ => 3)) 11 3 8 10 = (4, 17, 15) /\
  exists f : h5file R R, save_mpi true true (IoConf false false true false) LayoutRight (Grid 4 6 8 3 8 (fun _ => 3)) (Topo 2 3 2) 0%R
    (fun r n => IZR (Z.of_nat r + n)) (fun _ _ => 0%R) 7 1%R f.
Proof.
  repeat split; try (cbn; lia); try (intros; discriminate). eexists. apply in_order_save.
Qed.
Example C53_halo_example : exists m : nat -> buf R, forall r1 r2 i1 j1 k1 i2 j2 k2 v,
  (r1 < 2)%nat -> (r2 < 2)%nat ->
  in_array false (Grid 2 1 1 1 4 (fun _ => 3)) i1 j1 k1 -> in_array false (Grid 2 1 1 1 4 (fun _ => 3)) i2 j2 k2 -> 0 <= v < 4 ->
  global_index (Topo 2 1 1) (Grid 2 1 1 1 4 (fun _ => 3)) r1 i1 j1 k1 = global_index (Topo 2 1 1) (Grid 2 1 1 1 4 (fun _ => 3)) r2 i2 j2 k2 ->
  elem false LayoutLeft (Grid 2 1 1 1 4 (fun _ => 3)) (m r1) i1 j1 k1 v = elem false LayoutLeft (Grid 2 1 1 1 4 (fun _ => 3)) (m r2) i2 j2 k2 v.
Proof.
  exists (fun r n => IZR (2 * Z.of_nat r + n mod 4)). intros r1 r2 i1 j1 k1 i2 j2 k2 v H1 H2 (I1 & J1 & K1) (I2 & J2 & K2) Hv HG.
  assert (E : 2 * Z.of_nat r1 + i1 = 2 * Z.of_nat r2 + i2).
  { assert (R1 : r1 = 0%nat \/ r1 = 1%nat) by lia. assert (R2 : r2 = 0%nat \/ r2 = 1%nat) by lia.
    unfold global_index in HG.
    destruct R1 as [-> | ->], R2 as [-> | ->];
      rewrite ?(eq_refl : coords (Topo 2 1 1) 0%nat = (0, 0, 0)), ?(eq_refl : coords (Topo 2 1 1) 1%nat = (1, 0, 0)) in HG; cbn [nx ny nz gw] in HG; apply pair_equal_spec in HG; destruct HG as (HG & _); apply pair_equal_spec in HG; lia. }
  unfold elem, voff. change (isize (Grid 2 1 1 1 4 (fun _ => 3))) with 4 in *.
  replace (i1 + 4 * _) with (i1 + (j1 + jsize (Grid 2 1 1 1 4 (fun _ => 3)) * v) * 4) by ring.
  replace (i2 + 4 * _) with (i2 + (j2 + jsize (Grid 2 1 1 1 4 (fun _ => 3)) * v) * 4) by ring.
  rewrite !Z.mod_add by lia. rewrite !Z.mod_small by lia. f_equal. exact E.
Qed.

(** ** C72: restart at twice the resolution *)
(** From a file with ghost cells, the whole array read is the refinement of the array written:
    cell averages are repeated in the 4 (8) children, the magnetic field is repeated on the
    faces that refine a face of the parent and averaged on the new ones. *)
Theorem C72_refined : forall (TT T : Type) (AT : Arith T) b3 mhd c1 c2 ly1 ly2 gc g fill (m junk junk' m' : buf T) iStep (t : TT) i j k v,
  io_grid b3 mhd gc -> io_grid b3 mhd g -> twice b3 gc g -> 2 <= gw g ->
  ghostIncluded c1 = true -> ghostIncluded c2 = true -> halfResolution c2 = true ->
  in_array b3 g i j k -> 0 <= v < nbvar g ->
  elem b3 ly2 g (fst (fst (load b3 mhd c2 ly2 g (save b3 mhd c1 ly1 gc fill m junk iStep t) junk' m'))) i j k v
  = refined b3 g (elem b3 ly1 gc m) i j k v.
Proof.
  intros TT T AT b3 mhd c1 c2 ly1 ly2 gc g fill m junk junk' m' iStep t i j k v Hgc Hg Ht Hw H1 H2 Hh Hin Hv.
  pose proof (save_holds b3 mhd c1 ly1 gc fill m junk iStep t Hgc) as HF. destruct (Hsize gc) as (Si & Sj & Sk).
  assert (E : forall n, extent c1 gc n = n + 2 * gw gc) by (intros; unfold extent; rewrite H1; reflexivity).
  assert (F0 : first_ c1 gc = 0) by (unfold first_; rewrite H1; reflexivity).
  rewrite !E, <- Si, <- Sj, <- Sk in HF.
  rewrite (load_half b3 mhd c2 ly2 g gc _ junk' m' _ i j k v Hg Hgc Ht Hw Hh H2 HF Hin (field_of b3 mhd v g Hg Hv)).
  unfold refined, first_z. rewrite F0.
  assert (EK : forall n, (if b3 then 0 else 0) + n = n) by (intros; destruct b3; lia).
  rewrite !EK, !Z.add_0_l. reflexivity.
Qed.
Print Assumptions C72_refined.

(** In parallel (ghost cells of every process in the file). *)
Theorem C72_refined_mpi : forall (TT T : Type) (AT : Arith T) b3 mhd c1 c2 ly1 ly2 gc g tp fill (m junk : nat -> buf T) junk' m' iStep (t : TT) f r i j k v,
  io_grid b3 mhd gc -> io_grid b3 mhd g -> io_topo b3 tp -> twice b3 gc g -> 2 <= gw g ->
  allghostIncluded c1 = true -> allghostIncluded c2 = true -> reassembleInFile c1 = true -> halfResolution c2 = true ->
  save_mpi b3 mhd c1 ly1 gc tp fill m junk iStep t f -> (r < nprocs tp)%nat ->
  in_array b3 g i j k -> 0 <= v < nbvar g ->
  elem b3 ly2 g (fst (fst (load_mpi b3 mhd c2 ly2 g tp f r junk' m'))) i j k v = refined b3 g (elem b3 ly1 gc (m r)) i j k v.
Proof.
  intros TT T AT b3 mhd c1 c2 ly1 ly2 gc g tp fill m junk junk' m' iStep t f r i j k v Hgc Hg Htp Ht Hw H1 H2 Hre Hh HS Hr Hin Hv.
  assert (W : forall c, allghostIncluded c = true -> withGhosts c = true) by (intros c E; unfold withGhosts; rewrite E; apply orb_true_r).
  assert (HA : agree b3 mhd c1 ly1 gc tp m) by (apply agree_disjoint; auto; rewrite H1; auto).
  pose proof (mpi_file b3 mhd c1 ly1 gc tp Hgc Htp _ _ _ _ _ _ Hre HA HS) as HF.
  assert (E : forall n m, fdim c1 gc n m = fdim c2 gc n m) by (intros; unfold fdim, stride_, chunk; rewrite H1, H2, !W; auto).
  rewrite !E in HF.
  rewrite (load_mpi_half b3 mhd c2 ly2 g gc tp f r junk' m' _ i j k v Hg Hgc Htp Ht Hw Hh (W _ H2) Hr HF Hin (field_of b3 mhd v g Hg Hv)).
  assert (S0 : forall n, stride_ c2 gc n = stride_ c1 gc n) by (intros; unfold stride_; rewrite H1, H2; reflexivity). rewrite !S0.
  destruct (Hsize gc) as (Si & Sj & Sk).
  assert (P : forall i' j' k', in_array b3 gc i' j' k' ->
    Gown b3 c1 ly1 gc tp m (rx tp r * stride_ c1 gc (nx gc) + i') (ry tp r * stride_ c1 gc (ny gc) + j') (kz b3 (rz tp r * stride_ c1 gc (nz gc) + k')) v
    = elem b3 ly1 gc (m r) i' j' k' v).
  { intros i' j' k' Hin'. rewrite <- (Gown_piece b3 mhd c1 ly1 gc tp Hgc Htp m r i' j' k' v); auto.
    - unfold firstm. rewrite (W _ H1). rewrite !Z.add_0_l. f_equal. unfold kz. destruct Hin' as (_ & _ & K). destruct b3; lia.
    - apply (field_of b3 mhd v g Hg Hv).
    - unfold in3, chunk. rewrite (W _ H1), <- Si, <- Sj, <- Sk. exact Hin'. }
  destruct (Hsize g) as (Gi & Gj & Gk). destruct Ht as (Tx & Ty & Tz & Tw & _). destruct Hin as (Ii & Ij & Ik).
  assert (PR : forall n q, 0 <= q < 2 * n + 2 * gw g -> 0 < n -> 0 <= parent g q < n + 2 * gw gc /\ (Z.odd (q - gw g) = true -> parent g q + 1 < n + 2 * gw gc)).
  { intros n q Hq Hn. unfold parent. rewrite <- Tw. pose proof (Z.div_mod (q - gw g) 2 ltac:(lia)). pose proof (Z.mod_pos_bound (q - gw g) 2 ltac:(lia)). lia. }
  destruct Hgc as (Nx & Ny & Nz & _).
  destruct (PR (nx gc) i ltac:(lia) Nx) as (Px & Px'). destruct (PR (ny gc) j ltac:(lia) Ny) as (Py & Py').
  assert (Pz : b3 = true -> 0 <= parent g k < nz gc + 2 * gw gc /\ (Z.odd (k - gw g) = true -> parent g k + 1 < nz gc + 2 * gw gc)).
  { intros Hb. specialize (Nz Hb). specialize (Tz Hb). rewrite Hb in Ik. apply PR; auto. lia. }
  assert (Pk : (if b3 then 0 <= (if b3 then parent g k else 0) < ksize gc else (if b3 then parent g k else 0) = 0))
    by (rewrite Sk; destruct b3; [apply Pz; reflexivity|reflexivity]).
  unfold refined.
  destruct ((v =? IA) && Z.odd (i - gw g)) eqn:EA.
  { apply andb_prop in EA. destruct EA as (_ & EA). specialize (Px' EA). rewrite !P; [reflexivity| |]; repeat split; try lia; exact Pk. }
  destruct ((v =? IB) && Z.odd (j - gw g)) eqn:EB.
  { apply andb_prop in EB. destruct EB as (_ & EB). specialize (Py' EB). rewrite !P; [reflexivity| |]; repeat split; try lia; exact Pk. }
  destruct (b3 && (v =? IC) && Z.odd (k - gw g)) eqn:EC.
  { apply andb_prop in EC. destruct EC as (Eb & EC). apply andb_prop in Eb. destruct Eb as (Eb & _). destruct (Pz Eb) as (Pz1 & Pz2). specialize (Pz2 EC).
    rewrite Eb in *. rewrite !P; [reflexivity| |]; repeat split; lia. }
  apply P. repeat split; try lia; exact Pk.
Qed.
Print Assumptions C72_refined_mpi.

(** Over the reals: the discrete divergence of the magnetic field in a fine cell (spacings
    halved) is that of its parent in the array written, so a divergence-free field stays so ... *)
Theorem C72_divergence : forall (TT : Type) b3 c1 c2 ly1 ly2 gc g fill (m junk junk' m' : buf R) iStep (t : TT) hx hy hz i j k,
  io_grid b3 true gc -> io_grid b3 true g -> twice b3 gc g -> 2 <= gw g ->
  ghostIncluded c1 = true -> ghostIncluded c2 = true -> halfResolution c2 = true ->
  (0 < hx)%R -> (0 < hy)%R -> (0 < hz)%R -> interior b3 g i j k ->
  face_div b3 (hx / 2) (hy / 2) (hz / 2)
    (elem b3 ly2 g (fst (fst (load b3 true c2 ly2 g (save b3 true c1 ly1 gc fill m junk iStep t) junk' m')))) i j k
  = face_div b3 hx hy hz (elem b3 ly1 gc m) (parent g i) (parent g j) (if b3 then parent g k else 0).
Proof.
  intros TT b3 c1 c2 ly1 ly2 gc g fill m junk junk' m' iStep t hx hy hz i j k Hgc Hg Ht Hw H1 H2 Hh Hx Hy Hz Hin.
  rewrite <- refined_div by assumption.
  destruct (Hsize g) as (Si & Sj & Sk). pose proof Hg as (_ & _ & _ & _ & Ev). unfold interior in Hin.
  unfold face_div. destruct b3; cbv iota in Hin, Ev |- *; rewrite ?(C72_refined TT R RArith _ true c1 c2 ly1 ly2 gc g fill m junk junk' m' iStep t); auto;
    try (rewrite Ev; unfold IA, IB, IC; lia); try (unfold in_array; cbv iota; rewrite Si, Sj, ?Sk; lia); try reflexivity.
Qed.
Print Assumptions C72_divergence.

(** ... and mass, momentum and energy in the domain are those of the coarse state (the volume
    of a cell is divided by 4, resp. 8). *)
Theorem C72_totals : forall (TT : Type) b3 mhd c1 c2 ly1 ly2 gc g fill (m junk junk' m' : buf R) iStep (t : TT) v,
  io_grid b3 mhd gc -> io_grid b3 mhd g -> twice b3 gc g -> 2 <= gw g ->
  ghostIncluded c1 = true -> ghostIncluded c2 = true -> halfResolution c2 = true ->
  0 <= v < nbvar g -> v <> IA -> v <> IB -> v <> IC ->
  total b3 g (fun i j k => elem b3 ly2 g (fst (fst (load b3 mhd c2 ly2 g (save b3 mhd c1 ly1 gc fill m junk iStep t) junk' m'))) i j k v)
  = ((if b3 then 8 else 4) * total b3 gc (fun i j k => elem b3 ly1 gc m i j k v))%R.
Proof.
  intros TT b3 mhd c1 c2 ly1 ly2 gc g fill m junk junk' m' iStep t v Hgc Hg Ht Hw H1 H2 Hh Hv Na Nb Nc.
  pose proof Hgc as (Nx & Ny & Nz & _). rewrite <- (refined_total b3 gc g (elem b3 ly1 gc m) v Ht); auto; try lia.
  2:{ intros Hb. specialize (Nz Hb). lia. }
  destruct (Hsize g) as (Si & Sj & Sk).
  unfold total. apply HydroSums.sumZ_ext. intros i Hi. apply HydroSums.sumZ_ext. intros j Hj. destruct b3.
  - apply HydroSums.sumZ_ext. intros k Hk. apply C72_refined; auto. repeat split; lia.
  - apply C72_refined; auto. repeat split; lia.
Qed.
Print Assumptions C72_totals.

(** Without ghost cells in the file the last face of the refined magnetic field is an average
    with an element of the read buffer that was never set: the result depends on junk. *)
Theorem C72_no_ghosts_refuted : exists c gc g i j (m junk1 junk2 : buf Q), io_grid false true gc /\ io_grid false true g /\ twice false gc g /\
  ghostIncluded c = false /\ halfResolution c = true /\ interior false g i j 0 /\
  let f := save false true c LayoutLeft gc 0%Q m m 0 0%Q in
  ~ (elem false LayoutLeft g (fst (fst (load false true c LayoutLeft g f junk1 m))) i j 0 IA
     == elem false LayoutLeft g (fst (fst (load false true c LayoutLeft g f junk2 m))) i j 0 IA)%Q.
Proof.
  exists (IoConf false false true true), (Grid 1 1 1 3 8 (fun _ => 3)), (Grid 2 2 1 3 8 (fun _ => 3)), 4, 3, (fun _ => 0%Q), (fun _ => 0%Q), (fun _ => 1%Q).
  repeat split; try (cbn; lia); try discriminate.
Qed.
Print Assumptions C72_no_ghosts_refuted.

Example C72_example : io_grid true true (Grid 4 6 8 3 8 (fun _ => 3)) /\ io_grid true true (Grid 8 12 16 3 8 (fun _ => 3)) /\
  twice true (Grid 4 6 8 3 8 (fun _ => 3)) (Grid 8 12 16 3 8 (fun _ => 3)) /\ interior true (Grid 8 12 16 3 8 (fun _ => 3)) 10 14 18 /\
  parent (Grid 8 12 16 3 8 (fun _ => 3)) 10 = 6.
Proof. repeat split; cbn; lia. Qed.
