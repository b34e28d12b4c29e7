(** C89: the XDMF index describes the result files of the run. *)
From Coq Require Import ZArith QArith Bool String Ascii Lia DecimalString Decimal DecimalN List.
From Verif Require Import Arith Par GridModel MpiModel IoModel LoopModel LoopSpec LoopProofs XdmfModel Thm_Loop.
Import ListNotations.
Open Scope Z_scope.

(** ** Specification of paths: the components between slashes, without empty
    ones and ".", and whether the path starts at the root. *)
Definition keep (w : string) : list string :=
  if String.eqb w "" then [] else if String.eqb w "." then [] else [w].
Fixpoint components (w p : string) : list string :=
  match p with
  | EmptyString => keep w
  | String a r => if Ascii.eqb a "/" then keep w ++ components "" r else components (w ++ String a "")%string r
  end.
Definition absolute (p : string) : bool := match p with String a _ => Ascii.eqb a "/" | EmptyString => false end.
Definition same_path (p q : string) : Prop := absolute p = absolute q /\ components "" p = components "" q.

(** ** Names and sizes *)

(** Every entry lists exactly the datasets of a result file, in the order of the
    file, under their names and with their extents; one process. *)
Theorem C89_datasets : forall (TT T : Type) b3 mhd (c : ioconf) ly (g : grid) fill (m junk : buf T) iStep (t : TT) prefix n single e,
  In e (writeXdmf b3 mhd (xdmf_dims b3 c g) prefix n single) ->
  map (fun a => (at_set a, at_dims a)) (en_attrs e) =
    map (fun nd => (fst nd, ds_dims (snd nd))) (h_sets (save b3 mhd c ly g fill m junk iStep t)) /\
  Forall (fun a => at_name a = at_set a /\ at_dims a = en_dims e) (en_attrs e).
Proof.
  intros TT T b3 mhd c ly g fill m junk iStep t prefix n single e He.
  unfold writeXdmf in He. apply in_map_iff in He. destruct He as (i & <- & _). cbn [en_attrs en_dims]. split.
  - unfold save. cbn [h_sets]. rewrite !map_map.
    assert (E : forall vs m0, map (fun x : Z * buf T => (fst (variables_names (fst x),
        H5Dwrite (H5Dcreate fill (save_file b3 c g)) (save_memory b3 c g) (save_file b3 c g) (snd x)),
        ds_dims (snd (variables_names (fst x),
        H5Dwrite (H5Dcreate fill (save_file b3 c g)) (save_memory b3 c g) (save_file b3 c g) (snd x)))))
        (buffers b3 ly g m m0 vs) = map (fun v => (variables_names v, xdmf_dims b3 c g)) vs).
    { induction vs as [|v r IH]; intros m0; cbn [buffers map]; [reflexivity|]. f_equal; [|apply IH].
      cbn [fst snd ds_dims H5Dwrite H5Dcreate]. f_equal. unfold save_file, whole, xdmf_dims. cbn [sp_dims].
      destruct (ghostIncluded c); [reflexivity|]. rewrite !Z.add_0_r. reflexivity. }
    rewrite E. destruct b3, mhd; reflexivity.
  - unfold attributes. destruct b3, mhd; cbn [andb negb app]; repeat constructor.
Qed.
Print Assumptions C89_datasets.

(** The same for files written by several processes, for every combination of
    the output settings and in every order of the collective writes. *)
Theorem C89_datasets_mpi : forall (TT T : Type) b3 mhd (c : ioconf) ly (g : grid) tp fill (m junk : nat -> buf T) iStep (t : TT) f prefix n single e,
  save_mpi b3 mhd c ly g tp fill m junk iStep t f ->
  In e (writeXdmf b3 mhd (xdmf_dims_mpi b3 c g tp) prefix n single) ->
  map (fun a => (at_set a, at_dims a)) (en_attrs e) = map (fun nd => (fst nd, ds_dims (snd nd))) (h_sets f) /\
  Forall (fun a => at_name a = at_set a /\ at_dims a = en_dims e) (en_attrs e).
Proof.
  intros TT T b3 mhd c ly g tp fill m junk iStep t f prefix n single e (_ & _ & Hn & Hd) He.
  unfold writeXdmf in He. apply in_map_iff in He. destruct He as (i & <- & _). cbn [en_attrs en_dims]. split.
  - assert (D : sp_dims (save_file_mpi b3 c g tp 0) = xdmf_dims_mpi b3 c g tp).
    { unfold save_file_mpi, piece_file, stacked_file, withGhosts, xdmf_dims_mpi.
      destruct (coords tp 0) as [[cx cy] cz]. destruct c as [[] [] [] h], b3; cbn -[Z.mul Z.add];
        repeat (apply (f_equal2 (@cons Z)); [ring|]); reflexivity. }
    assert (E : map (fun nd => (fst nd, ds_dims (snd nd))) (h_sets f) =
                map (fun v => (variables_names v, xdmf_dims_mpi b3 c g tp)) (fields b3 mhd)).
    { assert (Hd' : forall n v nd, nth_error (fields b3 mhd) n = Some v -> nth_error (h_sets f) n = Some nd ->
                ds_dims (snd nd) = xdmf_dims_mpi b3 c g tp).
      { intros k v nd H1 H2. destruct (Hd k v nd H1 H2) as (l & _ & ->). cbn [ds_dims H5Dcreate]. exact D. }
      clear Hd. revert Hn Hd'. generalize (fields b3 mhd) as vs. generalize (h_sets f) as l.
      induction l as [|nd r IH]; intros [|v vs] Hn Hd; cbn in Hn; try discriminate; [reflexivity|].
      injection Hn as E1 E2. cbn [map]. f_equal.
      - rewrite E1. f_equal. exact (Hd 0%nat v nd eq_refl eq_refl).
      - apply IH; [exact E2|]. intros k v' nd' H1 H2. exact (Hd (S k) v' nd' H1 H2). }
    rewrite E. destruct b3, mhd; reflexivity.
  - unfold attributes. destruct b3, mhd; cbn [andb negb app]; repeat constructor.
Qed.
Print Assumptions C89_datasets_mpi.

(** ** The series *)

(** The index written at the end of a run (src/main.cpp:168-176): after the
    entries of earlier numbers, none in a run numbered from 0, it has one entry
    for every snapshot of the run, in the order in which they were written, and
    each refers to the file of its snapshot. *)
Theorem C89_series : forall (TT T : Type) (AT : Arith TT) (lc : lconf TT) dt_local godunov (s s' : sim TT T) b3 mhd dims prefix,
  written s = [] -> 0 <= m_times_saved s -> run lc dt_local godunov s s' ->
  exists earlier entries,
    writeXdmf b3 mhd dims prefix (m_times_saved s' - 1) false = earlier ++ entries /\
    Z.of_nat (length earlier) = m_times_saved s /\
    Forall2 (fun e sn => en_name e = baseName prefix (sn_num sn) /\
               Forall (fun a => at_file a = hdf5Filename prefix (sn_num sn)) (en_attrs e))
            entries (rev (written s')).
Proof.
  intros TT T AT lc dl gd s s' b3 mhd dims prefix Hw H0 [n s1 Hl Hf E].
  assert (H : numbered (m_times_saved s) s s').
  { subst s'. apply numbered_edge. eapply numbered_loop; eauto. apply numbered_edge. apply numbered_refl. }
  destruct H as (l & H1 & H2 & H3). rewrite Hw, app_nil_r in H1. subst l.
  set (en := fun iStep => Entry (baseName prefix iStep) iStep dims (attributes b3 mhd dims (hdf5Filename prefix iStep))).
  exists (map en (zrange 0 (m_times_saved s))), (map en (numbers (m_times_saved s) (length (written s')))).
  split; [|split].
  - unfold writeXdmf, xdmf_steps. fold en. rewrite <- map_app. f_equal. rewrite H2. unfold zrange, numbers.
    replace (Z.to_nat (m_times_saved s + Z.of_nat (length (written s')) - 1 + 1 - 0))
      with (Z.to_nat (m_times_saved s - 0) + length (written s'))%nat by lia.
    rewrite seq_app, map_app. f_equal.
    rewrite Nat.add_0_l. generalize (length (written s')) as L. intros L.
    replace (List.seq (Z.to_nat (m_times_saved s - 0)) L) with (map (fun k => (k + Z.to_nat (m_times_saved s - 0))%nat) (List.seq 0 L)).
    + rewrite !map_map. apply map_ext. intros k. lia.
    + induction L as [|L IH]; [reflexivity|]. rewrite !seq_S, map_app, IH. cbn. f_equal. f_equal. lia.
  - rewrite map_length. unfold zrange. rewrite map_length, seq_length. lia.
  - rewrite <- H3. clear H3. induction (rev (written s')) as [|sn r IH]; cbn [map]; constructor; auto. split; [reflexivity|].
    unfold en, attributes. cbn [en_attrs]. destruct b3, mhd; cbn [andb negb app]; repeat constructor.
Qed.
Print Assumptions C89_series.

(** ** File names *)

(** Two snapshots with different numbers never share a file: neither the file
    nor the entry of one replaces the other, however large the numbers are. *)
Theorem C89_names : forall dir prefix i j, 0 <= i -> 0 <= j ->
  hdf5FilenameFull dir prefix i = hdf5FilenameFull dir prefix j -> i = j.
Proof.
  assert (app_l : forall p a b : string, (p ++ a)%string = (p ++ b)%string -> a = b).
  { induction p as [|x p IH]; cbn; intros a b H; [exact H|]. injection H as H. auto. }
  assert (len : forall a b : string, String.length (a ++ b) = (String.length a + String.length b)%nat).
  { induction a as [|x a IH]; cbn; intros b; [reflexivity|]. rewrite IH. reflexivity. }
  assert (app_r : forall a b q : string, (a ++ q)%string = (b ++ q)%string -> a = b).
  { induction a as [|x a IH]; intros [|y b] q H; cbn in H.
    - reflexivity.
    - apply (f_equal String.length) in H. cbn in H. rewrite len in H. lia.
    - apply (f_equal String.length) in H. cbn in H. rewrite len in H. lia.
    - injection H as -> H. f_equal. eauto. }
  assert (val : forall n s, NilEmpty.uint_of_string (zeros n s) = option_map (Nat.iter n D0) (NilEmpty.uint_of_string s)).
  { induction n as [|n IH]; intros s; cbn [zeros]; [destruct (NilEmpty.uint_of_string s); reflexivity|].
    cbn [NilEmpty.uint_of_string]. rewrite IH. destruct (NilEmpty.uint_of_string s); reflexivity. }
  assert (lead : forall n d, N.of_uint (Nat.iter n D0 d) = N.of_uint d).
  { induction n as [|n IH]; intros d; [reflexivity|]. cbn [Nat.iter]. cbn. apply IH. }
  assert (dec : forall i, option_map N.of_uint (NilEmpty.uint_of_string (outNum i)) = Some (Z.to_N i)).
  { intros i. unfold outNum. rewrite val, NilEmpty.usu. cbn [option_map]. rewrite lead. f_equal. apply Unsigned.of_to. }
  intros dir prefix i j Hi Hj H. unfold hdf5FilenameFull, hdf5Filename, baseName in H.
  apply app_l, app_l, app_r, app_l, app_l in H.
  pose proof (dec i) as Di. rewrite H, dec in Di. injection Di as Di. lia.
Qed.
Print Assumptions C89_names.

Lemma components_app : forall d w n, components w (d ++ String "/" n) = components w d ++ components "" n.
Proof.
  induction d as [|a d IH]; intros w n; cbn [append components]; [reflexivity|].
  destruct (Ascii.eqb a "/"); rewrite IH; [rewrite app_assoc|]; reflexivity.
Qed.

(** The references are relative to the directory of the index, which is the
    working directory.  They name the files written when the output directory is
    a spelling of the working directory, such as the default "./". *)
Theorem C89_paths : forall dir prefix e a b3 mhd dims n single,
  dir <> ""%string -> absolute dir = false -> components "" dir = [] -> absolute prefix = false ->
  In e (writeXdmf b3 mhd dims prefix n single) -> In a (en_attrs e) ->
  same_path (at_file a) (hdf5FilenameFull dir prefix (en_time e)).
Proof.
  intros dir prefix e a b3 mhd dims n single Hd1 Hd2 Hd3 Hp He Ha.
  unfold writeXdmf in He. apply in_map_iff in He. destruct He as (i & <- & _). cbn [en_time].
  assert (F : at_file a = hdf5Filename prefix i).
  { cbn [en_attrs] in Ha. unfold attributes in Ha. destruct b3, mhd; cbn [andb negb app In] in Ha;
      repeat (destruct Ha as [Ha|Ha]; [subst a; reflexivity|]); destruct Ha. }
  rewrite F. split.
  - destruct dir as [|x d]; [contradiction|]. unfold hdf5FilenameFull, hdf5Filename, baseName.
    destruct prefix as [|y q]; cbn [absolute append] in *; [symmetry; exact Hd2|congruence].
  - unfold hdf5FilenameFull. change ("/" ++ hdf5Filename prefix i)%string with (String "/" (hdf5Filename prefix i)).
    rewrite components_app, Hd3. reflexivity.
Qed.
Print Assumptions C89_paths.

(** With any other output directory the references do not name the files
    written: the directory is left out (hdf5FilenameFull is computed but not
    used, IO_HDF5.cpp:168). *)
Theorem C89_directory_refuted : ~ forall dir prefix e a b3 mhd dims n single,
  In e (writeXdmf b3 mhd dims prefix n single) -> In a (en_attrs e) ->
  same_path (at_file a) (hdf5FilenameFull dir prefix (en_time e)).
Proof.
  intros H. destruct (H "data"%string "blast"%string _ (Attr "rho"%string [4; 4] "blast_0000000.h5"%string "rho"%string) false false [4; 4] 0 false (or_introl eq_refl)) as [_ E];
    [left; reflexivity|]. vm_compute in E. discriminate.
Qed.
Print Assumptions C89_directory_refuted.

(** The index of a single output lists two: the output asked for and the next. *)
Theorem C89_single_step_refuted : forall b3 mhd dims prefix n,
  map en_time (writeXdmf b3 mhd dims prefix n true) = [n; n + 1].
Proof.
  intros. unfold writeXdmf, xdmf_steps. rewrite map_map. cbn [en_time]. rewrite map_id. unfold zrange.
  replace (Z.to_nat (n + 1 + 1 - n)) with 2%nat by lia. cbn. f_equal. lia.
Qed.
Print Assumptions C89_single_step_refuted.

(** The time of an entry is the number of the output, not the time of the
    snapshot: a run to time 1 whose four outputs are at 0, 3/5, 9/10 and 1. *)
Theorem C89_time_refuted : exists (lc : lconf Q) dt_local godunov (s s' : sim Q Q),
  m_times_saved s = 0 /\ written s = [] /\ run lc dt_local godunov s s' /\
  map sn_time (rev (written s')) = [0; 3 # 5; 9 # 10; 1]%Q /\
  map en_time (writeXdmf false false [4; 4] "blast" (m_times_saved s' - 1) false) = [0; 1; 2; 3].
Proof.
  destruct C16_C18_constant_steps as (s' & Hr & _ & _ & Hn & Ht & _).
  exists steps_conf, steps_dt, steps_god, steps_start, s'.
  split; [reflexivity|]. split; [reflexivity|]. split; [exact Hr|].
  split; [rewrite map_rev; exact Ht|].
  destruct (C89_series _ _ _ steps_conf steps_dt steps_god steps_start s' false false [4; 4] "blast"%string eq_refl ltac:(cbn; lia) Hr)
    as (ea & en & E & L & F).
  assert (N : m_times_saved s' = 4).
  { apply (f_equal (@length _)) in E. rewrite app_length in E. unfold writeXdmf, xdmf_steps, zrange in E.
    rewrite !map_length, seq_length in E. assert (F' : length en = length (rev (written s'))) by (clear - F; induction F; cbn; congruence).
    rewrite F', rev_length in E.
    apply (f_equal (@length _)) in Hn. rewrite rev_length, map_length in Hn. cbn in Hn, L. lia. }
  rewrite N. reflexivity.
Qed.
Print Assumptions C89_time_refuted.

(** The default directory; a number that fills the seven places and one that
    does not fit. *)
Example C89_default_directory :
  ("./" <> "")%string /\ absolute "./" = false /\ components "" "./" = [] /\ absolute "output" = false /\
  hdf5FilenameFull "./" "output" 42 = ".//output_0000042.h5"%string /\
  hdf5FilenameFull "." "output" 9999999 = "./output_9999999.h5"%string /\
  hdf5FilenameFull "." "output" 10000000 = "./output_10000000.h5"%string.
Proof. repeat split; try reflexivity; discriminate. Qed.
Print Assumptions C89_default_directory.
(** Two entries of a 3D run on 2 x 1 x 2 processes, pieces stacked with ghosts. *)
Example C89_index :
  map (fun e => (en_name e, en_time e, en_dims e, map at_set (en_attrs e)))
      (writeXdmf true false (xdmf_dims_mpi true (IoConf true false false false) (Grid 4 6 8 2 5 (fun _ => 0)) (Topo 2 1 2)) "blast" 1 false) =
  [("blast_0000000", 0, [48; 10; 8], ["rho"; "energy"; "rho_vx"; "rho_vy"; "rho_vz"]);
   ("blast_0000001", 1, [48; 10; 8], ["rho"; "energy"; "rho_vx"; "rho_vy"; "rho_vz"])]%string.
Proof. reflexivity. Qed.
Print Assumptions C89_index.
