(** C87: the result files of the spectral difference solver. *)
From Coq Require Import ZArith List Bool Reals String Lia Lra.
From Verif Require Import Arith Par ParProofs GridModel HydroState HydroKernels CellKernels MhdState MhdInit MoodKernels IoModel HydroInitSpec SdmGeom SdmKernels SdmInitSpec VtkSpec VtkProofs SdmPoints SdmVtk SdmVtkSpec SdmVtkProofs.
Import ListNotations.
Open Scope Z_scope.

(** For every solution point of every cell, the file has a cell, a box which contains that point
    and whose value, for every variable, is the one held there; the counts announced are those
    of the arrays. *)
Theorem C87_subcell : forall b3 P g h bx (s : store R), ordered_points P -> sized b3 g h ->
  let f := save_sdm b3 P g h bx s in
  vt_npoints f = Z.of_nat (List.length (vt_nodes f)) /\
  vt_ncells f = Z.of_nat (List.length (vt_offsets f)) /\ vt_ncells f = Z.of_nat (List.length (vt_types f)) /\
  (forall nv, In nv (vt_vars f) -> vt_ncells f = Z.of_nat (List.length (snd nv))) /\
  forall i j k q, in_range b3 P g (i, j, k) q ->
    let m := place b3 P g (i, j, k) q in
    0 <= m < vt_ncells f /\
    (exists b, cell_is b3 f m b /\ inner b3 b (dof_position P g h bx (gw g + i, gw g + j, gw g + k) q)) /\
    forall v, 0 <= v < (if b3 then 5 else 4) -> exists vals, at_ (vt_vars f) v = Some (variables_names v, vals) /\
      at_ vals m = Some (s (sloc b3 P aU (gw g + i, gw g + j, if b3 then gw g + k else 0) q v)).
Proof.
  intros b3 P g h bx s HP HS. cbn zeta. cbn [save_sdm vt_npoints vt_ncells vt_nodes vt_offsets vt_types vt_vars].
  split; [symmetry; eapply nodes_length; eassumption|]. split; [symmetry; eapply offsets_length; eassumption|].
  split; [symmetry; eapply types_length; eassumption|]. split.
  - intros nv H. apply in_map_iff in H. destruct H as [v [<- _]]. symmetry. eapply data_length; eassumption.
  - intros i j k q H. split; [eapply place_bounds; eassumption|]. split.
    + exists (sub_box P g h bx (i, j, k) q). split; [eapply cell_is_at; eassumption|].
      exact (point_inside b3 P g h bx HP HS (i, j, k) q H).
    + intros v Hv. exists (vdata b3 P g s v). split.
      * rewrite at_map. unfold nbNames. rewrite at_zrange by lia. reflexivity.
      * exact (data_at b3 P g h s HP HS (i, j, k) q v H).
Qed.
Print Assumptions C87_subcell.

(** The cells of the file tile the part of the domain of the process: every position is in
    exactly one of them. *)
Theorem C87_tiling : forall b3 P g h bx (s : store R) X, ordered_points P -> sized b3 g h ->
  let f := save_sdm b3 P g h bx s in
  within b3 (process_box g h bx) X ->
  exists m, (exists b, cell_is b3 f m b /\ within b3 b X) /\
    forall m' b', cell_is b3 f m' b' -> within b3 b' X -> m' = m.
Proof.
  intros b3 P g h bx s X HP HS. cbn zeta. intros H.
  destruct (in_process_find b3 P g h bx HP HS X H) as [c [q [Hr Hw]]].
  exists (place b3 P g c q). split.
  - exists (sub_box P g h bx c q). split; [eapply cell_is_at; eassumption|exact Hw].
  - intros m' b' H' Hw'. destruct (cell_is_inv b3 P g h bx s HP HS m' b' H') as [c' [q' [Hr' [-> E]]]].
    apply E in Hw'. destruct (sub_box_unique b3 P g h bx HP HS X c' q' c q Hr' Hr Hw' Hw) as [-> ->]. reflexivity.
Qed.
Print Assumptions C87_tiling.

(** The solution points of the scheme, of any order, meet the hypothesis of the theorems here. *)
Theorem C87_scheme_points : forall n, 1 <= n -> ordered_points (sdm_points n).
Proof.
  intros n Hn. split; [exact Hn|]. split.
  - intros a Ha. exact (sol_inside n a Ha).
  - intros a b Ha Hb. cbn in Hb |- *. apply (increasing_lt n (sol_ptsR n) (sol_increasing n)); lia.
Qed.
Print Assumptions C87_scheme_points.

(** In a binary file, the bytes of every array stand at the announced place, after their number. *)
Theorem C87_binary : forall b3 P g h bx (s : store R) (byte : Type) real_size encf encr (enc64 enc8 : Z -> list byte) n bytes,
  ordered_points P -> sized b3 g h ->
  encodes encf 4 -> encodes encr real_size -> encodes enc64 8 -> encodes enc8 1 ->
  at_ (file_arrays encf encr enc64 enc8 (save_sdm b3 P g h bx s)) n = Some bytes ->
  exists offset before after,
    at_ (announced b3 P g real_size) n = Some offset /\
    appended b3 P g h bx s byte real_size encf encr enc64 enc8
    = before ++ enc64 (Z.of_nat (List.length bytes)) ++ bytes ++ after /\
    Z.of_nat (List.length before) = offset.
Proof.
  intros b3 P g h bx s byte real_size encf encr enc64 enc8 n bytes HP HS Hf Hr H64 H8 H.
  unfold announced, appended.
  rewrite (increments_arrays b3 P g h bx s HP HS byte real_size encf encr enc64 enc8 Hf Hr H64 H8).
  rewrite (contents_arrays b3 P g h bx s HP HS byte real_size encf encr enc64 enc8 Hf Hr H64 H8).
  destruct (running_blocks byte enc64 H64 _ n bytes 0 H) as [off [pre [post [E1 [E2 E3]]]]].
  exists off, pre, post. split; [exact E1|]. split; [exact E2|lia].
Qed.
Print Assumptions C87_binary.

(** The index file of a distributed run names, in order, the files written by the processes. *)
Theorem C87_pieces : forall d7 d5 prefix nProcs step rank, 0 <= rank < nProcs ->
  at_ (pvtu_pieces d7 d5 prefix nProcs step) rank = Some (vtu_mpi d7 d5 prefix "" step rank) /\
  List.length (pvtu_pieces d7 d5 prefix nProcs step) = Z.to_nat nProcs.
Proof.
  intros d7 d5 prefix nProcs step rank H. unfold pvtu_pieces. split.
  - rewrite at_map, at_zrange by lia. reflexivity.
  - rewrite map_length, zrange_length. f_equal. lia.
Qed.
Print Assumptions C87_pieces.

(** A debug save gets a file of its own: true of the index file, false of the pieces it names,
    which replace those of the normal save of the same step. *)
Theorem C87_debug_name_refuted :
  ~ (forall d7 d5 prefix debug step rank, debug <> ""%string -> vtu_mpi d7 d5 prefix debug step rank <> vtu_mpi d7 d5 prefix "" step rank).
Proof. intros H. apply (H (fun _ => ""%string) (fun _ => ""%string) ""%string "x"%string 0 0); [discriminate|reflexivity]. Qed.
Print Assumptions C87_debug_name_refuted.

(** ** A case: two points along each direction, two cells by one. *)
Definition ex_points : points R := Points 2 (fun a => if a =? 0 then (1 / 4)%R else (3 / 4)%R) (fun _ => 0%R).
Definition ex_sized : hparams R := ( HParams R (14/10) 6 (1/1000) (1/1000) (1/1000) (1/1000) 1 (1/2) (1/2) 1 1 0%Z)%R.
Definition ex_vgrid : grid := Grid 2 1 1 1 4 (fun _ => 1).
Definition ex_vbox : MhdInit.box R := Box 0%R 1%R 0%R 1%R 0%R 1%R (fun _ => 0).
Lemma ex_points_ordered : ordered_points ex_points.
Proof.
  split; [cbn; lia|]. split.
  - intros a Ha. cbn. destruct (a =? 0); lra.
  - intros a b Ha Hb. cbn in Hb |- *. replace a with 0 by lia. replace b with 1 by lia. cbn. lra.
Qed.
Lemma ex_vsized : sized false ex_vgrid ex_sized.
Proof. unfold sized, ex_vgrid, ex_sized. cbn. repeat split; try lia; try lra; discriminate. Qed.
(** The file has eight cells; the sixth holds the value of the right point at the bottom of the second cell
    and lies around (7/8, 1/4). *)
Example ex_subcell : forall s, exists b, cell_is false (save_sdm false ex_points ex_vgrid ex_sized ex_vbox s) 5 b /\
  inner false b (Point (7/8) (1/4) (-1 * 1 + 1 / 4))%R /\ vt_ncells (save_sdm false ex_points ex_vgrid ex_sized ex_vbox s) = 8.
Proof.
  intros s. destruct (C87_subcell false ex_points ex_vgrid ex_sized ex_vbox s ex_points_ordered ex_vsized) as [_ [_ [_ [_ H]]]].
  destruct (H 1 0 0 (1, 0, 0)) as [_ [[b [Hb Hi]] _]]; [cbn; lia|].
  exists b. split; [exact Hb|]. split; [|reflexivity].
  destruct Hi as [H1 [H2 _]]. cbn in H1, H2. unfold inner. cbn [px py pz]. split; [lra|]. split; [lra|]. discriminate.
Qed.
Example ex_tiling : within false (process_box ex_vgrid ex_sized ex_vbox) (Point (1/2) (1/2) 0)%R.
Proof. unfold within, process_box. cbn. repeat split; try lra; discriminate. Qed.
Example ex_binary : forall s, at_ (announced false ex_points ex_vgrid 8) 4 = Some (8 + 4 * 18 * 3 + (8 + 8 * 8 * 4) + (8 + 8 * 8) + (8 + 8)) /\
  exists bytes, at_ (file_arrays (fun _ => repeat 0 4) (fun _ => repeat 0 8) (fun _ => repeat 0 8) (fun _ => repeat 0 1)
    (save_sdm false ex_points ex_vgrid ex_sized ex_vbox s)) 4 = Some bytes.
Proof. intros s. split; [vm_compute; reflexivity|]. eexists. reflexivity. Qed.
