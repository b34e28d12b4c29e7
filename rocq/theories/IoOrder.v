(** A parallel write always has an outcome: the processes one after the other. *)
From Coq Require Import ZArith List Bool String Permutation Lia.
From Verif Require Import Arith Par ParProofs GridModel MpiModel MpiSpec IoModel IoSpec.
Import ListNotations.
Open Scope Z_scope.

Section Order.
Context {TT T : Type}.

Definition in_order (b3 mhd : bool) (c : ioconf) (ly : layout) (g : grid) (tp : topo) (fill : T) (m junk : nat -> buf T) (iStep : Z) (t : TT) : h5file TT T :=
  H5 (map (fun nv => (variables_names (snd nv),
        DS (sp_dims (save_file_mpi b3 c g tp 0)) (assign (fun _ => fill) (List.concat
          (map (fun r => match nth_error (buffers b3 ly g (m r) (junk r) (fields b3 mhd)) (fst nv) with
                     | Some vd => write_list (H5Dcreate fill (save_file_mpi b3 c g tp r)) (save_memory_mpi b3 c g) (save_file_mpi b3 c g tp r) (snd vd)
                     | None => [] end) (List.seq 0 (nprocs tp)))))))
        (combine (List.seq 0 (List.length (fields b3 mhd))) (fields b3 mhd)))
     iStep t.

Lemma nth_combine_seq {A} (l : list A) n s v : nth_error (combine (List.seq s (List.length l)) l) n = Some v ->
  fst v = (s + n)%nat /\ nth_error l n = Some (snd v).
Proof.
  revert n s. induction l as [|a l IH]; intros [|n] s H; try discriminate.
  - cbn in H. injection H as <-. cbn. split; [lia|reflexivity].
  - cbn in H. apply IH in H. destruct H as (H1 & H2). split; [rewrite H1; lia|exact H2].
Qed.
Lemma map_snd_combine_seq {A} (l : list A) s : map snd (combine (List.seq s (List.length l)) l) = l.
Proof. revert s. induction l as [|a l IH]; intros s; cbn; [reflexivity|]. rewrite IH. reflexivity. Qed.

Lemma in_order_save b3 mhd c ly g tp fill m junk iStep t :
  save_mpi b3 mhd c ly g tp fill m junk iStep t (in_order b3 mhd c ly g tp fill m junk iStep t).
Proof.
  repeat split.
  - cbn [in_order h_sets]. rewrite map_map. cbn [fst]. rewrite <- (map_map snd variables_names), map_snd_combine_seq. reflexivity.
  - intros n v nd Hv Hnd. cbn [in_order h_sets] in Hnd. rewrite nth_error_map in Hnd.
    destruct (nth_error (combine _ _) n) as [nv|] eqn:E; [|discriminate]. cbn [option_map] in Hnd. injection Hnd as <-. cbn [snd].
    apply nth_combine_seq in E. destruct E as (E & _). cbn [Nat.add] in E. rewrite E.
    eexists. split; [apply Permutation_refl|]. reflexivity.
Qed.
End Order.
