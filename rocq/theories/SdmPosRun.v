From Coq Require Import ZArith List Bool Lia.
From Verif Require Import Arith Par ParProofs GridModel HydroState HydroKernels CellKernels BoundaryProofs MoodKernels MoodProofs
  TaskModel TaskKernels SdmGeom SdmKernels SdmDofs SdmProofs SdmPos.
Import ListNotations.
Open Scope Z_scope.

Section Run.
Context {T : Type} {A : Arith T}.
Variable b3 : bool.
Variable P : points T.
Variable p : hparams T.
Variable big : T.
Variable g : grid.
Notation store := (store T).
Notation K := (local_keys b3 P).

Lemma eq_key_iff k k' : eq_key k k' = true <-> k = k'.
Proof.
  destruct k as [[[x y] z] v], k' as [[[x' y'] z'] v']. unfold eq_key. rewrite !andb_true_iff, !Z.eqb_eq. split.
  - intros (((-> & ->) & ->) & ->). reflexivity.
  - intros E. injection E as -> -> -> ->. auto.
Qed.
Lemma find_key (f : cell * Z -> T) l k : In k l ->
  find (fun e => eq_key k (fst e)) (combine l (map f l)) = Some (k, f k).
Proof.
  induction l as [|k0 l IH]; intros H; [contradiction|]. cbn [map combine find fst].
  destruct (eq_key k k0) eqn:E.
  - apply eq_key_iff in E. subst. reflexivity.
  - destruct H as [->|H]; [|apply IH; auto]. rewrite (proj2 (eq_key_iff k k) eq_refl) in E. discriminate.
Qed.
Lemma local_of_map (f : cell * Z -> T) q v : In q (dofs b3 P) -> In v (vars b3) -> local_of b3 P (map f K) q v = f (q, v).
Proof. intros Hq Hv. unfold local_of. rewrite find_key by (apply in_prod; auto). reflexivity. Qed.

Lemma NoDup_slocs a c : NoDup (map (fun k => sloc b3 P a c (fst k) (snd k)) K).
Proof.
  apply NoDup_map_in.
  - intros [q v] [q' v'] H H' E. apply in_prod_iff in H. apply in_prod_iff in H'. cbn [fst snd] in E.
    apply sloc_inj in E; try (apply In_dofs; tauto). destruct E as (_ & _ & -> & ->). auto.
  - apply NoDup_list_prod; [apply NoDup_box|apply NoDup_vars].
Qed.

(** After the loop, in any interleaving, the values of a cell are those of
    [positivity_cell] on the old values and averages. *)
Lemma positivity_run a (s s' : store) : a <> aAve -> par_exec s (apply_positivity b3 P p big g a) s' ->
  (forall c, In c (cells b3 g) -> exists V ave,
     (forall q v, In q (dofs b3 P) -> In v (vars b3) -> V q v = s (sloc b3 P a c q v)) /\
     (forall v, In v (vars b3) -> ave v = s (at_cell aAve c v)) /\
     (forall q v, In q (dofs b3 P) -> In v (vars b3) -> s' (sloc b3 P a c q v) = positivity_cell b3 P p big V ave q v)) /\
  (forall l, la l <> a -> s' l = s l).
Proof.
  intros Ha Hex. unfold apply_positivity in Hex.
  apply (tasks_spec (cells b3 g) (fun _ => [tt]) (positivity_task b3 P p big a)) in Hex.
  - destruct Hex as [H1 H2]. split.
    + intros c Hc.
      set (vs := map s (tr (positivity_task b3 P p big a c tt))).
      assert (E1 : firstn (Z.to_nat (nbv b3)) vs = map (fun v => s (at_cell aAve c v)) (vars b3)).
      { unfold vs, positivity_task. cbn [tr]. rewrite map_app, map_map. rewrite firstn_app.
        rewrite map_length. rewrite <- len_vars. rewrite Nat.sub_diag. cbn [firstn]. rewrite app_nil_r.
        apply firstn_all2. rewrite map_length, <- len_vars. lia. }
      assert (E2 : skipn (Z.to_nat (nbv b3)) vs = map (fun k => s (sloc b3 P a c (fst k) (snd k))) K).
      { unfold vs, positivity_task. cbn [tr]. rewrite map_app, !map_map. rewrite skipn_app.
        rewrite map_length. rewrite <- len_vars. rewrite Nat.sub_diag. cbn [skipn].
        rewrite skipn_all2 by (rewrite map_length, <- len_vars; lia). reflexivity. }
      exists (local_of b3 P (skipn (Z.to_nat (nbv b3)) vs)), (getl (firstn (Z.to_nat (nbv b3)) vs)).
      split; [|split].
      * intros q v Hq Hv. rewrite E2, local_of_map; auto.
      * intros v Hv. rewrite E1. unfold vars. rewrite getl_map by (apply In_vars in Hv; auto). reflexivity.
      * intros q v Hq Hv. apply (H1 c tt); auto. left; auto.
        unfold positivity_task at 1 2. cbn [tw tv]. fold vs.
        apply (In_combine_map (fun k => sloc b3 P a c (fst k) (snd k)) (fun k => positivity_cell b3 P p big _ _ (fst k) (snd k)) K (q, v)).
        apply in_prod; auto.
    + intros l Hl. apply H2. intros c k Hc _ Hin. unfold positivity_task in Hin. cbn [tw] in Hin.
      apply in_map_iff in Hin. destruct Hin as (k' & <- & _). rewrite la_sloc in Hl. auto.
  - apply NoDup_cellsD.
  - intros. repeat constructor. intros [].
  - intros. apply NoDup_slocs.
  - intros c [] c' [] l Hc _ Hc' _ Hl Hor. split; [|reflexivity]. unfold positivity_task in *. cbn [tw tr] in *.
    apply in_map_iff in Hl. destruct Hl as ([q v] & <- & _). cbn [fst snd] in *.
    assert (G : In (sloc b3 P a c q v) (map (fun k => sloc b3 P a c' (fst k) (snd k)) K)).
    { destruct Hor as [Hor|Hor]; [auto|]. apply in_app_or in Hor. destruct Hor as [Hor|Hor]; [|auto].
      apply in_map_iff in Hor. destruct Hor as (v' & E & _). exfalso. apply Ha. apply (f_equal la) in E. rewrite la_sloc in E.
      destruct c' as [[? ?] ?]. exact (eq_sym E). }
    apply in_map_iff in G. destruct G as (k' & E & _). apply (f_equal at_of) in E. rewrite !at_sloc in E. auto.
Qed.
End Run.
