(** The distributed iteration as a program: matched communication, existence of
    executions; boundary codes that are not in the parameter file format. *)
From Coq Require Import ZArith QArith List Bool Lia Permutation.
From Verif Require Import Arith Par ParProofs GridModel BoundaryModel BoundarySpec BoundaryProofs
  HydroState RiemannModel HydroPoint HydroKernels CellKernels ReduceModel DtProofs LoopModel
  SpmdModel SpmdSpec SpmdProofs MpiModel MpiSpec MpiTopo MpiCopy MpiExchange MpiFill.
Import ListNotations.
Open Scope Z_scope.

(** ** Matched and productive *)
Section Live.
Context {T : Type} {A : Arith T}.
Variable tp : topo.
Variable g : grid.
Variable ly : layout.
Variable lowest : T.
Variable p : hparams T.
Variable ge : bool.
Variable impl : Z.
Variable c : lconf T.
Hypothesis Htp : topo_ok tp.
Notation P := (nprocs tp).

Lemma combined_total (l : list T) : l <> [] -> exists y, combined l y.
Proof.
  induction l as [|x l IH]; [congruence|]. intros _. destruct l as [|y l]; [exists x; constructor|].
  destruct IH as (z & Hz); [discriminate|]. exists (min_of x z). apply (comb_two [x] (y :: l)); [constructor|exact Hz].
Qed.
Lemma dt_matched d3 o : In o (compute_dt_mpi g lowest p ge c d3) -> matched P o.
Proof. intros [<-|[<-|[<-|[<-|[]]]]]; exact I. Qed.
Lemma dt_productive d3 o : In o (compute_dt_mpi g lowest p ge c d3) -> productive P o.
Proof.
  intros [<-|[<-|[<-|[<-|[]]]]]; cbn [productive barrier allreduce_min].
  - intros r s _. destruct d3.
    + eexists. eexists. split; [|reflexivity]. eexists. split; [eexists; split; [apply Permutation_refl|apply partial_seq]|reflexivity].
    + eexists. eexists. split; [|reflexivity]. eexists. split; [eexists; split; [apply Permutation_refl|apply partial_seq]|reflexivity].
  - intros ms _. eexists. reflexivity.
  - intros ms _. destruct (numbers_of ms) as [|x l] eqn:E.
    + exists (MNum zero), [], zero. split; [constructor|]. auto.
    + destruct (combined_total (x :: l)) as (y & Hy); [discriminate|]. exists (MNum y), (x :: l), y. split; [apply Permutation_refl|]. auto.
  - intros r s _. eexists. reflexivity.
Qed.

Lemma iteration_matched d3 o : In o (next_iteration_mpi tp g ly lowest p ge impl c d3) -> matched P o.
Proof.
  intros H. apply in_app_or in H. destruct H as [H|H]; [eapply dt_matched; eauto|].
  apply in_app_or in H. destruct H as [H|H].
  - destruct d3; [eapply boundaries3_matched|eapply boundaries2_matched]; eauto.
  - destruct H as [<-|[]]. exact I.
Qed.
Lemma iteration_productive d3 o : In o (next_iteration_mpi tp g ly lowest p ge impl c d3) -> productive P o.
Proof.
  intros H. apply in_app_or in H. destruct H as [H|H]; [eapply dt_productive; eauto|].
  apply in_app_or in H. destruct H as [H|H].
  - destruct d3; [eapply boundaries3_productive|eapply boundaries2_productive]; eauto.
  - destruct H as [<-|[]]. intros r s _. destruct d3; eexists; exists (fun _ _ => HS zero zero zero zero zero); (eexists; split; [apply run_kernels_seq|reflexivity]).
Qed.
Lemma iterations_matched d3 n o : In o (iterations_mpi tp g ly lowest p ge impl c d3 n) -> matched P o.
Proof.
  unfold iterations_mpi. induction n as [|n IH]; cbn [repeat concat]; [intros []|].
  intros H. apply in_app_or in H. destruct H as [H|H]; [eapply iteration_matched; eauto|auto].
Qed.
Lemma iterations_productive d3 n o : In o (iterations_mpi tp g ly lowest p ge impl c d3 n) -> productive P o.
Proof.
  unfold iterations_mpi. induction n as [|n IH]; cbn [repeat concat]; [intros []|].
  intros H. apply in_app_or in H. destruct H as [H|H]; [eapply iteration_productive; eauto|auto].
Qed.
End Live.

(** ** Lockstep executions exist *)
Lemma finite_choice {X} (P : nat) (d : nat -> X) (R : nat -> X -> Prop) :
  (forall r, (r < P)%nat -> exists x, R r x) -> exists f, forall r, (r < P)%nat -> R r (f r).
Proof.
  intros H. assert (Q : forall n, (n <= P)%nat -> exists f, forall r, (r < n)%nat -> R r (f r)).
  { induction n as [|n IH]; intros Hn; [exists d; intros; lia|].
    destruct IH as (f & Hf); [lia|]. destruct (H n ltac:(lia)) as (x & Hx).
    exists (fun r => if Nat.eqb r n then x else f r). intros r Hr. destruct (Nat.eqb_spec r n) as [->|Hne]; auto. apply Hf. lia. }
  apply Q. lia.
Qed.
Lemma lockstep_total {S M} P (prg : list (op S M)) s : (forall o, In o prg -> productive P o) -> exists s', lockstep P prg s s'.
Proof.
  revert s. induction prg as [|o prg IH]; intros s H; [exists s; constructor|].
  assert (X : exists s1, together P o s s1).
  { specialize (H o (or_introl eq_refl)). destruct o as [f|dest source tag pay put|contrib red fin]; cbn [productive together] in *.
    - apply (finite_choice P s (fun r x => f r (s r) x)). intros r Hr. apply H. exact Hr.
    - eexists. intros r Hr. reflexivity.
    - destruct (H (map (fun r => contrib r (s r)) (List.seq 0 P))) as (x & Hx); [rewrite map_length, seq_length; reflexivity|].
      exists (fun r => fin r x (s r)). exists x. split; [exact Hx|]. reflexivity. }
  destruct X as (s1 & Hs1). destruct (IH s1) as (s' & Hs'); [intros o' Ho'; apply H; right; exact Ho'|].
  exists s'. econstructor; eauto.
Qed.

(** Executions exist. *)
Lemma execution_exists {S M} P (prg : list (op S M)) rv s :
  (forall o, In o prg -> matched P o) -> (forall o, In o prg -> productive P o) ->
  exists m c, steps P prg rv m (start s) c /\ completed P prg c.
Proof.
  intros Hm Hp. set (B := (P * (4 * length prg + 2) + length prg)%nat).
  assert (Q : forall k m c, (B - m <= k)%nat -> steps P prg rv m (start s) c -> exists m' c', steps P prg rv m' (start s) c' /\ completed P prg c').
  { induction k as [|k IH]; intros m c Hk Hc.
    - destruct (spmd_progress P prg Hm Hp rv m s c Hc) as [Hd|(c' & Hs)]; [eauto|].
      assert (Hc' : steps P prg rv (1 + m) (start s) c') by (econstructor; [exact Hc|apply step_eager; exact Hs]).
      pose proof (spmd_bound P prg rv Hm _ _ _ Hc') as HB. fold B in HB. lia.
    - destruct (spmd_progress P prg Hm Hp rv m s c Hc) as [Hd|(c' & Hs)]; [eauto|].
      apply (IH (1 + m)%nat c'); [lia|]. econstructor; [exact Hc|apply step_eager; exact Hs]. }
  apply (Q B 0%nat (start s)); [lia|constructor].
Qed.

(** ** Unknown boundary codes *)
Definition odd_grid : grid := Grid 4 4 1 2 4 (fun f => match f with FACE_XMIN | FACE_XMAX => 7 | _ => BC_NEUMANN end).
Definition odd_field (i j v : Z) : Q := inject_Z i.
Definition odd_start (r : nat) : pstate Q :=
  PS (fun l => odd_field (rx (Topo 2 1 1) r * 4 + li l) (lj l) (lv l)) 0%Q 0%Q 0%Q 0.

Lemma unknown_code_any s' :
  lockstep 2 (make_boundaries_mpi2d (Topo 2 1 1) odd_grid LayoutLeft false (fun _ => aU)) odd_start s' ->
  p_mem (s' 0%nat) (Loc aU 0 3 0 0) <> filled2d false (whole (Topo 2 1 1) odd_grid) odd_field 0 3 0.
Proof.
  assert (Htp : topo_ok (Topo 2 1 1)) by (repeat split; reflexivity).
  intros Hs'. apply lockstep_app in Hs'. destruct Hs' as (s1 & L1 & L2).
  assert (Hb : ~ is_buffer aU) by (intros ([] & [H|H]); discriminate).
  destruct (stage_raw (Topo 2 1 1) odd_grid LayoutLeft false false Htp ltac:(reflexivity) ltac:(cbn; lia) ltac:(cbn; lia) I
    XDIR 111 (fun _ => aU) aU odd_start s1 ltac:(repeat split; try discriminate) Hb ltac:(reflexivity) ltac:(reflexivity) L1 0%nat ltac:(cbn; lia)) as (_ & _ & V1).
  destruct (stage_raw (Topo 2 1 1) odd_grid LayoutLeft false false Htp ltac:(reflexivity) ltac:(cbn; lia) ltac:(cbn; lia) I
    YDIR 211 (fun _ => aU) aU s1 s' ltac:(repeat split; try discriminate) Hb ltac:(reflexivity) ltac:(reflexivity) L2 0%nat ltac:(cbn; lia)) as (_ & _ & V2).
  assert (C : in_arr odd_grid false (0, 3, 0)) by (cbn; lia).
  change (Loc aU 0 3 0 0) with (at_cell aU (0, 3, 0) 0).
  rewrite (V2 (0, 3, 0) 0 C ltac:(cbn; lia)). change (getc YDIR (0, 3, 0)) with 3. change (gw odd_grid) with 2.
  change (3 <? 2) with false. change (ndir odd_grid YDIR + 2 <=? 3) with false. cbv iota.
  rewrite (V1 (0, 3, 0) 0 C ltac:(cbn; lia)). vm_compute. discriminate.
Qed.
