(** Symbolic execution and footprint lemmas for the building blocks of the MHD
    loops. *)
From Coq Require Import ZArith List Bool Lia.
From Verif Require Import Arith Par ParProofs GridModel BoundaryProofs HydroState HydroKernels
  CellKernels HydroExec HydroSpec MhdState MhdRiemann MhdPoint MhdKernels2 MhdSpec.
Import ListNotations.
Open Scope Z_scope.
Open Scope prog_scope.

Ltac marrays := unfold arr_ok, aU, aU2, aQ, aFx, aFy, aFz, aSx, aSy, aSz, aG,
  aQmx, aQmy, aQmz, aQpx, aQpy, aQpz, aRT, aRB, aLT, aLB, aRT2, aRB2, aLT2, aLB2,
  aRT3, aRB3, aLT3, aLB3, aEmf, aEl, aSf, aQ2, aDA, aDB, aDC in *.

Section Exec.
Context {T : Type} {AT : Arith T}.
Notation store := (store T).

Lemma run_mload a i j k (s : store) : run (mload a i j k) s = (mst s a i j k, s).
Proof. reflexivity. Qed.
Lemma run_bload a i j k (s : store) :
  run (bload a i j k) s = ((mA (mst s a i j k), mB (mst s a i j k), mC (mst s a i j k)), s).
Proof. reflexivity. Qed.
Lemma exec_mload {B} a i j k (f : ms T -> prog T B) (s : store) :
  exec (bind (mload a i j k) f) s = exec (f (mst s a i j k)) s.
Proof. reflexivity. Qed.
Lemma exec_mput {B} a i j k q (f : unit -> prog T B) (s : store) :
  exec (bind (mput a i j k q) f) s = exec (f tt) (exec (mput a i j k q) s).
Proof. reflexivity. Qed.
Lemma exec_mput_eq a i j k q (s : store) :
  exec (mput a i j k q) s =
  upd (upd (upd (upd (upd (upd (upd (upd s (Loc a i j k ID) (mD q)) (Loc a i j k IP) (mP q))
   (Loc a i j k IU) (mU q)) (Loc a i j k IV) (mV q)) (Loc a i j k IW) (mW q))
   (Loc a i j k IA) (mA q)) (Loc a i j k IB) (mB q)) (Loc a i j k IC) (mC q).
Proof. reflexivity. Qed.

(** A gathering loop over pure reads. *)
Lemma run_gather {B} (f : Z -> prog T B) (v : Z -> B) dflt ds (s : store) :
  (forall d, In d ds -> run (f d) s = (v d, s)) ->
  exists r, run (gather f dflt ds) s = (r, s) /\ forall d, In d ds -> r d = v d.
Proof.
  induction ds as [|d ds IH]; intros H; cbn [gather].
  - eexists. split; [reflexivity|]. intros d [].
  - destruct IH as (r & E & Hr); [intros; apply H; cbn; auto|].
    rewrite run_bind, H by (cbn; auto). cbn [fst snd]. rewrite run_bind, E. cbn [fst snd run].
    eexists. split; [reflexivity|]. intros e He. cbn beta. destruct (Z.eqb_spec e d) as [->|N]; [reflexivity|].
    apply Hr. destruct He; [congruence|auto].
Qed.
Lemma run_gather2 {B} (f : Z -> Z -> prog T B) (v : Z -> Z -> B) d1 d2 ds es (s : store) :
  (forall d e, In d ds -> In e es -> run (f d e) s = (v d e, s)) ->
  exists r, run (gather (fun d => gather (f d) d1 es) d2 ds) s = (r, s) /\
            forall d e, In d ds -> In e es -> r d e = v d e.
Proof.
  intros H. induction ds as [|d ds IH]; cbn [gather].
  - eexists. split; [reflexivity|]. intros d e [].
  - destruct IH as (r & E & Hr); [intros; apply H; cbn; auto|].
    destruct (run_gather (f d) (v d) d1 es s) as (r0 & E0 & Hr0); [intros; apply H; cbn; auto|].
    rewrite run_bind, E0. cbn [fst snd]. rewrite run_bind, E. cbn [fst snd run].
    eexists. split; [reflexivity|]. intros x e Hx He. cbn beta. destruct (Z.eqb_spec x d) as [->|N]; [auto|].
    apply Hr; auto. destruct Hx; [congruence|auto].
Qed.
Lemma exec_run {A B} (q : prog T A) (f : A -> prog T B) (s : store) v :
  run q s = (v, s) -> exec (bind q f) s = exec (f v) s.
Proof. intros H. unfold exec. rewrite run_bind, H. reflexivity. Qed.

(** [mput] and the state of cells. *)
Lemma mput_other a i j k q (s : store) l : la l <> a \/ at_of l <> (i, j, k) ->
  exec (mput a i j k q) s l = s l.
Proof.
  intros H. rewrite exec_mput_eq.
  assert (N : forall v, Loc a i j k v <> l).
  { intros v E. subst l. unfold at_of in H. cbn in H. destruct H; congruence. }
  rewrite !upd_other; auto.
Qed.
Lemma mst_mput_same a i j k q (s : store) : mst (exec (mput a i j k q) s) a i j k = q.
Proof. rewrite exec_mput_eq. unfold mst. rewrite !upd_eq. destruct q; reflexivity. Qed.
Lemma mst_mput_other a i j k q (s : store) b i' j' k' : b <> a \/ (i', j', k') <> (i, j, k) ->
  mst (exec (mput a i j k q) s) b i' j' k' = mst s b i' j' k'.
Proof. intros H. unfold mst. rewrite !mput_other by exact H. reflexivity. Qed.
Lemma mst_frame (s s' : store) a i j k : (forall l, la l = a -> s' l = s l) -> mst s' a i j k = mst s a i j k.
Proof. intros H. unfold mst. rewrite !H; auto. Qed.
Lemma mst_get (s : store) a i j k v : 0 <= v < 8 -> s (Loc a i j k v) = mget (mst s a i j k) v.
Proof.
  intros H. assert (C : v = 0 \/ v = 1 \/ v = 2 \/ v = 3 \/ v = 4 \/ v = 5 \/ v = 6 \/ v = 7) by lia.
  destruct C as [->|[->|[->|[->|[->|[->|[->| ->]]]]]]]; reflexivity.
Qed.
Lemma mst_cellwise W cells body (s s' : store) a i j k :
  NoDup cells -> (forall c, In c cells -> cellprog W c (body c)) -> par_exec s (md_for cells body) s' ->
  In a W -> In (i, j, k) cells -> mst s' a i j k = mst (exec (body (i, j, k)) s) a i j k.
Proof.
  intros Hnd Hok Hex Ha Hc. destruct (cellwise_spec W cells body s s' Hnd Hok Hex) as [H1 _].
  unfold mst. rewrite !H1; auto.
Qed.
Lemma val_cellwise W cells body (s s' : store) a i j k v :
  NoDup cells -> (forall c, In c cells -> cellprog W c (body c)) -> par_exec s (md_for cells body) s' ->
  In a W -> In (i, j, k) cells -> s' (Loc a i j k v) = exec (body (i, j, k)) s (Loc a i j k v).
Proof.
  intros Hnd Hok Hex Ha Hc. destruct (cellwise_spec W cells body s s' Hnd Hok Hex) as [H1 _].
  rewrite H1; auto.
Qed.

(** Footprints. *)
Section Acc.
Variables R W : loc -> Prop.
Lemma acc_mload a i j k : (forall v, 0 <= v < 8 -> R (Loc a i j k v)) -> acc (T:=T) R W (mload a i j k).
Proof.
  intros H. unfold mload.
  repeat (apply acc_bind; [apply acc_rd, H; unfold ID, IP, IU, IV, IW, IA, IB, IC; lia|intros ?]).
  apply acc_ret.
Qed.
Lemma acc_bload a i j k : (forall v, 0 <= v < 8 -> R (Loc a i j k v)) -> acc (T:=T) R W (bload a i j k).
Proof.
  intros H. unfold bload.
  repeat (apply acc_bind; [apply acc_rd, H; unfold ID, IP, IU, IV, IW, IA, IB, IC; lia|intros ?]).
  apply acc_ret.
Qed.
Lemma acc_mput a i j k q : (forall v, 0 <= v < 8 -> W (Loc a i j k v)) -> acc (T:=T) R W (mput a i j k q).
Proof.
  intros H. unfold mput.
  repeat (apply acc_bind; [apply acc_wr, H; unfold ID, IP, IU, IV, IW, IA, IB, IC; lia|intros ?]).
  apply acc_wr, H; unfold IC; lia.
Qed.
Lemma acc_gather {B} (f : Z -> prog T B) dflt ds :
  (forall d, In d ds -> acc R W (f d)) -> acc (T:=T) R W (gather f dflt ds).
Proof.
  induction ds as [|d ds IH]; intros H; cbn [gather]; [apply acc_ret|].
  apply acc_bind; [apply H; cbn; auto|intros x].
  apply acc_bind; [apply IH; intros; apply H; cbn; auto|intros r]. apply acc_ret.
Qed.
Lemma acc_when b (q : prog T unit) : (b = true -> acc R W q) -> acc R W (when b q).
Proof. unfold when. destruct b; auto. intros _. apply acc_skip. Qed.
End Acc.
End Exec.

(** Decompose a footprint goal into conditions on single accesses. *)
Ltac macc := repeat lazymatch goal with
  | |- acc _ _ (mload _ _ _ _) => apply acc_mload; intros
  | |- acc _ _ (bload _ _ _ _) => apply acc_bload; intros
  | |- acc _ _ (mput _ _ _ _ _) => apply acc_mput; intros
  | |- acc _ _ (rd _) => apply acc_rd
  | |- acc _ _ (wr _ _) => apply acc_wr
  | |- acc _ _ (Ret _) => apply acc_ret
  | |- acc _ _ skip => apply acc_skip
  | |- acc _ _ (when _ _) => apply acc_when; intros ?
  | |- acc _ _ (gather _ _ _) => apply acc_gather; intros
  | |- acc _ _ (if _ then _ else _) => apply acc_if; intros ?
  | |- acc _ _ (bind _ _) => apply acc_bind; [|intros ?]
  end.
(** Conditions of cellwise loops. *)
Ltac marrays_goal := unfold aU, aU2, aQ, aFx, aFy, aFz, aSx, aSy, aSz, aG,
  aQmx, aQmy, aQmz, aQpx, aQpy, aQpz, aRT, aRB, aLT, aLB, aRT2, aRB2, aLT2, aLB2,
  aRT3, aRB3, aLT3, aLB3, aEmf, aEl, aSf, aQ2, aDA, aDB, aDC.
Ltac nums := repeat match goal with H : arr_ok _ _ |- _ => unfold arr_ok, aU, aU2 in H end.
Ltac mfp := unfold cellR, cellW, at_of; cbn [la li lj lk lv In]; marrays_goal;
  first [ split; [repeat (first [left; reflexivity | right])|reflexivity] | intros _; reflexivity
        | let H := fresh in intros H; exfalso; lia ].
