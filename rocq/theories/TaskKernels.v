(** Loops whose body is a sequence of small tasks: each task reads a list of
    locations, computes, and writes a list of locations. *)
From Coq Require Import ZArith List Bool Lia.
From Verif Require Import Arith Par ParProofs GridModel BoundaryProofs HydroKernels CellKernels HydroExec
  MoodKernels MoodProofs TaskModel.
Import ListNotations.
Open Scope Z_scope.
Open Scope prog_scope.

Section Tasks.
Context {T : Type}.
Notation store := (store T).

Lemma exec_task t (s : store) : exec (task_prog t) s = exec (put_all (tw t) (tv t (map s (tr t)))) s.
Proof. unfold task_prog. apply (exec_load_all rd s). intros; apply exec_rd. Qed.
Lemma put_all_other ls vs (s : store) l : ~ In l ls -> exec (put_all ls vs) s l = s l.
Proof.
  revert vs s. induction ls as [|l0 ls IH]; intros [|v vs] s H; try reflexivity.
  cbn [put_all]. rewrite exec_wr. rewrite IH by (intros E; apply H; right; auto).
  apply upd_other. intros E. apply H. left; auto.
Qed.
Lemma upd_at (s : store) l x : upd s l x l = x.
Proof.
  unfold upd. assert (E : loc_eqb l l = true) by (unfold loc_eqb; rewrite !Z.eqb_refl; reflexivity). now rewrite E.
Qed.
Lemma put_all_same ls vs (s : store) l x : NoDup ls -> In (l, x) (combine ls vs) -> exec (put_all ls vs) s l = x.
Proof.
  revert vs s. induction ls as [|l0 ls IH]; intros [|v vs] s Hnd H; try contradiction.
  cbn [put_all]. rewrite exec_wr. inversion Hnd as [|? ? Hn Hnd']; subst. destruct H as [H|H].
  - injection H as -> ->. rewrite put_all_other by auto. apply upd_at.
  - apply IH; auto.
Qed.

Lemma acc_put_all (R W : loc -> Prop) ls vs : (forall l, In l ls -> W l) -> acc R W (put_all (T:=T) ls vs).
Proof.
  revert vs. induction ls as [|l ls IH]; intros [|v vs] H; try apply acc_skip.
  cbn [put_all]. apply acc_bind; [apply acc_wr; apply H; left; auto|intros _]. apply IH. intros; apply H; right; auto.
Qed.
Lemma acc_task (R W : loc -> Prop) t :
  (forall l, In l (tr t) -> R l) -> (forall l, In l (tw t) -> W l) -> acc R W (task_prog (T:=T) t).
Proof.
  intros HR HW. unfold task_prog. apply acc_bind.
  - apply acc_load_all. intros; apply acc_rd; auto.
  - intros; apply acc_put_all; auto.
Qed.

Lemma loc_eq_dec (x y : loc) : {x = y} + {x <> y}.
Proof. decide equality; apply Z.eq_dec. Qed.

Section Loop.
Context {C K : Type}.
Variable cells : list C.
Variable keys : C -> list K.
Variable mk : C -> K -> task T.
Hypothesis HC : NoDup cells.
Hypothesis HK : forall c, In c cells -> NoDup (keys c).
Hypothesis HW : forall c k, In c cells -> In k (keys c) -> NoDup (tw (mk c k)).
(** What a task writes no other task reads or writes. *)
Hypothesis HD : forall c k c' k' l, In c cells -> In k (keys c) -> In c' cells -> In k' (keys c') ->
  In l (tw (mk c k)) -> In l (tw (mk c' k')) \/ In l (tr (mk c' k')) -> c = c' /\ k = k'.

Let body (c : C) : prog T unit := for_each (map (mk c) (keys c)) task_prog.
Let Rf (c : C) (l : loc) : Prop := exists k, In k (keys c) /\ In l (tr (mk c k)).
Let Wf (c : C) (l : loc) : Prop := exists k, In k (keys c) /\ In l (tw (mk c k)).

Lemma tasks_body c (s : store) : In c cells ->
  (forall k l x, In k (keys c) -> In (l, x) (combine (tw (mk c k)) (tv (mk c k) (map s (tr (mk c k))))) ->
     exec (body c) s l = x).
Proof.
  intros Hc. unfold body.
  assert (G : forall ks (s0 : store), incl ks (keys c) -> NoDup ks ->
    (forall k l, In k ks -> In l (tr (mk c k)) -> s0 l = s l) ->
    (forall k l x, In k ks -> In (l, x) (combine (tw (mk c k)) (tv (mk c k) (map s (tr (mk c k))))) ->
       exec (for_each (map (mk c) ks) task_prog) s0 l = x) /\
    (forall l, (forall k, In k ks -> ~ In l (tw (mk c k))) -> exec (for_each (map (mk c) ks) task_prog) s0 l = s0 l)).
  { induction ks as [|k0 ks IH]; intros s0 Hi Hnd Hs.
    - split; [intros k l x []|reflexivity].
    - inversion Hnd as [|? ? Hn Hnd']; subst. cbn [map for_each].
      assert (E0 : map s0 (tr (mk c k0)) = map s (tr (mk c k0))).
      { apply map_ext_in. intros l Hl. apply (Hs k0); [left; auto|auto]. }
      set (s1 := exec (task_prog (mk c k0)) s0).
      assert (E1 : s1 = exec (put_all (tw (mk c k0)) (tv (mk c k0) (map s (tr (mk c k0))))) s0).
      { unfold s1. rewrite exec_task, E0. reflexivity. }
      assert (Hi0 : In k0 (keys c)) by (apply Hi; left; auto).
      assert (Hi' : incl ks (keys c)) by (intros k Hk; apply Hi; right; auto).
      assert (Hs1 : forall k l, In k ks -> In l (tr (mk c k)) -> s1 l = s l).
      { intros k l Hk Hl. rewrite E1, put_all_other; [apply (Hs k); [right; auto|auto]|].
        intros Hl0. destruct (HD c k0 c k l Hc Hi0 Hc (Hi' k Hk) Hl0 (or_intror Hl)) as [_ Ek]. subst. contradiction. }
      destruct (IH s1 Hi' Hnd' Hs1) as [I1 I2].
      assert (EE : exec (bind (task_prog (mk c k0)) (fun _ => for_each (map (mk c) ks) task_prog)) s0 =
                   exec (for_each (map (mk c) ks) task_prog) s1).
      { rewrite exec_bind. reflexivity. }
      rewrite EE. split.
      + intros k l x [<-|Hk] Hin.
        * rewrite I2.
          -- rewrite E1. apply put_all_same; auto.
          -- intros k Hk Hl. pose proof (in_combine_l _ _ _ _ Hin) as Hl0.
             destruct (HD c k0 c k l Hc Hi0 Hc (Hi' k Hk) Hl0 (or_introl Hl)) as [_ Ek]. subst. contradiction.
        * apply (I1 k); auto.
      + intros l Hl. rewrite I2 by (intros k Hk; apply Hl; right; auto). rewrite E1. apply put_all_other.
        apply Hl. left; auto. }
  intros k l x Hk Hin. apply (proj1 (G (keys c) s (fun _ H => H) (HK c Hc) (fun _ _ _ _ => eq_refl)) k); auto.
Qed.

Lemma tasks_ok c : In c cells -> ok Rf Wf c (body c).
Proof.
  intros Hc. assert (E : acc (Rf c) (Wf c) (body c)).
  { apply acc_for. intros t Ht. apply in_map_iff in Ht. destruct Ht as (k & <- & Hk).
    apply acc_task; intros l Hl; exists k; auto. }
  exact E.
Qed.
Lemma tasks_race i j l : In i cells -> In j cells -> i <> j -> Wf i l -> ~ Wf j l /\ ~ Rf j l.
Proof.
  intros Hi Hj Hij (k & Hk & Hl). split; intros (k' & Hk' & Hl'); apply Hij.
  - destruct (HD i k j k' l) as [E _]; auto.
  - destruct (HD i k j k' l) as [E _]; auto.
Qed.

Lemma tasks_spec (s s' : store) : par_exec s (tasks_loop cells (fun c => map (mk c) (keys c))) s' ->
  (forall c k l x, In c cells -> In k (keys c) ->
     In (l, x) (combine (tw (mk c k)) (tv (mk c k) (map s (tr (mk c k))))) -> s' l = x) /\
  (forall l, (forall c k, In c cells -> In k (keys c) -> ~ In l (tw (mk c k))) -> s' l = s l).
Proof.
  intros Hex. destruct (par_for_spec cells Rf Wf tasks_race body s s' HC tasks_ok Hex) as [H1 H2]. split.
  - intros c k l x Hc Hk Hin. rewrite (H1 c l Hc).
    + apply (tasks_body c s Hc k); auto.
    + exists k. split; auto. exact (in_combine_l _ _ _ _ Hin).
  - intros l Hl. apply H2. intros c Hc (k & Hk & Hin). exact (Hl c k Hc Hk Hin).
Qed.

Lemma tasks_det (s1 s2 s1' s2' : store) : (forall l, s1 l = s2 l) ->
  par_exec s1 (tasks_loop cells (fun c => map (mk c) (keys c))) s1' ->
  par_exec s2 (tasks_loop cells (fun c => map (mk c) (keys c))) s2' -> forall l, s1' l = s2' l.
Proof.
  intros E Hx1 Hx2 l.
  destruct (par_for_spec cells Rf Wf tasks_race body s1 s1' HC tasks_ok Hx1) as [A1 A2].
  destruct (par_for_spec cells Rf Wf tasks_race body s2 s2' HC tasks_ok Hx2) as [B1 B2].
  assert (D : forall c, {Exists (fun k => In l (tw (mk c k))) (keys c)} + {~ Exists (fun k => In l (tw (mk c k))) (keys c)}).
  { intros c. apply Exists_dec. intros k. apply in_dec. apply loc_eq_dec. }
  destruct (Exists_dec (fun c => Exists (fun k => In l (tw (mk c k))) (keys c)) cells D) as [H|H].
  - apply Exists_exists in H. destruct H as (c & Hc & H). apply Exists_exists in H. destruct H as (k & Hk & H).
    assert (HWf : Wf c l) by (exists k; auto).
    rewrite (A1 c l Hc HWf), (B1 c l Hc HWf). apply exec_ext; auto.
  - assert (N : forall i, In i cells -> ~ Wf i l).
    { intros c Hc (k & Hk & Hl). apply H. apply Exists_exists. exists c. split; auto. apply Exists_exists. exists k; auto. }
    rewrite A2, B2; auto.
Qed.
End Loop.

Lemma tasks_safe {C} (P : loc -> Prop) (cells : list C) (ts : C -> list (task T)) p :
  (forall c t l, In c cells -> In t (ts c) -> In l (tr t) \/ In l (tw t) -> P l) ->
  In p (tasks_loop cells ts) -> accesses_in P p.
Proof.
  intros H Hp. apply in_map_iff in Hp. destruct Hp as (c & <- & Hc). apply acc_accesses.
  apply acc_for. intros t Ht. apply acc_task; intros l Hl; apply (H c t); auto.
Qed.
End Tasks.
