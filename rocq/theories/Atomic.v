(** Loops whose bodies only read memory that the loop does not modify and modify
    memory by atomic additions of reals: every interleaving gives the initial value plus
    the sum of all contributions. *)
From Coq Require Import ZArith List Bool Lia Reals Lra.
From Verif Require Import Arith Par ParProofs HydroKernels.
Import ListNotations.
Open Scope R_scope.

Fixpoint lsum (xs : list R) : R := match xs with [] => 0 | x :: xs => x + lsum xs end.
Lemma lsum_app xs ys : lsum (xs ++ ys) = lsum xs + lsum ys.
Proof. induction xs as [|x xs IH]; cbn; [lra|]. rewrite IH. lra. Qed.
Lemma lsum_ext {X} (f g : X -> R) xs : (forall x, In x xs -> f x = g x) -> lsum (map f xs) = lsum (map g xs).
Proof. induction xs as [|x xs IH]; cbn; intros H; auto. rewrite IH, H; auto. Qed.
Lemma lsum_zero {X} (f : X -> R) xs : (forall x, In x xs -> f x = 0) -> lsum (map f xs) = 0.
Proof.
  induction xs as [|x xs IH]; cbn; intros H; auto. rewrite IH, H; auto. lra.
Qed.
Lemma lsum_support {X} (dec : forall x y : X, {x = y} + {x <> y}) (f : X -> R) xs ys :
  NoDup xs -> NoDup ys -> (forall y, In y ys -> In y xs) ->
  (forall x, In x xs -> ~ In x ys -> f x = 0) -> lsum (map f xs) = lsum (map f ys).
Proof.
  revert ys. induction xs as [|x xs IH]; intros ys Hx Hy Hin H0.
  - destruct ys as [|y ys]; [reflexivity|]. destruct (Hin y (or_introl eq_refl)).
  - inversion Hx as [|x' xs' Hnx Hnd]; subst. cbn [map]. change (lsum (f x :: map f xs)) with (f x + lsum (map f xs)).
    destruct (in_dec dec x ys) as [Hi|Hi].
    + destruct (in_split _ _ Hi) as (y1 & y2 & ->).
      rewrite (IH (y1 ++ y2)).
      * rewrite !map_app, !lsum_app. cbn [map lsum]. lra.
      * exact Hnd.
      * apply NoDup_remove_1 in Hy. exact Hy.
      * intros y Hiy. destruct (Hin y) as [E|E]; auto.
        { apply in_app_iff in Hiy. apply in_app_iff. cbn. tauto. }
        subst y. apply NoDup_remove_2 in Hy. contradiction.
      * intros z Hz Hnz. apply H0; [right; exact Hz|]. intros Hc. apply Hnz.
        apply in_app_iff in Hc. apply in_app_iff. cbn in Hc. destruct Hc as [Hc|[Hc|Hc]]; auto.
        subst z. contradiction.
    + rewrite (H0 x) by (cbn; auto). rewrite (IH ys); auto; [lra| |].
      * intros y Hiy. destruct (Hin y Hiy) as [E|E]; auto. subst y. contradiction.
      * intros z Hz. apply H0. right; exact Hz.
Qed.

Definition transl (f : R -> R) : Prop := exists d, forall x, f x = x + d.
Fixpoint atomic_prog {A} (M : loc -> Prop) (p : prog R A) : Prop :=
  match p with
  | Ret _ => True
  | Rd l k => ~ M l /\ forall v, atomic_prog M (k v)
  | Wr _ _ _ => False
  | Rmw l f k => M l /\ transl f /\ atomic_prog M k
  end.

(** Contributions of a program to each location. *)
Fixpoint contrib {A} (p : prog R A) (s : store R) (l : loc) : R :=
  match p with
  | Ret _ => 0
  | Rd l0 k => contrib (k (s l0)) s l
  | Wr _ _ k => contrib k s l
  | Rmw l0 f k => (if loc_eqb l0 l then f 0 else 0) + contrib k s l
  end.

Lemma contrib_agree {A} M (p : prog R A) s1 s2 l : atomic_prog M p ->
  (forall l, ~ M l -> s1 l = s2 l) -> contrib p s1 l = contrib p s2 l.
Proof.
  intros Hp H. induction p as [a|l0 k IH|l0 v k IH|l0 f k IH]; cbn in *; auto.
  - destruct Hp as [Hn Hk]. rewrite (H l0) by auto. apply IH; auto.
  - destruct Hp.
  - destruct Hp as (_ & _ & Hk). rewrite IH; auto.
Qed.

(** A program of unconditional or guarded updates (no reads). *)
Fixpoint only_upd {A} (p : prog R A) : Prop :=
  match p with Ret _ => True | Rd _ _ => False | Wr _ _ _ => False | Rmw _ _ k => only_upd k end.
Lemma contrib_seq (p : prog R unit) (q : prog R unit) s l : only_upd p ->
  contrib (bind p (fun _ => q)) s l = contrib p s l + contrib q s l.
Proof.
  intros Hp. induction p as [a|l0 k IH|l0 v k IH|l0 g k IH]; cbn in *; try tauto; [lra|].
  rewrite IH; auto. lra.
Qed.
Lemma only_seq (p q : prog R unit) : only_upd p -> only_upd q -> only_upd (bind p (fun _ => q)).
Proof. induction p; cbn; tauto || auto. Qed.
Lemma contrib_if (b : bool) (p q : prog R unit) s l :
  contrib (if b then p else q) s l = if b then contrib p s l else contrib q s l.
Proof. destruct b; reflexivity. Qed.

Section Loop.
Variable M : loc -> Prop.

Definition pool_total (c : store R * list (prog R unit)) (l : loc) : R :=
  fst c l + lsum (map (fun p => contrib p (fst c) l) (snd c)).

Lemma tstep_out s (p : prog R unit) s' p' l : atomic_prog M p -> tstep s p s' p' -> ~ M l -> s' l = s l.
Proof.
  intros Hp Hs Hl. inversion Hs; subst; auto.
  - destruct Hp.
  - destruct Hp as (Hm & _). apply upd_other. intros E. subst. contradiction.
Qed.

Lemma pool_step c c' : (forall p, In p (snd c) -> atomic_prog M p) -> pstep c c' ->
  (forall p, In p (snd c') -> atomic_prog M p) /\ (forall l, ~ M l -> fst c' l = fst c l) /\
  (forall l, pool_total c' l = pool_total c l).
Proof.
  intros Hok Hst. destruct Hst as [s s' pre p p' post Ht]. cbn [fst snd] in *.
  assert (Hp : atomic_prog M p) by (apply Hok, in_app_iff; cbn; auto).
  assert (Hout : forall l, ~ M l -> s' l = s l) by (intros l; eapply tstep_out; eauto).
  split; [|split; [exact Hout|]].
  - intros q Hq. apply in_app_iff in Hq. cbn in Hq. destruct Hq as [Hq|[<-|Hq]].
    + apply Hok, in_app_iff; auto.
    + inversion Ht; subst; cbn in Hp; tauto || apply Hp.
    + apply Hok, in_app_iff; cbn; auto.
  - intros l. unfold pool_total; cbn [fst snd]. rewrite !map_app, !lsum_app. cbn [map lsum].
    assert (E : forall qs : list (prog R unit), (forall q, In q qs -> atomic_prog M q) ->
      lsum (map (fun q => contrib q s' l) qs) = lsum (map (fun q => contrib q s l) qs)).
    { intros qs Hq. apply lsum_ext. intros q Hi. apply (contrib_agree M); auto. }
    rewrite (E pre), (E post) by (intros q Hq; apply Hok, in_app_iff; cbn; auto).
    assert (D : s' l + contrib p' s' l = s l + contrib p s l).
    { inversion Ht; subst; cbn [contrib].
      - reflexivity.
      - destruct Hp.
      - destruct Hp as (Hm & [d Hd] & Hk).
        rewrite (contrib_agree M p' _ s) by auto.
        unfold upd. destruct (loc_eqb_spec l0 l) as [->|N]; rewrite ?Hd; lra. }
    lra.
Qed.

Lemma pool_star c c' : pstar c c' -> (forall p, In p (snd c) -> atomic_prog M p) ->
  (forall l, ~ M l -> fst c' l = fst c l) /\ (forall l, pool_total c' l = pool_total c l).
Proof.
  induction 1 as [c|c1 c2 c3 H1 H2 IH]; intros Hok; [auto|].
  destruct (pool_step c1 c2 Hok H1) as (A1 & A2 & A3). destruct (IH A1) as [B1 B2].
  split; intros l; [intros Hl; rewrite B1, A2; auto|]. rewrite B2, A3. reflexivity.
Qed.

(** Final value of every location after an atomic loop, for every interleaving. *)
Lemma atomic_loop (cells : list (Z * Z * Z)) (body : Z * Z * Z -> prog R unit) (s s' : store R) :
  (forall c, In c cells -> atomic_prog M (body c)) -> par_exec s (md_for cells body) s' ->
  (forall l, s' l = s l + lsum (map (fun c => contrib (body c) s l) cells)) /\
  (forall l, ~ M l -> s' l = s l).
Proof.
  intros Hok (ps' & Hst & Hd). unfold md_for in Hst.
  destruct (pool_star _ _ Hst) as [H1 H2].
  { intros p Hp. cbn [snd] in Hp. apply in_map_iff in Hp. destruct Hp as (c & <- & Hc). auto. }
  split; [|exact H1].
  intros l. specialize (H2 l). unfold pool_total in H2; cbn [fst snd] in H2.
  rewrite (lsum_zero (fun p => contrib p s' l) ps') in H2.
  - rewrite map_map in H2. lra.
  - intros p Hp. rewrite (Hd p Hp). reflexivity.
Qed.

(** Footprint lemmas. *)
Lemma at_ret {A} (a : A) : atomic_prog M (Ret a).
Proof. exact I. Qed.
Lemma at_skip : atomic_prog M skip.
Proof. exact I. Qed.
Lemma at_rd l : ~ M l -> atomic_prog M (rd l).
Proof. intros H. split; cbn; auto. Qed.
Lemma at_rmw l f : M l -> transl f -> atomic_prog M (rmw l f).
Proof. intros H H1. repeat split; auto. Qed.
Lemma at_bind {A B} (p : prog R A) (f : A -> prog R B) :
  atomic_prog M p -> (forall a, atomic_prog M (f a)) -> atomic_prog M (bind p f).
Proof.
  intros Hp Hf. induction p as [a|l k IH|l v k IH|l g k IH]; cbn in *; auto.
  - split; [apply Hp|]. intros v. apply IH, Hp.
  - destruct Hp as (H1 & H2 & H3). auto.
Qed.
Lemma at_if {A} (b : bool) (p q : prog R A) :
  (b = true -> atomic_prog M p) -> (b = false -> atomic_prog M q) -> atomic_prog M (if b then p else q).
Proof. destruct b; auto. Qed.
End Loop.

