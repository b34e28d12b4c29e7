(** Symbolic execution and footprint lemmas for the building blocks of the
    hydrodynamics loops. *)
From Coq Require Import ZArith List Bool Lia.
From Verif Require Import Arith Par ParProofs GridModel HydroState RiemannModel HydroPoint
  HydroKernels CellKernels HydroField BoundaryProofs.
Import ListNotations.
Open Scope Z_scope.
Open Scope prog_scope.

Section Exec.
Context {T : Type} {A : Arith T}.
Notation store := (store T).

Lemma loc_neq_a a i j k v a' i' j' k' v' : a <> a' -> Loc a i j k v <> Loc a' i' j' k' v'.
Proof. congruence. Qed.

Lemma exec_bind_ret {B C} (b : B) (f : B -> prog T C) s : exec (bind (Ret b) f) s = exec (f b) s.
Proof. reflexivity. Qed.
Lemma exec_rd {B} l (f : T -> prog T B) s : exec (bind (rd l) f) s = exec (f (s l)) s.
Proof. reflexivity. Qed.
Lemma exec_wr {B} l v (f : unit -> prog T B) s : exec (bind (wr l v) f) s = exec (f tt) (upd s l v).
Proof. reflexivity. Qed.
Lemma exec_load2 {B} a i j (f : hs T -> prog T B) s :
  exec (bind (load2 a i j) f) s = exec (f (st2 s a i j)) s.
Proof. reflexivity. Qed.
Lemma exec_load3 {B} a i j k (f : hs T -> prog T B) s :
  exec (bind (load3 a i j k) f) s = exec (f (st3 s a i j k)) s.
Proof. reflexivity. Qed.
Lemma exec_put2 {B} a i j q (f : unit -> prog T B) s :
  exec (bind (put2 a i j q) f) s = exec (f tt) (exec (put2 a i j q) s).
Proof. reflexivity. Qed.
Lemma exec_put3 {B} a i j k q (f : unit -> prog T B) s :
  exec (bind (put3 a i j k q) f) s = exec (f tt) (exec (put3 a i j k q) s).
Proof. reflexivity. Qed.
Lemma exec_fetch2 {B} p i j jx jy (f : _ -> prog T B) s :
  exec (bind (fetch_slopes2 p i j jx jy) f) s = exec (f (st2 s aQ i j, slopes2 p (st2 s aQ) i j jx jy)) s.
Proof. reflexivity. Qed.
Lemma exec_fetch3 {B} p i j k jx jy jz (f : _ -> prog T B) s :
  exec (bind (fetch_slopes3 p i j k jx jy jz) f) s
  = exec (f (st3 s aQ i j k, slopes3 p (st3 s aQ) i j k jx jy jz)) s.
Proof. reflexivity. Qed.

(** Gravity field of a memory. *)
Definition gr2 (s : store) (i j d : Z) : T := s (Loc aG i j 0 d).
Definition gr3 (s : store) (i j k d : Z) : T := s (Loc aG i j k d).

Lemma exec_predict2 {B} dt ge i j q (f : hs T -> prog T B) s :
  exec (bind (predict2 dt ge i j q) f) s = exec (f (pred2 dt ge (gr2 s i j IX) (gr2 s i j IY) q)) s.
Proof. unfold predict2, pred2. destruct ge; reflexivity. Qed.
Lemma exec_predict3 {B} dt ge i j k q (f : hs T -> prog T B) s :
  exec (bind (predict3 dt ge i j k q) f) s
  = exec (f (pred3 dt ge (gr3 s i j k IX) (gr3 s i j k IY) (gr3 s i j k IZ) q)) s.
Proof. unfold predict3, pred3. destruct ge; reflexivity. Qed.

(** Frame of [put]: other arrays or other cells. *)
Lemma put2_other a i j q (s : store) l : la l <> a \/ at_of l <> (i, j, 0) -> exec (put2 a i j q) s l = s l.
Proof.
  intros H. unfold put2. rewrite !exec_wr. unfold exec; cbn [run snd wr].
  assert (N : forall v, Loc a i j 0 v <> l).
  { intros v E. subst l. unfold at_of in H. cbn in H. destruct H; congruence. }
  rewrite !upd_other; auto.
Qed.
Lemma put3_other a i j k q (s : store) l : la l <> a \/ at_of l <> (i, j, k) -> exec (put3 a i j k q) s l = s l.
Proof.
  intros H. unfold put3. rewrite !exec_wr. unfold exec; cbn [run snd wr].
  assert (N : forall v, Loc a i j k v <> l).
  { intros v E. subst l. unfold at_of in H. cbn in H. destruct H; congruence. }
  rewrite !upd_other; auto.
Qed.

Lemma upd_eq (s : store) a i j k v x v' : upd s (Loc a i j k v) x (Loc a i j k v') = if v =? v' then x else s (Loc a i j k v').
Proof.
  destruct (Z.eqb_spec v v') as [->|N]; [apply upd_same|]. apply upd_other. congruence.
Qed.

Lemma st2_put_same a i j q (s : store) : st2 (exec (put2 a i j q) s) a i j = w0 q.
Proof.
  unfold put2. rewrite !exec_wr. unfold exec; cbn [run snd wr]. unfold st2.
  rewrite !upd_eq. reflexivity.
Qed.
Lemma st3_put_same a i j k q (s : store) : st3 (exec (put3 a i j k q) s) a i j k = q.
Proof.
  unfold put3. rewrite !exec_wr. unfold exec; cbn [run snd wr]. unfold st3.
  rewrite !upd_eq. destruct q; reflexivity.
Qed.
Lemma st2_put_other a i j q (s : store) b i' j' :
  b <> a \/ i' <> i \/ j' <> j -> st2 (exec (put2 a i j q) s) b i' j' = st2 s b i' j'.
Proof.
  intros H. unfold st2. rewrite !put2_other; auto;
    (cbn [la at_of li lj lk]; destruct H as [H|H]; [left; auto|right; unfold at_of; cbn; intros E; inversion E; lia]).
Qed.
Lemma st3_put_other a i j k q (s : store) b i' j' k' :
  b <> a \/ i' <> i \/ j' <> j \/ k' <> k -> st3 (exec (put3 a i j k q) s) b i' j' k' = st3 s b i' j' k'.
Proof.
  intros H. unfold st3. rewrite !put3_other; auto;
    (cbn [la at_of li lj lk]; destruct H as [H|H]; [left; auto|right; unfold at_of; cbn; intros E; inversion E; lia]).
Qed.
Lemma gr2_put a i j q (s : store) i' j' d : a <> aG -> gr2 (exec (put2 a i j q) s) i' j' d = gr2 s i' j' d.
Proof. intros H. unfold gr2. apply put2_other. cbn. auto. Qed.
Lemma gr3_put a i j k q (s : store) i' j' k' d : a <> aG -> gr3 (exec (put3 a i j k q) s) i' j' k' d = gr3 s i' j' k' d.
Proof. intros H. unfold gr3. apply put3_other. cbn. auto. Qed.

(** [accum]: read-modify-write of a whole state. *)
Lemma accum2_st op a i j b i' j' (s : store) : a <> b ->
  st2 (exec (accum2 op a i j b i' j') s) a i j = w0 (hs_map2 op (st2 s a i j) (st2 s b i' j')).
Proof.
  intros H. unfold accum2, accum. repeat (rewrite ?exec_bind; cbn [fst snd run rd bind]).
  unfold exec; cbn [run snd wr rd bind fst]. unfold st2, w0, hs_map2; cbn [hD hP hU hV hW].
  rewrite !upd_eq.
  repeat rewrite (upd_other _ (Loc a i j 0 _) (Loc b i' j' 0 _)) by (apply loc_neq_a; exact H).
  cbn [Z.eqb ID IP IU IV Pos.eqb]. rewrite ?upd_eq. cbn [Z.eqb ID IP IU IV Pos.eqb]. reflexivity.
Qed.
Lemma accum3_st op a i j k b i' j' k' (s : store) : a <> b ->
  st3 (exec (accum3 op a i j k b i' j' k') s) a i j k = hs_map2 op (st3 s a i j k) (st3 s b i' j' k').
Proof.
  intros H. unfold accum3, accum. repeat (rewrite ?exec_bind; cbn [fst snd run rd bind]).
  unfold exec; cbn [run snd wr rd bind fst]. unfold st3, hs_map2; cbn [hD hP hU hV hW].
  rewrite !upd_eq.
  repeat rewrite (upd_other _ (Loc a i j k _) (Loc b i' j' k' _)) by (apply loc_neq_a; exact H).
  cbn [Z.eqb ID IP IU IV IW Pos.eqb]. rewrite ?upd_eq. cbn [Z.eqb ID IP IU IV IW Pos.eqb]. reflexivity.
Qed.
Lemma accum2_other op a i j b i' j' (s : store) l : la l <> a -> exec (accum2 op a i j b i' j') s l = s l.
Proof.
  intros H. unfold accum2, accum. unfold exec; cbn [run snd wr rd bind fst].
  assert (N : forall i j k v, Loc a i j k v <> l) by (intros; intros E; subst l; cbn in H; congruence).
  rewrite !upd_other; auto.
Qed.
Lemma accum3_other op a i j k b i' j' k' (s : store) l : la l <> a -> exec (accum3 op a i j k b i' j' k') s l = s l.
Proof.
  intros H. unfold accum3, accum. unfold exec; cbn [run snd wr rd bind fst].
  assert (N : forall i j k v, Loc a i j k v <> l) by (intros; intros E; subst l; cbn in H; congruence).
  rewrite !upd_other; auto.
Qed.
Lemma st2_accum_other op a i j b i' j' (s : store) c x y : c <> a ->
  st2 (exec (accum2 op a i j b i' j') s) c x y = st2 s c x y.
Proof. intros H. unfold st2. rewrite !accum2_other; auto. Qed.
Lemma st3_accum_other op a i j k b i' j' k' (s : store) c x y z : c <> a ->
  st3 (exec (accum3 op a i j k b i' j' k') s) c x y z = st3 s c x y z.
Proof. intros H. unfold st3. rewrite !accum3_other; auto. Qed.

(** ** Footprints *)
Section Acc.
Variables R W : loc -> Prop.
Lemma acc_load2 a i j : (forall v, 0 <= v < 4 -> R (Loc a i j 0 v)) -> acc (T:=T) R W (load2 a i j).
Proof.
  intros H. unfold load2. repeat (apply acc_bind; [apply acc_rd, H; unfold ID, IP, IU, IV; lia|intros ?]).
  apply acc_ret.
Qed.
Lemma acc_load3 a i j k : (forall v, 0 <= v < 5 -> R (Loc a i j k v)) -> acc (T:=T) R W (load3 a i j k).
Proof.
  intros H. unfold load3. repeat (apply acc_bind; [apply acc_rd, H; unfold ID, IP, IU, IV, IW; lia|intros ?]).
  apply acc_ret.
Qed.
Lemma acc_put2 a i j q : (forall v, 0 <= v < 4 -> W (Loc a i j 0 v)) -> acc (T:=T) R W (put2 a i j q).
Proof.
  intros H. unfold put2. repeat (apply acc_bind; [apply acc_wr, H; unfold ID, IP, IU, IV; lia|intros ?]).
  apply acc_wr, H; unfold IV; lia.
Qed.
Lemma acc_put3 a i j k q : (forall v, 0 <= v < 5 -> W (Loc a i j k v)) -> acc (T:=T) R W (put3 a i j k q).
Proof.
  intros H. unfold put3. repeat (apply acc_bind; [apply acc_wr, H; unfold ID, IP, IU, IV, IW; lia|intros ?]).
  apply acc_wr, H; unfold IW; lia.
Qed.
Lemma acc_accum op l1 l2 : R l1 -> R l2 -> W l1 -> acc (T:=T) R W (accum op l1 l2).
Proof.
  intros H1 H2 H3. unfold accum. apply acc_bind; [apply acc_rd; auto|intros x].
  apply acc_bind; [apply acc_rd; auto|intros y]. apply acc_wr; auto.
Qed.
Lemma acc_accum2 op a i j b i' j' :
  (forall v, 0 <= v < 4 -> R (Loc a i j 0 v) /\ R (Loc b i' j' 0 v) /\ W (Loc a i j 0 v)) ->
  acc (T:=T) R W (accum2 op a i j b i' j').
Proof.
  intros H. unfold accum2. do 3 (apply acc_bind; [apply acc_accum; apply H; unfold ID, IP, IU, IV; lia|intros ?]); apply acc_accum; apply H;
    unfold ID, IP, IU, IV; lia.
Qed.
Lemma acc_accum3 op a i j k b i' j' k' :
  (forall v, 0 <= v < 5 -> R (Loc a i j k v) /\ R (Loc b i' j' k' v) /\ W (Loc a i j k v)) ->
  acc (T:=T) R W (accum3 op a i j k b i' j' k').
Proof.
  intros H. unfold accum3. do 4 (apply acc_bind; [apply acc_accum; apply H; unfold ID, IP, IU, IV; lia|intros ?]); apply acc_accum; apply H;
    unfold ID, IP, IU, IV, IW; lia.
Qed.
Lemma acc_predict2 dt ge i j q :
  (ge = true -> forall v, 0 <= v < 2 -> R (Loc aG i j 0 v)) -> acc (T:=T) R W (predict2 dt ge i j q).
Proof.
  intros H. unfold predict2. destruct ge; [|apply acc_ret].
  repeat (apply acc_bind; [apply acc_rd, H; auto; unfold IX, IY; lia|intros ?]). apply acc_ret.
Qed.
Lemma acc_predict3 dt ge i j k q :
  (ge = true -> forall v, 0 <= v < 3 -> R (Loc aG i j k v)) -> acc (T:=T) R W (predict3 dt ge i j k q).
Proof.
  intros H. unfold predict3. destruct ge; [|apply acc_ret].
  repeat (apply acc_bind; [apply acc_rd, H; auto; unfold IX, IY, IZ; lia|intros ?]). apply acc_ret.
Qed.
Lemma acc_fetch2 p i j jx jy :
  (forall i' j' v, Z.abs (i' - i) + Z.abs (j' - j) <= 1 -> 0 <= v < 4 -> R (Loc aQ i' j' 0 v)) ->
  acc (T:=T) R W (fetch_slopes2 p i j jx jy).
Proof.
  intros H. unfold fetch_slopes2.
  repeat (apply acc_bind; [apply acc_load2; intros; apply H; lia|intros ?]). apply acc_ret.
Qed.
Lemma acc_fetch3 p i j k jx jy jz :
  (forall i' j' k' v, Z.abs (i' - i) + Z.abs (j' - j) + Z.abs (k' - k) <= 1 -> 0 <= v < 5 ->
     R (Loc aQ i' j' k' v)) ->
  acc (T:=T) R W (fetch_slopes3 p i j k jx jy jz).
Proof.
  intros H. unfold fetch_slopes3.
  repeat (apply acc_bind; [apply acc_load3; intros; apply H; lia|intros ?]). apply acc_ret.
Qed.
End Acc.

(** deep_copy *)
Lemma copy_loop_exec dst src i j k vs (s : store) l : dst <> src -> NoDup vs ->
  exec (for_each vs (fun v => x <- rd (Loc src i j k v) ;; wr (Loc dst i j k v) x)) s l =
  if (la l =? dst) && (li l =? i) && (lj l =? j) && (lk l =? k) && (if in_dec Z.eq_dec (lv l) vs then true else false)
  then s (Loc src i j k (lv l)) else s l.
Proof.
  intros Hne. revert s. induction vs as [|v vs IH]; intros s Hnd.
  - cbn. rewrite andb_false_r. reflexivity.
  - inversion Hnd as [|v' vs' Hv Hvs]; subst. cbn [for_each]. rewrite exec_bind, IH by auto.
    unfold exec; cbn [run snd fst bind rd wr].
    rewrite (upd_other _ (Loc dst i j k v) (Loc src i j k (lv l))) by (apply loc_neq_a; auto).
    destruct l as [a' i' j' k' v']; cbn [la li lj lk lv].
    destruct (Z.eqb_spec a' dst) as [->|]; cbn [andb].
    2:{ apply upd_other. congruence. }
    destruct (Z.eqb_spec i' i) as [->|]; cbn [andb].
    2:{ apply upd_other. congruence. }
    destruct (Z.eqb_spec j' j) as [->|]; cbn [andb].
    2:{ apply upd_other. congruence. }
    destruct (Z.eqb_spec k' k) as [->|]; cbn [andb].
    2:{ apply upd_other. congruence. }
    destruct (in_dec Z.eq_dec v' vs) as [Hi|Hi]; destruct (in_dec Z.eq_dec v' (v :: vs)) as [Hi'|Hi']; cbn in Hi'.
    + reflexivity.
    + tauto.
    + destruct Hi' as [->|]; [|tauto]. apply upd_same.
    + apply upd_other. intros E; inversion E; subst. tauto.
Qed.

Lemma deep_copy_spec g cells dst src (s s' : store) :
  NoDup cells -> dst <> src -> par_exec s (deep_copy g cells dst src) s' ->
  (forall i j k v, In (i, j, k) cells -> 0 <= v < nbvar g -> s' (Loc dst i j k v) = s (Loc src i j k v)) /\
  (forall l, ~ (la l = dst /\ In (at_of l) cells /\ 0 <= lv l < nbvar g) -> s' l = s l).
Proof.
  intros Hnd Hne Hex. unfold deep_copy in Hex.
  match type of Hex with par_exec _ (md_for _ ?b) _ =>
    assert (Hok : forall c, In c cells -> cellprog [dst] c (b c)) end.
  { intros [[i j] k] Hc. unfold cellprog. apply acc_for. intros v Hv.
    apply acc_bind; [apply acc_rd; intros H|intros x; apply acc_wr; split; cbn; auto].
    cbn in H. destruct H as [H|[]]. congruence. }
  destruct (cellwise_spec [dst] cells _ s s' Hnd Hok Hex) as [H1 H2]. clear Hok.
  split.
  - intros i j k v Hc Hv. rewrite H1; cbn [la]; [|left; reflexivity|exact Hc].
    unfold at_of; cbn [li lj lk].
    rewrite copy_loop_exec by (auto; apply NoDup_zrange). cbn [la li lj lk lv].
    rewrite !Z.eqb_refl. destruct (in_dec Z.eq_dec v (zrange 0 (nbvar g))) as [Hi|Hi]; [reflexivity|].
    exfalso. apply Hi. apply In_zrange. lia.
  - intros l Hl. destruct (Z.eq_dec (la l) dst) as [Ha|Ha].
    2:{ apply H2. cbn. intuition congruence. }
    destruct (in_dec cell_eq_dec (at_of l) cells) as [Hc|Hc]; [|apply H2; tauto].
    rewrite H1; [|left; auto|auto]. destruct l as [a i j k v]; unfold at_of in *; cbn [la li lj lk lv] in *.
    rewrite copy_loop_exec by (auto; apply NoDup_zrange). cbn [la li lj lk lv].
    destruct (in_dec Z.eq_dec v (zrange 0 (nbvar g))) as [Hi|Hi].
    + apply In_zrange in Hi. tauto.
    + rewrite andb_false_r. reflexivity.
Qed.
End Exec.
