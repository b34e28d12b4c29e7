(** The loops of the 3D MHD solver that accumulate with atomic additions, in
    exact arithmetic: their result does not depend on the interleaving. *)
From Coq Require Import ZArith List Bool Lia Reals Lra.
From Verif Require Import Arith Par ParProofs GridModel BoundaryModel BoundarySpec BoundaryProofs
  HydroState HydroKernels CellKernels HydroExec HydroSpec HydroProofs2 HydroStep2 HydroProofs3
  MhdState MhdRiemann MhdPoint MhdPoint3 MhdKernels2 MhdKernels3 MhdSpec MhdExec MhdProofs2 MhdField3 MhdProofs3 MhdStore3
  Atomic MhdAtomic2.
Import ListNotations.
Open Scope Z_scope.
Open Scope prog_scope.

Definition ceqb (c t : cell) : bool := (cx c =? cx t) && (cy c =? cy t) && (cz c =? cz t).
Lemma ceqb_spec c t : ceqb c t = true <-> c = t.
Proof.
  unfold ceqb. rewrite !andb_true_iff, !Z.eqb_eq. destruct c as [[? ?] ?], t as [[? ?] ?]; unfold cx, cy, cz; cbn.
  split; [intros [[-> ->] ->]; reflexivity|intros E; injection E; auto].
Qed.
Lemma ms_of_vals3 (s : store R) a c (u : ms R) : (forall v, 0 <= v < 8 -> s (at3 a c v) = mget u v) -> m3 s a c = u.
Proof.
  unfold at3. intros H. unfold m3, mst. rewrite !H by (unfold ID, IP, IU, IV, IW, IA, IB, IC; lia). destruct u; reflexivity.
Qed.
Lemma m3_val (s : store R) a c v : 0 <= v < 8 -> s (at3 a c v) = mget (m3 s a c) v.
Proof. intros H. apply mst_get. exact H. Qed.
Ltac vars v Hv :=
  let C := fresh in
  assert (C : (v = 0 \/ v = 1 \/ v = 2 \/ v = 3 \/ v = 4 \/ v = 5 \/ v = 6 \/ v = 7)%Z) by (clear - Hv; lia);
  destruct C as [->|[->|[->|[->|[->|[->|[->| ->]]]]]]].
Lemma lsum_addR {X} (f h : X -> R) xs : (lsum (map (fun x => f x + h x) xs) = lsum (map f xs) + lsum (map h xs))%R.
Proof. induction xs as [|x xs IH]; cbn; [lra|]. rewrite IH. lra. Qed.

Section P3.
Variable p : mparams R.
Variable g : grid.
Variable dt : R.
Hypothesis Hgw : 0 < gw g.
Notation D := (dtd p dt).
Notation fr := (rng3 g (gw g) (gw g - 1)).
Notation interior := (rng3 g (gw g) (gw g)).
Notation outM aOut := (fun l : loc => la l = aOut).
Local Open Scope R_scope.

(** Contribution of the face (edge) of cell c to cell t. *)
Definition pair (d : comp3) (x : R) (c t : cell) : R :=
  (if below g c && ceqb c t then x else 0) + (if above g d c && ceqb (move d (-1) c) t then - x else 0).
Lemma pair_sum d (X : cell -> R) t : interior t = true ->
  lsum (map (fun c => if fr c then pair d (X c) c t else 0) (cells3 g)) = X t - X (move d 1 t).
Proof.
  intros Ht. apply rng3_spec in Ht.
  assert (Nt : t <> move d 1 t).
  { destruct t as [[x y] z], d; unfold move, cx, cy, cz; cbn; intros E; injection E; lia. }
  assert (Mt : move d (-1) (move d 1 t) = t).
  { destruct t as [[x y] z], d; unfold move, cx, cy, cz; cbn [fst snd]; repeat f_equal; lia. }
  rewrite (lsum_support cell_eq_dec _ (cells3 g) [t; move d 1 t]).
  - cbn [map lsum].
    assert (E1 : fr t = true) by (apply rng3_spec; lia).
    assert (E2 : fr (move d 1 t) = true).
    { apply rng3_spec. destruct t as [[x y] z], d; unfold move, cx, cy, cz in *; cbn [fst snd] in *; lia. }
    rewrite E1, E2. unfold pair.
    assert (B1 : below g t = true).
    { unfold below, hi_ok. rewrite !andb_true_iff, !Z.ltb_lt. lia. }
    assert (A2 : above g d (move d 1 t) = true).
    { destruct t as [[x y] z], d; unfold above, hi_ok, move, cx, cy, cz in *; cbn [fst snd] in *;
        rewrite !andb_true_iff, !Z.ltb_lt; lia. }
    assert (C1 : ceqb t t = true) by (apply ceqb_spec; reflexivity).
    assert (C2 : ceqb (move d (-1) t) t = false).
    { apply not_true_iff_false. rewrite ceqb_spec. intros E. apply Nt. rewrite <- E at 1. rewrite <- E at 1.
      destruct t as [[x y] z], d; unfold move, cx, cy, cz in *; cbn [fst snd] in *; injection E; lia. }
    assert (C3 : ceqb (move d 1 t) t = false).
    { apply not_true_iff_false. rewrite ceqb_spec. congruence. }
    assert (C4 : ceqb (move d (-1) (move d 1 t)) t = true) by (apply ceqb_spec; exact Mt).
    rewrite B1, A2, C1, C2, C3, C4. rewrite !andb_false_r. cbn [andb]. lra.
  - apply NoDup_cells3.
  - repeat constructor; cbn; [|tauto]. intros [E|[]]. congruence.
  - intros y [<-|[<-|[]]].
    + rewrite <- (cell_eta t). apply in3; lia.
    + destruct t as [[x y] z], d; unfold move, cx, cy, cz in *; cbn [fst snd] in *; apply in3; lia.
  - intros c _ Hn. destruct (fr c); [|reflexivity]. unfold pair.
    destruct (ceqb c t) eqn:E1; [exfalso; apply ceqb_spec in E1; apply Hn; cbn; auto|].
    destruct (ceqb (move d (-1) c) t) eqn:E2; [exfalso; apply ceqb_spec in E2; apply Hn; cbn; right; left|].
    + rewrite <- E2. destruct c as [[x y] z], d; unfold move, cx, cy, cz; cbn [fst snd]; repeat f_equal; lia.
    + rewrite !andb_false_r. lra.
Qed.

(** Contributions of the accumulation of a flux and of an electromotive force. *)
Lemma contrib_flux3 d aOut c f st t v : (0 <= v < 8)%Z ->
  contrib (add_flux3 p g dt d aOut c f) st (at3 aOut t v) = pair d (fluxval false f v * D d) c t.
Proof using Type.
  intros Hv. unfold add_flux3. rewrite contrib_seq by (apply only_when, only_flux; intros; exact I).
  unfold flux_at, at3. rewrite !contrib_when, contrib_flux_add, contrib_flux_sub by exact Hv. unfold pair, ceqb.
  f_equal; [destruct (below g c)|destruct (above g d c)]; reflexivity.
Qed.
Lemma at_flux3 d aOut c f : atomic_prog (outM aOut) (add_flux3 p g dt d aOut c f).
Proof using Type.
  unfold add_flux3. apply at_bind; [|intros _]; apply at_when; intros _; apply at_flux; auto;
    intros; [apply at_add|apply at_sub]; auto.
Qed.
Lemma only_flux3 d aOut c f : only_upd (add_flux3 p g dt d aOut c f).
Proof using Type. unfold add_flux3. apply only_seq; apply only_when, only_flux; intros; exact I. Qed.

Definition esgn (e : comp3) (x : R) : R := match e with CY => x | _ => - x end.
Definition hite (e : comp3) (x : R) (c t : cell) (v : Z) : R :=
  (if (v =? iB (axis1 e))%Z then esgn e (pair (axis2 e) (x * D (axis2 e)) c t) else 0) -
  (if (v =? iB (axis2 e))%Z then esgn e (pair (axis1 e) (x * D (axis1 e)) c t) else 0).
Lemma contrib_emf3 e aOut c x st t v : (0 <= v < 8)%Z ->
  contrib (add_emf3 p g dt e aOut c x) st (at3 aOut t v) = hite e x c t v.
Proof using Type.
  intros Hv. unfold add_emf3. cbv zeta.
  assert (O1 : forall l y, only_upd (match e with CY => atomic_add | _ => atomic_sub end l y : prog R unit)) by (intros; destruct e; exact I).
  assert (O2 : forall l y, only_upd (match e with CY => atomic_sub | _ => atomic_add end l y : prog R unit)) by (intros; destruct e; exact I).
  rewrite contrib_seq by (apply only_when, only_seq; auto).
  rewrite contrib_seq by (apply only_when; auto).
  rewrite !contrib_when, contrib_seq by auto.
  unfold hite, pair.
  destruct e; cbn [axis1 axis2 esgn iB dtd]; unfold atomic_add, atomic_sub, rmw; cbn [contrib];
    unfold at3; rewrite !loc_eqb_vars;
    fold (ceqb c t) (ceqb (move CX (-1) c) t) (ceqb (move CY (-1) c) t) (ceqb (move CZ (-1) c) t);
    repeat match goal with
      | |- context [below g c] => destruct (below g c)
      | |- context [above g ?d c] => destruct (above g d c)
      | |- context [ceqb ?x t] => destruct (ceqb x t)
      end;
    cbn [andb]; vars v Hv; cbn; lra.
Qed.
Lemma at_emf3 e aOut c x : atomic_prog (outM aOut) (add_emf3 p g dt e aOut c x).
Proof using Type.
  unfold add_emf3. cbv zeta. destruct e;
    repeat (apply at_bind; [|intros _] || (apply at_when; intros _)); first [apply at_add|apply at_sub]; reflexivity.
Qed.
Lemma only_emf3 e aOut c x : only_upd (add_emf3 p g dt e aOut c x).
Proof using Type.
  unfold add_emf3. cbv zeta. destruct e; repeat (apply only_seq || apply only_when); exact I.
Qed.

(** A guarded loop of atomic additions. *)
Lemma atomic3 aOut (body : cell -> prog R unit) (s s' : store R) (K : cell -> cell -> Z -> R) :
  (forall c, atomic_prog (outM aOut) (body c)) ->
  (forall c t v, (0 <= v < 8)%Z -> contrib (body c) s (at3 aOut t v) = K c t v) ->
  par_exec s (md_for (cells3 g) (fun c => when (fr c) (body c))) s' ->
  (forall t v, (0 <= v < 8)%Z ->
     s' (at3 aOut t v) = s (at3 aOut t v) + lsum (map (fun c => if fr c then K c t v else 0) (cells3 g))) /\
  (forall l, la l <> aOut -> s' l = s l).
Proof using Type.
  intros Hat Hc Hex. apply (atomic_loop (outM aOut)) in Hex.
  2:{ intros c _. apply at_when. intros _. apply Hat. }
  destruct Hex as [Hv Hfr]. split; [|exact Hfr].
  intros t v Hv8. rewrite Hv. f_equal. apply lsum_ext. intros c _. rewrite contrib_when, Hc by exact Hv8. reflexivity.
Qed.

Lemma if_add (b : bool) (x y : R) : (if b then x + y else 0) = (if b then x else 0) + (if b then y else 0).
Proof using Type. destruct b; lra. Qed.
Lemma sum_flux3 d (F : cell -> ms R) t v : interior t = true ->
  lsum (map (fun c => if fr c then pair d (fluxval false (F c) v * D d) c t else 0) (cells3 g)) =
  fluxval false (F t) v * D d - fluxval false (F (move d 1 t)) v * D d.
Proof. intros Ht. apply (pair_sum d (fun c => fluxval false (F c) v * D d) t Ht). Qed.
Lemma sum_emf3 e (E : cell -> R) t v : interior t = true ->
  lsum (map (fun c => if fr c then hite e (E c) c t v else 0) (cells3 g)) =
  (if (v =? iB (axis1 e))%Z then esgn e (E t * D (axis2 e) - E (move (axis2 e) 1 t) * D (axis2 e)) else 0) -
  (if (v =? iB (axis2 e))%Z then esgn e (E t * D (axis1 e) - E (move (axis1 e) 1 t) * D (axis1 e)) else 0).
Proof.
  intros Ht. unfold hite.
  pose proof (pair_sum (axis2 e) (fun c => E c * D (axis2 e)) t Ht) as S2.
  pose proof (pair_sum (axis1 e) (fun c => E c * D (axis1 e)) t Ht) as S1. cbv beta in S1, S2.
  rewrite <- S1, <- S2. clear S1 S2 Ht.
  induction (cells3 g) as [|c cs IH]; cbn [map lsum].
  - destruct e, (v =? _)%Z, (v =? _)%Z; cbn; lra.
  - rewrite IH. clear IH. destruct (fr c); destruct e; cbn [esgn];
      destruct (v =? _)%Z, (v =? _)%Z; lra.
Qed.

(** Loops accumulating the flux along one axis (low-memory variant) or the three. *)
Lemma flux_loop1 d aOut body (F : cell -> ms R) (s s' : store R) :
  (forall c, atomic_prog (outM aOut) (body c)) ->
  (forall c t v, (0 <= v < 8)%Z -> contrib (body c) s (at3 aOut t v) = contrib (add_flux3 p g dt d aOut c (F c)) s (at3 aOut t v)) ->
  par_exec s (md_for (cells3 g) (fun c => when (fr c) (body c))) s' ->
  (forall t, interior t = true ->
     m3 s' aOut t = upd_flux3 sub (upd_flux3 add (m3 s aOut t) (F t) (D d)) (F (move d 1 t)) (D d)) /\
  (forall l, la l <> aOut -> s' l = s l).
Proof.
  intros Hat Hc Hex.
  destruct (atomic3 aOut body s s' (fun c t v => pair d (fluxval false (F c) v * D d) c t) Hat) as [H1 H2];
    [intros; rewrite Hc, contrib_flux3 by assumption; reflexivity|exact Hex|].
  split; [|exact H2]. intros t Ht. apply ms_of_vals3. intros v Hv. rewrite H1, sum_flux3, m3_val by assumption.
  generalize (F t) (F (move d 1 t)) (m3 s aOut t). intros f1 f2 u. clear - Hv. vars v Hv; unfold fluxval; cbn; lra.
Qed.

Lemma mflux_update3_spec junk aIn aOut (s s' : store R) : arr_ok aIn aOut -> par_exec s (mflux_update3 p g dt junk aOut) s' ->
  (forall c, interior c = true ->
     m3 s' aOut c = accf p dt (fun d c => mrot d (fmem p junk s d c)) (m3 s aOut c) c) /\
  (forall l, la l <> aOut -> s' l = s l).
Proof.
  intros Ha Hex. unfold mflux_update3 in Hex.
  set (F := fun d c => mrot d (fmem p junk s d c)).
  match type of Hex with par_exec _ (md_for _ (fun c => when _ (@?b c))) _ =>
  destruct (atomic3 aOut b s s' (fun c t v =>
    pair CX (fluxval false (F CX c) v * D CX) c t + (pair CY (fluxval false (F CY c) v * D CY) c t + pair CZ (fluxval false (F CZ c) v * D CZ) c t))) as [H1 H2] end;
    [| |exact Hex|].
  - intros c. cbv beta. nums.
    assert (L : forall d, atomic_prog (outM aOut) (load_flux3 p junk d c)).
    { intros d. unfold load_flux3, load. repeat (apply at_bind; [apply at_mload; intros; cbn [la]; destruct d; cbn [aFace]; marrays_goal; lia|intros ?]). apply at_ret. }
    repeat (apply at_bind; [first [apply L|apply at_flux3]|intros ?]). apply at_flux3.
  - intros c t v Hv. cbv beta.
    assert (L : forall d (f : ms R -> prog R unit) l, contrib (bind (load_flux3 p junk d c) f) s l = contrib (f (fmem p junk s d c)) s l) by reflexivity.
    assert (S : forall d (q : ms R) (f : unit -> prog R unit) l, contrib (bind (add_flux3 p g dt d aOut c q) f) s l = contrib (add_flux3 p g dt d aOut c q) s l + contrib (f tt) s l).
    { intros. change (bind (add_flux3 p g dt d aOut c q) f) with (bind (add_flux3 p g dt d aOut c q) (fun u => f u)).
      assert (E : forall u, f u = f tt) by (intros []; reflexivity).
      rewrite <- (contrib_seq _ (f tt)) by apply only_flux3.
      unfold add_flux3, flux_at, atomic_flux, when. destruct (below g c), (above g d c); reflexivity. }
    rewrite L, S, L, S, L. rewrite !contrib_flux3 by exact Hv. reflexivity.
  - split; [|exact H2]. intros t Ht. apply ms_of_vals3. intros v Hv. rewrite H1 by exact Hv.
    rewrite (lsum_ext _ (fun c => (if fr c then pair CX (fluxval false (F CX c) v * D CX) c t else 0) +
      ((if fr c then pair CY (fluxval false (F CY c) v * D CY) c t else 0) +
       (if fr c then pair CZ (fluxval false (F CZ c) v * D CZ) c t else 0)))) by (intros; destruct (fr _); lra).
    rewrite !lsum_addR, !sum_flux3, m3_val by assumption. unfold accf. cbn [dtd].
    generalize (F CX t) (F CX (move CX 1 t)) (F CY t) (F CY (move CY 1 t)) (F CZ t) (F CZ (move CZ 1 t)) (m3 s aOut t).
    intros f1 f2 f3 f4 f5 f6 u. clear - Hv. vars v Hv; unfold fluxval; cbn; lra.
Qed.

(** Loops accumulating the electromotive forces of the edges along one axis. *)
Definition ind1 (e : comp3) (E : cell -> R) (u : ms R) (t : cell) : ms R :=
  let d1 := axis1 e in let d2 := axis2 e in
  let u := setb d1 u (bcomp d1 u + esgn e (E t * D d2 - E (move d2 1 t) * D d2)) in
  setb d2 u (bcomp d2 u - esgn e (E t * D d1 - E (move d1 1 t) * D d1)).
Lemma emf_loop1 e aOut body (E : cell -> R) (s s' : store R) :
  (forall c, atomic_prog (outM aOut) (body c)) ->
  (forall c t v, (0 <= v < 8)%Z -> contrib (body c) s (at3 aOut t v) = contrib (add_emf3 p g dt e aOut c (E c)) s (at3 aOut t v)) ->
  par_exec s (md_for (cells3 g) (fun c => when (fr c) (body c))) s' ->
  (forall t, interior t = true -> m3 s' aOut t = ind1 e E (m3 s aOut t) t) /\
  (forall l, la l <> aOut -> s' l = s l).
Proof.
  intros Hat Hc Hex.
  destruct (atomic3 aOut body s s' (fun c t v => hite e (E c) c t v) Hat) as [H1 H2];
    [intros; rewrite Hc, contrib_emf3 by assumption; reflexivity|exact Hex|].
  split; [|exact H2]. intros t Ht. apply ms_of_vals3. intros v Hv. rewrite H1, sum_emf3, m3_val by assumption.
  unfold ind1. generalize (E t) (E (move (axis1 e) 1 t)) (E (move (axis2 e) 1 t)) (m3 s aOut t).
  intros f1 f2 f3 u. clear - Hv. destruct e; vars v Hv; cbn; lra.
Qed.
Lemma ind_all E u t : ind1 CX (E CX) (ind1 CY (E CY) (ind1 CZ (E CZ) u t) t) t = indf p dt E u t.
Proof using Type. unfold ind1, indf, induct. destruct u. unfold setb, axis1, axis2, with_A, with_B, with_C. cbn. f_equal; lra. Qed.
Lemma ind_all' E u t : ind1 CZ (E CZ) (ind1 CY (E CY) (ind1 CX (E CX) u t) t) t = indf p dt E u t.
Proof using Type. unfold ind1, indf, induct. destruct u. unfold setb, axis1, axis2, with_A, with_B, with_C. cbn. f_equal; lra. Qed.

Lemma memf_update3_spec aIn aOut (s s' : store R) : arr_ok aIn aOut -> par_exec s (memf_update3 p g dt aOut) s' ->
  (forall c, interior c = true -> m3 s' aOut c = indf p dt (emem p s) (m3 s aOut c) c) /\
  (forall l, la l <> aOut -> s' l = s l).
Proof.
  intros Ha Hex. unfold memf_update3 in Hex.
  match type of Hex with par_exec _ (md_for _ (fun c => when _ (@?b c))) _ =>
  destruct (atomic3 aOut b s s' (fun c t v =>
    hite CZ (emem p s CZ c) c t v + (hite CY (emem p s CY c) c t v + hite CX (emem p s CX c) c t v))) as [H1 H2] end;
    [| |exact Hex|].
  - intros c. cbv beta. nums.
    assert (L : forall e, atomic_prog (outM aOut) (load_emf3 p e c)).
    { intros d. unfold load_emf3, load. repeat (apply at_bind; [apply at_mload; intros; cbn [la]; destruct d; cbn [aEdge]; marrays_goal; lia|intros ?]). apply at_ret. }
    repeat (apply at_bind; [first [apply L|apply at_emf3]|intros ?]). apply at_emf3.
  - intros c t v Hv. cbv beta.
    assert (L : forall e (f : R -> prog R unit) l, contrib (bind (load_emf3 p e c) f) s l = contrib (f (emem p s e c)) s l) by reflexivity.
    assert (S : forall e (q : R) (f : unit -> prog R unit) l, contrib (bind (add_emf3 p g dt e aOut c q) f) s l = contrib (add_emf3 p g dt e aOut c q) s l + contrib (f tt) s l).
    { intros. rewrite <- (contrib_seq _ (f tt)) by apply only_emf3.
      unfold add_emf3, when. destruct e, (below g c); cbn [axis1 axis2]; repeat destruct (above g _ c); reflexivity. }
    rewrite L, S, L, S, L. rewrite !contrib_emf3 by exact Hv. reflexivity.
  - split; [|exact H2]. intros t Ht. apply ms_of_vals3. intros v Hv. rewrite H1 by exact Hv.
    rewrite (lsum_ext _ (fun c => (if fr c then hite CZ (emem p s CZ c) c t v else 0) +
      ((if fr c then hite CY (emem p s CY c) c t v else 0) +
       (if fr c then hite CX (emem p s CX c) c t v else 0)))) by (intros; destruct (fr _); lra).
    rewrite !lsum_addR, !sum_emf3, m3_val by assumption. unfold indf, induct. cbn [axis1 axis2 esgn].
    repeat match goal with |- context [emem p s ?e ?c] => generalize (emem p s e c); intros ? end.
    generalize (m3 s aOut t). intros u. clear - Hv. vars v Hv; cbn; lra.
Qed.
End P3.
