(** The loops of the 2D MHD solver that accumulate with atomic additions, in
    exact arithmetic: their result does not depend on the interleaving. *)
From Coq Require Import ZArith List Bool Lia Reals Lra.
From Verif Require Import Arith Par ParProofs GridModel BoundaryModel BoundarySpec BoundaryProofs
  HydroState HydroKernels CellKernels HydroExec HydroSpec HydroProofs2 HydroStep2
  MhdState MhdRiemann MhdPoint MhdKernels2 MhdSpec MhdExec MhdField2 MhdProofs2 Atomic.
Import ListNotations.
Open Scope Z_scope.
Open Scope prog_scope.

Lemma at_mload (M : loc -> Prop) a i j k : (forall v, 0 <= v < 8 -> ~ M (Loc a i j k v)) -> atomic_prog M (mload (T:=R) a i j k).
Proof.
  intros H. unfold mload. repeat (apply at_bind; [apply at_rd, H; unfold ID, IP, IU, IV, IW, IA, IB, IC; lia|intros ?]).
  apply at_ret.
Qed.
Lemma at_bload (M : loc -> Prop) a i j k : (forall v, 0 <= v < 8 -> ~ M (Loc a i j k v)) -> atomic_prog M (bload (T:=R) a i j k).
Proof.
  intros H. unfold bload. repeat (apply at_bind; [apply at_rd, H; unfold ID, IP, IU, IV, IW, IA, IB, IC; lia|intros ?]).
  apply at_ret.
Qed.
Lemma at_add (M : loc -> Prop) l (d : R) : M l -> atomic_prog M (atomic_add l d).
Proof. intros H. apply at_rmw; auto. exists d. intros x. reflexivity. Qed.
Lemma at_sub (M : loc -> Prop) l (d : R) : M l -> atomic_prog M (atomic_sub l d).
Proof. intros H. apply at_rmw; auto. exists (- d)%R. intros x. cbn. lra. Qed.
Lemma at_when (M : loc -> Prop) b (q : prog R unit) : (b = true -> atomic_prog M q) -> atomic_prog M (when b q).
Proof. unfold when. destruct b; auto. intros _. apply at_skip. Qed.
Lemma at_flux (M : loc -> Prop) op wc a i j k (f : ms R) s : (forall l d, M l -> atomic_prog M (op l d)) ->
  (forall v, M (Loc a i j k v)) -> atomic_prog M (atomic_flux op wc a i j k f s).
Proof.
  intros Hop H. unfold atomic_flux. repeat (apply at_bind; [apply Hop, H|intros ?]).
  destruct wc; [apply Hop, H|apply at_skip].
Qed.

(** Flux entry added to variable v. *)
Definition fluxval (wc : bool) (f : ms R) (v : Z) : R :=
  if (v =? 5) || (v =? 6) then 0%R else if v =? 7 then (if wc then mC f else 0%R) else mget f v.

Lemma loc_eqb_vars a i j k v i' j' k' v' :
  loc_eqb (Loc a i j k v) (Loc a i' j' k' v') = (i =? i') && (j =? j') && (k =? k') && (v =? v').
Proof. unfold loc_eqb. cbn [la li lj lk lv]. rewrite Z.eqb_refl. reflexivity. Qed.

Lemma contrib_flux_add wc a i j k f s st i' j' k' v : 0 <= v < 8 ->
  contrib (atomic_flux atomic_add wc a i j k f s) st (Loc a i' j' k' v) =
  if (i =? i') && (j =? j') && (k =? k') then (fluxval wc f v * s)%R else 0%R.
Proof.
  intros H. unfold atomic_flux, atomic_add, rmw. cbn [bind contrib].
  assert (C : v = 0 \/ v = 1 \/ v = 2 \/ v = 3 \/ v = 4 \/ v = 5 \/ v = 6 \/ v = 7) by lia.
  destruct wc; cbn [contrib bind]; rewrite !loc_eqb_vars;
  destruct ((i =? i') && (j =? j') && (k =? k')); cbn [andb]; [| cbn; lra| |cbn; lra];
  destruct C as [->|[->|[->|[->|[->|[->|[->| ->]]]]]]]; cbn; lra.
Qed.
Lemma contrib_flux_sub wc a i j k f s st i' j' k' v : 0 <= v < 8 ->
  contrib (atomic_flux atomic_sub wc a i j k f s) st (Loc a i' j' k' v) =
  if (i =? i') && (j =? j') && (k =? k') then (- (fluxval wc f v * s))%R else 0%R.
Proof.
  intros H. unfold atomic_flux, atomic_sub, rmw. cbn [bind contrib].
  assert (C : v = 0 \/ v = 1 \/ v = 2 \/ v = 3 \/ v = 4 \/ v = 5 \/ v = 6 \/ v = 7) by lia.
  destruct wc; cbn [contrib bind]; rewrite !loc_eqb_vars;
  destruct ((i =? i') && (j =? j') && (k =? k')); cbn [andb]; [| cbn; lra| |cbn; lra];
  destruct C as [->|[->|[->|[->|[->|[->|[->| ->]]]]]]]; cbn; lra.
Qed.
Lemma only_flux op wc a i j k (f : ms R) s : (forall l d, only_upd (op l d)) ->
  only_upd (atomic_flux op wc a i j k f s).
Proof.
  intros H. unfold atomic_flux. repeat (apply only_seq; [apply H|]). destruct wc; [apply H|exact I].
Qed.
Lemma only_when b (q : prog R unit) : only_upd q -> only_upd (when b q).
Proof. destruct b; cbn; auto. Qed.
Lemma contrib_when b (q : prog R unit) s l : contrib (when b q) s l = if b then contrib q s l else 0%R.
Proof. destruct b; reflexivity. Qed.
(** Decide integer tests. *)
Ltac zb := repeat match goal with
  | |- context [?a =? ?b] => destruct (Z.eqb_spec a b); try (exfalso; lia)
  | |- context [?a <? ?b] => destruct (Z.ltb_spec a b); try (exfalso; lia)
  | |- context [?a <=? ?b] => destruct (Z.leb_spec a b); try (exfalso; lia)
  end; cbn [andb orb].

Section P2.
Variable p : mparams R.
Variable g : grid.
Variable dt : R.
Variable junk : Z * Z * Z -> Z -> ms R.
Notation Dx := (dtdx (mh p) dt).
Notation Dy := (dtdy (mh p) dt).
Local Open Scope R_scope.

Definition hitX (f : ms R) (a b i j v : Z) : R :=
  (if ((b <? jsize g - gw g) && (a <? isize g - gw g) && ((a =? i) && (b =? j)))%Z then fluxval true f v * Dx else 0) +
  (if ((b <? jsize g - gw g) && (gw g <? a) && ((a - 1 =? i) && (b =? j)))%Z then - (fluxval true f v * Dx) else 0).
Definition hitY (f : ms R) (a b i j v : Z) : R :=
  (if ((b <? jsize g - gw g) && (a <? isize g - gw g) && ((a =? i) && (b =? j)))%Z then fluxval true f v * Dy else 0) +
  (if ((gw g <? b) && (a <? isize g - gw g) && ((a =? i) && (b - 1 =? j)))%Z then - (fluxval true f v * Dy) else 0).

Lemma contrib_fluxX aOut a b f st i j v : (0 <= v < 8)%Z ->
  contrib (add_fluxX2 p g dt aOut a b f) st (Loc aOut i j 0 v) = hitX f a b i j v.
Proof. clear junk.
  intros Hv. unfold add_fluxX2. rewrite contrib_seq by (apply only_when, only_flux; intros; exact I).
  rewrite !contrib_when, contrib_flux_add, contrib_flux_sub by exact Hv. unfold hitX.
  rewrite Z.eqb_refl, !andb_true_r. f_equal.
  - destruct ((b <? jsize g - gw g) && (a <? isize g - gw g))%Z; reflexivity.
  - destruct ((b <? jsize g - gw g) && (gw g <? a))%Z; reflexivity.
Qed.
Lemma contrib_fluxY aOut a b f st i j v : (0 <= v < 8)%Z ->
  contrib (add_fluxY2 p g dt aOut a b f) st (Loc aOut i j 0 v) = hitY f a b i j v.
Proof. clear junk.
  intros Hv. unfold add_fluxY2. rewrite contrib_seq by (apply only_when, only_flux; intros; exact I).
  rewrite !contrib_when, contrib_flux_add, contrib_flux_sub by exact Hv. unfold hitY.
  rewrite Z.eqb_refl, !andb_true_r. f_equal.
  - destruct ((b <? jsize g - gw g) && (a <? isize g - gw g))%Z; reflexivity.
  - destruct ((gw g <? b) && (a <? isize g - gw g))%Z; reflexivity.
Qed.
Lemma at_fluxX (M : loc -> Prop) aOut a b f : (forall i j v, M (Loc aOut i j 0%Z v)) -> atomic_prog M (add_fluxX2 p g dt aOut a b f).
Proof. clear junk.
  intros H. unfold add_fluxX2. apply at_bind; [|intros _]; apply at_when; intros _; apply at_flux; auto;
    intros; [apply at_add|apply at_sub]; auto.
Qed.
Lemma at_fluxY (M : loc -> Prop) aOut a b f : (forall i j v, M (Loc aOut i j 0%Z v)) -> atomic_prog M (add_fluxY2 p g dt aOut a b f).
Proof. clear junk.
  intros H. unfold add_fluxY2. apply at_bind; [|intros _]; apply at_when; intros _; apply at_flux; auto;
    intros; [apply at_add|apply at_sub]; auto.
Qed.
Lemma only_fluxX aOut a b f : only_upd (add_fluxX2 p g dt aOut a b f).
Proof. clear junk. unfold add_fluxX2. apply only_seq; apply only_when, only_flux; intros; exact I. Qed.
Lemma only_fluxY aOut a b f : only_upd (add_fluxY2 p g dt aOut a b f).
Proof. clear junk. unfold add_fluxY2. apply only_seq; apply only_when, only_flux; intros; exact I. Qed.

(** Sum of the contributions of all cells to an interior cell. *)
Lemma sumX (F : Z -> Z -> ms R) i j v : interior2 g i j = true -> (0 < gw g)%Z ->
  lsum (map (fun '(a, b, _) => if faces2 g a b then hitX (F a b) a b i j v else 0) (cells2 g)) =
  fluxval true (F i j) v * Dx - fluxval true (F (i + 1)%Z j) v * Dx.
Proof. clear junk.
  intros Hi Hg. apply interior2_spec in Hi.
  rewrite (lsum_support cell_eq_dec _ (cells2 g) [(i, j, 0%Z); ((i + 1)%Z, j, 0%Z)]).
  - cbn [map lsum].
    assert (E1 : faces2 g i j = true) by (apply faces2_spec; lia).
    assert (E2 : faces2 g (i + 1) j = true) by (apply faces2_spec; lia).
    rewrite E1, E2. unfold hitX. zb; lra.
  - apply NoDup_cells2.
  - repeat constructor; cbn; [|tauto]. intros [E|[]]. inversion E. lia.
  - intros y [<-|[<-|[]]]; apply in2; lia.
  - intros [[a b] c] Hc Hn. apply In_cells2 in Hc. cbn [fst snd] in Hc. destruct Hc as (_ & _ & ->).
    cbn [In] in Hn. destruct (faces2 g a b); [|reflexivity]. unfold hitX.
    zb; subst; try lra; exfalso; apply Hn; first [left; repeat f_equal; lia | right; left; repeat f_equal; lia].
Qed.
Lemma sumY (F : Z -> Z -> ms R) i j v : interior2 g i j = true -> (0 < gw g)%Z ->
  lsum (map (fun '(a, b, _) => if faces2 g a b then hitY (F a b) a b i j v else 0) (cells2 g)) =
  fluxval true (F i j) v * Dy - fluxval true (F i (j + 1)%Z) v * Dy.
Proof. clear junk.
  intros Hi Hg. apply interior2_spec in Hi.
  rewrite (lsum_support cell_eq_dec _ (cells2 g) [(i, j, 0%Z); (i, (j + 1)%Z, 0%Z)]).
  - cbn [map lsum].
    assert (E1 : faces2 g i j = true) by (apply faces2_spec; lia).
    assert (E2 : faces2 g i (j + 1) = true) by (apply faces2_spec; lia).
    rewrite E1, E2. unfold hitY. zb; lra.
  - apply NoDup_cells2.
  - repeat constructor; cbn; [|tauto]. intros [E|[]]. inversion E. lia.
  - intros y [<-|[<-|[]]]; apply in2; lia.
  - intros [[a b] c] Hc Hn. apply In_cells2 in Hc. cbn [fst snd] in Hc. destruct Hc as (_ & _ & ->).
    cbn [In] in Hn. destruct (faces2 g a b); [|reflexivity]. unfold hitY.
    zb; subst; try lra; exfalso; apply Hn; first [left; repeat f_equal; lia | right; left; repeat f_equal; lia].
Qed.

(** Value of an interior cell after flux accumulation. *)
Definition acc2 (u fx0 fx1 fy0 fy1 : ms R) : ms R :=
  upd_flux sub (upd_flux add (upd_flux sub (upd_flux add u fx0 Dx) fx1 Dx) (mswapY fy0) Dy) (mswapY fy1) Dy.

Lemma ms_of_vals (s : store R) a i j (u : ms R) : (forall v, (0 <= v < 8)%Z -> s (Loc a i j 0%Z v) = mget u v) -> m2 s a i j = u.
Proof. clear junk.
  intros H. unfold m2, mst. rewrite !H by (unfold ID, IP, IU, IV, IW, IA, IB, IC; lia). destruct u; reflexivity.
Qed.
Lemma m2_val (s : store R) a i j v : (0 <= v < 8)%Z -> s (Loc a i j 0%Z v) = mget (m2 s a i j) v.
Proof. clear junk.
  intros Hv. assert (C : (v = 0 \/ v = 1 \/ v = 2 \/ v = 3 \/ v = 4 \/ v = 5 \/ v = 6 \/ v = 7)%Z) by lia.
  destruct C as [->|[->|[->|[->|[->|[->|[->| ->]]]]]]]; reflexivity.
Qed.
Ltac vars v Hv :=
  let C := fresh in
  assert (C : (v = 0 \/ v = 1 \/ v = 2 \/ v = 3 \/ v = 4 \/ v = 5 \/ v = 6 \/ v = 7)%Z) by (clear - Hv; lia);
  destruct C as [->|[->|[->|[->|[->|[->|[->| ->]]]]]]].

Notation outM aOut := (fun l : loc => la l = aOut).

Lemma lsum_add {X} (f h : X -> R) xs : lsum (map (fun x => f x + h x) xs) = lsum (map f xs) + lsum (map h xs).
Proof. clear junk. induction xs as [|x xs IH]; cbn; [lra|]. rewrite IH. lra. Qed.

Lemma mflux_update2_spec aIn aOut (s s' : store R) : arr_ok aIn aOut -> (0 < gw g)%Z ->
  par_exec s (mflux_update2 p g dt junk aOut) s' ->
  (forall i j, interior2 g i j = true -> m2 s' aOut i j =
     acc2 (m2 s aOut i j) (fX p junk s i j) (fX p junk s (i + 1) j) (fY p junk s i j) (fY p junk s i (j + 1))) /\
  (forall l, la l <> aOut -> s' l = s l).
Proof.
  intros Ha Hg Hex. unfold mflux_update2 in Hex. apply (atomic_loop (outM aOut)) in Hex.
  2:{ cells2_intro. nums. apply at_when. intros _. apply at_bind.
      - unfold load_fluxes2. repeat (apply at_bind; [apply at_mload; intros; cbn [la]; marrays_goal; lia|intros ?]). apply at_ret.
      - intros f. apply at_bind; [apply at_fluxX|intros _; apply at_fluxY]; reflexivity. }
  destruct Hex as [Hv Hfr]. split; [|exact Hfr].
  intros i j Hi. apply ms_of_vals. intros v Hv8. rewrite Hv, (m2_val s _ _ _ _ Hv8).
  rewrite (lsum_ext _ (fun c => (let '(a, b, _) := c in if faces2 g a b then hitX (fX p junk s a b) a b i j v else 0) +
       (let '(a, b, _) := c in if faces2 g a b then hitY (mswapY (fY p junk s a b)) a b i j v else 0)) (cells2 g)).
  2:{ intros [[a b] c] _. rewrite contrib_when. destruct (faces2 g a b); [|lra].
      change (contrib (bind (load_fluxes2 p junk a b) ?f) s ?l) with (contrib (f (fX p junk s a b, fY p junk s a b)) s l).
      cbn [fst snd]. rewrite contrib_seq by apply only_fluxX. rewrite contrib_fluxX, contrib_fluxY by exact Hv8. reflexivity. }
  rewrite lsum_add, sumX, (sumY (fun a b => mswapY (fY p junk s a b))) by auto.
  generalize (fX p junk s i j) (fX p junk s (i + 1)%Z j) (fY p junk s i j) (fY p junk s i (j + 1)%Z) (m2 s aOut i j).
  intros f1 f2 f3 f4 u. clear - Hv8. vars v Hv8; unfold acc2, fluxval; cbn; lra.
Qed.

(** Electromotive forces. *)
Definition hitE (e : R) (a b i j v : Z) : R :=
  if (v =? 5)%Z then (if ((a =? i) && (b =? j))%Z then - (e * Dy) else 0) +
                     (if ((a =? i) && (b - 1 =? j))%Z then e * Dy else 0)
  else if (v =? 6)%Z then (if ((a =? i) && (b =? j))%Z then e * Dx else 0) +
                     (if ((a - 1 =? i) && (b =? j))%Z then - (e * Dx) else 0)
  else 0.
Lemma contrib_emf aOut a b e st i j v : (0 <= v < 8)%Z ->
  contrib (add_emf2 p dt aOut a b e) st (Loc aOut i j 0 v) = hitE e a b i j v.
Proof. clear junk.
  intros Hv. unfold add_emf2, atomic_sub, atomic_add, rmw. cbn [bind contrib]. rewrite !loc_eqb_vars, Z.eqb_refl, !andb_true_r.
  unfold hitE. destruct ((a =? i) && (b =? j))%Z, ((a =? i) && (b - 1 =? j))%Z, ((a - 1 =? i) && (b =? j))%Z;
  vars v Hv; cbn; lra.
Qed.
Lemma at_emf (M : loc -> Prop) aOut a b e : (forall i j v, M (Loc aOut i j 0%Z v)) -> atomic_prog M (add_emf2 p dt aOut a b e).
Proof. clear junk.
  intros H. unfold add_emf2. repeat (apply at_bind; [apply at_sub + apply at_add; apply H|intros _]). apply at_sub, H.
Qed.
Lemma sumE (E : Z -> Z -> R) i j v : interior2 g i j = true -> (0 < gw g)%Z ->
  lsum (map (fun '(a, b, _) => if faces2 g a b then hitE (E a b) a b i j v else 0) (cells2 g)) =
  if (v =? 5)%Z then (E i (j + 1)%Z - E i j) * Dy
  else if (v =? 6)%Z then - (E (i + 1)%Z j - E i j) * Dx else 0.
Proof. clear junk.
  intros Hi Hg. apply interior2_spec in Hi.
  rewrite (lsum_support cell_eq_dec _ (cells2 g) [(i, j, 0%Z); ((i + 1)%Z, j, 0%Z); (i, (j + 1)%Z, 0%Z)]).
  - cbn [map lsum].
    assert (E1 : faces2 g i j = true) by (apply faces2_spec; lia).
    assert (E2 : faces2 g (i + 1) j = true) by (apply faces2_spec; lia).
    assert (E3 : faces2 g i (j + 1) = true) by (apply faces2_spec; lia).
    rewrite E1, E2, E3. unfold hitE. destruct (Z.eqb_spec v 5), (Z.eqb_spec v 6); zb; lra.
  - apply NoDup_cells2.
  - repeat constructor; cbn; intros H; repeat destruct H as [H|H]; try tauto; inversion H; lia.
  - intros y [<-|[<-|[<-|[]]]]; apply in2; lia.
  - intros [[a b] c] Hc Hn. apply In_cells2 in Hc. cbn [fst snd] in Hc. destruct Hc as (_ & _ & ->).
    cbn [In] in Hn. destruct (faces2 g a b); [|reflexivity]. unfold hitE.
    destruct (Z.eqb_spec v 5), (Z.eqb_spec v 6); try lra;
    zb; subst; try lra; exfalso; apply Hn;
      first [left; repeat f_equal; lia | right; left; repeat f_equal; lia | right; right; left; repeat f_equal; lia].
Qed.

(** Value of an interior cell after the electromotive forces. *)
Definition ind2 (u : ms R) (e00 e10 e01 : R) : ms R :=
  with_B (with_A u (mA u + (e01 - e00) * Dy)) (mB u - (e10 - e00) * Dx).

(** Any loop whose bodies add the electromotive force of their edge. *)
Lemma emf_loop2 (body : Z * Z * Z -> prog R unit) (E : Z -> Z -> R) aOut (s s' : store R) : (0 < gw g)%Z ->
  (forall c, In c (cells2 g) -> atomic_prog (outM aOut) (body c)) ->
  (forall a b i j v, (0 <= v < 8)%Z -> contrib (body (a, b, 0%Z)) s (Loc aOut i j 0 v) =
     if faces2 g a b then contrib (add_emf2 p dt aOut a b (E a b)) s (Loc aOut i j 0 v) else 0) ->
  par_exec s (md_for (cells2 g) body) s' ->
  (forall i j, interior2 g i j = true -> m2 s' aOut i j =
     ind2 (m2 s aOut i j) (E i j) (E (i + 1)%Z j) (E i (j + 1)%Z)) /\
  (forall l, la l <> aOut -> s' l = s l).
Proof. clear junk.
  intros Hg Hat Hc Hex. apply (atomic_loop (outM aOut)) in Hex; [|exact Hat].
  destruct Hex as [Hv Hfr]. split; [|exact Hfr].
  intros i j Hi. apply ms_of_vals. intros v Hv8. rewrite Hv, (m2_val s _ _ _ _ Hv8).
  rewrite (lsum_ext _ (fun '(a, b, _) => if faces2 g a b then hitE (E a b) a b i j v else 0) (cells2 g)).
  2:{ intros [[a b] c] Hin. apply In_cells2 in Hin. cbn [fst snd] in Hin. destruct Hin as (_ & _ & ->).
      rewrite Hc by exact Hv8. rewrite contrib_emf by exact Hv8. reflexivity. }
  rewrite sumE by auto.
  generalize (E i j) (E (i + 1)%Z j) (E i (j + 1)%Z) (m2 s aOut i j).
  intros f1 f2 f3 u. clear - Hv8. vars v Hv8; unfold ind2; cbn; lra.
Qed.

Lemma memf_update2_spec aIn aOut (s s' : store R) : arr_ok aIn aOut -> (0 < gw g)%Z ->
  par_exec s (memf_update2 p g dt aOut) s' ->
  (forall i j, interior2 g i j = true -> m2 s' aOut i j =
     ind2 (m2 s aOut i j) (eZ p s i j) (eZ p s (i + 1) j) (eZ p s i (j + 1))) /\
  (forall l, la l <> aOut -> s' l = s l).
Proof. clear junk.
  intros Ha Hg Hex. unfold memf_update2 in Hex.
  eapply (emf_loop2 _ (eZ p s)); [exact Hg| | |exact Hex].
  - cells2_intro. nums. apply at_when. intros _. apply at_bind.
    + unfold load_emf2. repeat (apply at_bind; [apply at_mload; intros; cbn [la]; marrays_goal; lia|intros ?]). apply at_ret.
    + intros f. apply at_emf. reflexivity.
  - intros a b i j v _. cbn beta iota. rewrite contrib_when. reflexivity.
Qed.

(** Loops whose bodies add the flux through their lower X (Y) face. *)
Lemma fluxX_loop2 (body : Z * Z * Z -> prog R unit) (F : Z -> Z -> ms R) aOut (s s' : store R) : (0 < gw g)%Z ->
  (forall c, In c (cells2 g) -> atomic_prog (outM aOut) (body c)) ->
  (forall a b i j v, (0 <= v < 8)%Z -> contrib (body (a, b, 0%Z)) s (Loc aOut i j 0 v) =
     if faces2 g a b then contrib (add_fluxX2 p g dt aOut a b (F a b)) s (Loc aOut i j 0 v) else 0) ->
  par_exec s (md_for (cells2 g) body) s' ->
  (forall i j, interior2 g i j = true -> m2 s' aOut i j =
     upd_flux sub (upd_flux add (m2 s aOut i j) (F i j) Dx) (F (i + 1)%Z j) Dx) /\
  (forall l, la l <> aOut -> s' l = s l).
Proof. clear junk.
  intros Hg Hat Hc Hex. apply (atomic_loop (outM aOut)) in Hex; [|exact Hat].
  destruct Hex as [Hv Hfr]. split; [|exact Hfr].
  intros i j Hi. apply ms_of_vals. intros v Hv8. rewrite Hv, (m2_val s _ _ _ _ Hv8).
  rewrite (lsum_ext _ (fun '(a, b, _) => if faces2 g a b then hitX (F a b) a b i j v else 0) (cells2 g)).
  2:{ intros [[a b] c] Hin. apply In_cells2 in Hin. cbn [fst snd] in Hin. destruct Hin as (_ & _ & ->).
      rewrite Hc by exact Hv8. rewrite contrib_fluxX by exact Hv8. reflexivity. }
  rewrite sumX by auto.
  generalize (F i j) (F (i + 1)%Z j) (m2 s aOut i j).
  intros f1 f2 u. clear - Hv8. vars v Hv8; unfold fluxval; cbn; lra.
Qed.
Lemma fluxY_loop2 (body : Z * Z * Z -> prog R unit) (F : Z -> Z -> ms R) aOut (s s' : store R) : (0 < gw g)%Z ->
  (forall c, In c (cells2 g) -> atomic_prog (outM aOut) (body c)) ->
  (forall a b i j v, (0 <= v < 8)%Z -> contrib (body (a, b, 0%Z)) s (Loc aOut i j 0 v) =
     if faces2 g a b then contrib (add_fluxY2 p g dt aOut a b (F a b)) s (Loc aOut i j 0 v) else 0) ->
  par_exec s (md_for (cells2 g) body) s' ->
  (forall i j, interior2 g i j = true -> m2 s' aOut i j =
     upd_flux sub (upd_flux add (m2 s aOut i j) (F i j) Dy) (F i (j + 1)%Z) Dy) /\
  (forall l, la l <> aOut -> s' l = s l).
Proof. clear junk.
  intros Hg Hat Hc Hex. apply (atomic_loop (outM aOut)) in Hex; [|exact Hat].
  destruct Hex as [Hv Hfr]. split; [|exact Hfr].
  intros i j Hi. apply ms_of_vals. intros v Hv8. rewrite Hv, (m2_val s _ _ _ _ Hv8).
  rewrite (lsum_ext _ (fun '(a, b, _) => if faces2 g a b then hitY (F a b) a b i j v else 0) (cells2 g)).
  2:{ intros [[a b] c] Hin. apply In_cells2 in Hin. cbn [fst snd] in Hin. destruct Hin as (_ & _ & ->).
      rewrite Hc by exact Hv8. rewrite contrib_fluxY by exact Hv8. reflexivity. }
  rewrite sumY by auto.
  generalize (F i j) (F i (j + 1)%Z) (m2 s aOut i j).
  intros f1 f2 u. clear - Hv8. vars v Hv8; unfold fluxval; cbn; lra.
Qed.
End P2.
