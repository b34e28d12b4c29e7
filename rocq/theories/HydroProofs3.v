(** What each loop of the 3D hydrodynamics solver computes. *)
From Coq Require Import ZArith List Bool Lia.
From Verif Require Import Arith Par ParProofs GridModel BoundaryModel BoundarySpec BoundaryProofs
  HydroState RiemannModel HydroPoint HydroKernels CellKernels HydroField HydroExec HydroSpec HydroProofs2.
Import ListNotations.
Open Scope Z_scope.
Open Scope prog_scope.

Lemma in3 g i j k : 0 <= i < isize g -> 0 <= j < jsize g -> 0 <= k < ksize g -> In (i, j, k) (cells3 g).
Proof. intros H1 H2 H3. apply In_cells3. cbn. auto. Qed.

Lemma interior3_spec g i j k :
  interior3 g i j k = true <-> gw g <= i < isize g - gw g /\ gw g <= j < jsize g - gw g
  /\ gw g <= k < ksize g - gw g.
Proof. unfold interior3. rewrite !andb_true_iff, !Z.leb_le, !Z.ltb_lt. lia. Qed.
Lemma faces3_spec g i j k :
  faces3 g i j k = true <-> gw g <= i <= isize g - gw g /\ gw g <= j <= jsize g - gw g
  /\ gw g <= k <= ksize g - gw g.
Proof. unfold faces3. rewrite !andb_true_iff, !Z.leb_le. lia. Qed.

Definition srange3 (g : grid) (i j k : Z) : bool :=
  (gw g - 1 <=? k) && (k <=? ksize g - gw g) && (gw g - 1 <=? j) && (j <=? jsize g - gw g) && (gw g - 1 <=? i) && (i <=? isize g - gw g).
Lemma srange3_spec g i j k :
  srange3 g i j k = true <-> gw g - 1 <= i <= isize g - gw g /\ gw g - 1 <= j <= jsize g - gw g
  /\ gw g - 1 <= k <= ksize g - gw g.
Proof. unfold srange3. rewrite !andb_true_iff, !Z.leb_le. lia. Qed.

Section P3.
Context {T : Type} {A : Arith T}.
Notation store := (store T).
Variable p : hparams T.
Variable g : grid.
Variable dt : T.
Variable ge : bool.
Variable junk : Z * Z * Z -> Z -> hs T.

(** Generic wrapper: a cellwise loop, seen through the state vectors. *)
Lemma st3_cellwise W cells body (s s' : store) a i j k :
  NoDup cells -> (forall c, In c cells -> cellprog W c (body c)) -> par_exec s (md_for cells body) s' ->
  In a W -> In (i, j, k) cells -> st3 s' a i j k = st3 (exec (body (i, j, k)) s) a i j k.
Proof.
  intros Hnd Hok Hex Ha Hc. destruct (cellwise_spec W cells body s s' Hnd Hok Hex) as [H1 _].
  unfold st3. rewrite !H1; auto.
Qed.
Lemma st3_frame (s s' : store) a i j k : (forall l, la l = a -> s' l = s l) -> st3 s' a i j k = st3 s a i j k.
Proof. intros H. unfold st3. rewrite !H; auto. Qed.
Lemma gr3_frame (s s' : store) i j k d : (forall l, la l = aG -> s' l = s l) -> gr3 s' i j k d = gr3 s i j k d.
Proof. intros H. unfold gr3. rewrite !H; auto. Qed.

(** ** ConvertToPrimitives *)
Lemma convert3_spec aIn (s s' : store) : aIn <> aQ -> par_exec s (convert3 p g aIn) s' ->
  (forall i j k, 0 <= i < isize g -> 0 <= j < jsize g -> 0 <= k < ksize g ->
     st3 s' aQ i j k = snd (computePrimitives3 p (st3 s aIn i j k))) /\
  (forall l, la l <> aQ -> s' l = s l).
Proof. clear junk.
  intros Ha Hex. unfold convert3 in Hex.
  cells_ok [aQ].
  { intros [[i j] k] Hc. apply In_cells3 in Hc. cbn [fst snd] in Hc.
    apply acc_if; intros _; [|apply acc_skip].
    apply acc_bind; [apply acc_load3; fp; congruence|intros u]. apply acc_put3; fp. }
  split.
  - intros i j k Hi Hj Hk'. rewrite (st3_cellwise _ _ _ s s' aQ i j k (NoDup_cells3 g) Hok Hex) by (cbn; auto using in3).
    cbn beta iota.
    assert (E : (0 <=? k) && (k <? ksize g) && (0 <=? j) && (j <? jsize g) && (0 <=? i) && (i <? isize g) = true).
    { rewrite !andb_true_iff, !Z.leb_le, !Z.ltb_lt. lia. }
    rewrite E, exec_load3, st3_put_same. unfold w0, computePrimitives3. cbn. reflexivity.
  - intros l Hl. eapply cellwise_other; eauto using NoDup_cells3. cbn. intuition.
Qed.

(** ** Fluxes, implementation version 0 *)
Definition riem3_ok := riemann_defined3 p = true.

Lemma slopes3_junk Q i j k jx jy jz : slopes_ok p -> slopes3 p Q i j k jx jy jz = slopes3 p Q i j k zs zs zs.
Proof.
  unfold slopes_ok, slopes_defined, slopes3, slope_unsplit_hydro_3d. intros H.
  destruct (eqb (slope_type p) zero); [reflexivity|]. cbn [orb] in H. rewrite H. reflexivity.
Qed.
Lemma riemann3_junk ql qr j : riem3_ok -> riemann_hydro3 p ql qr j = riemann_hydro3 p ql qr zs.
Proof.
  unfold riem3_ok, riemann_defined3, riemann_hydro3. intros H.
  destruct (riemann_type p =? RIEMANN_APPROX); [reflexivity|].
  destruct (riemann_type p =? RIEMANN_HLLC); [reflexivity|].
  destruct (riemann_type p =? RIEMANN_LLF); [reflexivity|discriminate].
Qed.

Lemma fluxes_body3_acc (R W : loc -> Prop) i j k :
  (forall i' j' k' v, Z.abs (i' - i) <= 2 -> Z.abs (j' - j) <= 2 -> Z.abs (k' - k) <= 2 -> i' <= i + 1 -> j' <= j + 1 -> k' <= k + 1 -> faces3 g i j k = true ->
     0 <= v < 5 -> R (Loc aQ i' j' k' v)) ->
  (forall i' j' k' v, ge = true -> i - 1 <= i' <= i -> j - 1 <= j' <= j -> k - 1 <= k' <= k -> faces3 g i j k = true -> 0 <= v < 3 -> R (Loc aG i' j' k' v)) ->
  (forall v, faces3 g i j k = true -> 0 <= v < 5 -> W (Loc aFx i j k v) /\ W (Loc aFy i j k v) /\ W (Loc aFz i j k v)) ->
  acc (T:=T) R W (fluxes_body3 p g dt ge junk i j k).
Proof.
  intros HQ HG HW. unfold fluxes_body3. apply acc_if; intros Hf; [|apply acc_skip].
  apply acc_bind; [apply acc_fetch3; intros; apply HQ; auto; lia|]. intros [qLoc [[dqX dqY] dqZ]].
  apply acc_bind; [apply acc_fetch3; intros; apply HQ; auto; lia|]. intros [qN [[dqXn dqYn] dqZn]].
  apply acc_bind; [apply acc_predict3; intros; apply HG; auto; lia|]. intros ql.
  apply acc_bind; [apply acc_predict3; intros; apply HG; auto; lia|]. intros qr.
  apply acc_bind; [apply acc_put3; intros; apply HW; auto|]. intros _.
  apply acc_bind; [apply acc_fetch3; intros; apply HQ; auto; lia|]. intros [qN2 [[dqXn2 dqYn2] dqZn2]].
  apply acc_bind; [apply acc_predict3; intros; apply HG; auto; lia|]. intros ql2.
  apply acc_bind; [apply acc_predict3; intros; apply HG; auto; lia|]. intros qr2.
  apply acc_bind; [apply acc_put3; intros; apply HW; auto|]. intros _.
  apply acc_bind; [apply acc_fetch3; intros; apply HQ; auto; lia|]. intros [qN3 [[dqXn3 dqYn3] dqZn3]].
  apply acc_bind; [apply acc_predict3; intros; apply HG; auto; lia|]. intros ql3.
  apply acc_bind; [apply acc_predict3; intros; apply HG; auto; lia|]. intros qr3.
  apply acc_put3; intros; apply HW; auto.
Qed.

Lemma slopes3_frame (s s1 : store) i j k : (forall l, la l = aQ -> s1 l = s l) ->
  slopes3 p (st3 s1 aQ) i j k zs zs zs = slopes3 p (st3 s aQ) i j k zs zs zs.
Proof. intros H. unfold slopes3. rewrite !(st3_frame s s1) by auto. reflexivity. Qed.

Lemma fluxes_body3_exec i j k (s : store) : slopes_ok p -> riem3_ok -> faces3 g i j k = true ->
  exec (fluxes_body3 p g dt ge junk i j k) s =
  exec (put3 aFz i j k (fluxZ3 p dt ge (st3 s aQ) (gr3 s) i j k))
   (exec (put3 aFy i j k (fluxY3 p dt ge (st3 s aQ) (gr3 s) i j k))
     (exec (put3 aFx i j k (fluxX3 p dt ge (st3 s aQ) (gr3 s) i j k)) s)).
Proof.
  intros Hs Hr Hf. unfold fluxes_body3. rewrite Hf.
  rewrite exec_fetch3. rewrite (slopes3_junk _ i j k) by auto.
  destruct (slopes3 p (st3 s aQ) i j k zs zs zs) as [[dqX dqY] dqZ] eqn:E0.
  rewrite exec_fetch3. rewrite (slopes3_junk _ (i - 1) j k) by auto.
  destruct (slopes3 p (st3 s aQ) (i - 1) j k zs zs zs) as [[dqXn dqYn] dqZn] eqn:E1.
  rewrite !exec_predict3, exec_put3.
  set (X := scale _ _).
  assert (EX : X = fluxX3 p dt ge (st3 s aQ) (gr3 s) i j k).
  { subst X. rewrite riemann3_junk by auto. unfold fluxX3, face3, tr3. rewrite E0, E1. reflexivity. }
  clearbody X. subst X. set (s1 := exec (put3 aFx _ _ _ _) s).
  assert (F1 : forall l, la l = aQ \/ la l = aG -> s1 l = s l).
  { intros l Hl. unfold s1. apply put3_other. left. destruct Hl as [-> | ->]; discriminate. }
  rewrite exec_fetch3. rewrite (slopes3_junk _ i (j - 1) k) by auto.
  rewrite (slopes3_frame s s1) by auto.
  destruct (slopes3 p (st3 s aQ) i (j - 1) k zs zs zs) as [[dqXn2 dqYn2] dqZn2] eqn:E2.
  rewrite !exec_predict3, exec_put3. rewrite !(gr3_frame s s1), (st3_frame s s1) by auto.
  set (Y := scale _ _).
  assert (EY : Y = fluxY3 p dt ge (st3 s aQ) (gr3 s) i j k).
  { subst Y. rewrite riemann3_junk by auto. unfold fluxY3, face3, tr3. rewrite E0, E2. reflexivity. }
  clearbody Y. subst Y. set (s2 := exec (put3 aFy _ _ _ _) s1).
  assert (F2 : forall l, la l = aQ \/ la l = aG -> s2 l = s l).
  { intros l Hl. rewrite <- F1 by auto. unfold s2. apply put3_other. left. destruct Hl as [-> | ->]; discriminate. }
  rewrite exec_fetch3. rewrite (slopes3_junk _ i j (k - 1)) by auto.
  rewrite (slopes3_frame s s2) by auto.
  destruct (slopes3 p (st3 s aQ) i j (k - 1) zs zs zs) as [[dqXn3 dqYn3] dqZn3] eqn:E3.
  rewrite !exec_predict3. rewrite !(gr3_frame s s2), (st3_frame s s2) by auto.
  f_equal. f_equal.
  rewrite riemann3_junk by auto. unfold fluxZ3, face3, tr3. rewrite E0, E3. reflexivity.
Qed.

Lemma fluxes3_spec (s s' : store) : slopes_ok p -> riem3_ok ->
  par_exec s (compute_and_store_fluxes3 p g dt ge junk) s' -> 0 < gw g ->
  (forall i j k, faces3 g i j k = true ->
     st3 s' aFx i j k = fluxX3 p dt ge (st3 s aQ) (gr3 s) i j k /\
     st3 s' aFy i j k = fluxY3 p dt ge (st3 s aQ) (gr3 s) i j k /\
     st3 s' aFz i j k = fluxZ3 p dt ge (st3 s aQ) (gr3 s) i j k) /\
  (forall l, la l <> aFx -> la l <> aFy -> la l <> aFz -> s' l = s l).
Proof.
  intros Hs Hr Hex Hg. unfold compute_and_store_fluxes3 in Hex. cells_ok [aFx; aFy; aFz].
  { intros [[i j] k] Hc. apply In_cells3 in Hc. cbn [fst snd] in Hc.
    apply fluxes_body3_acc; fp. }
  split.
  - intros i j k Hf. assert (Hc : In (i, j, k) (cells3 g)).
    { apply faces3_spec in Hf. apply in3; lia. }
    rewrite !(st3_cellwise _ _ _ s s' _ i j k (NoDup_cells3 g) Hok Hex) by (cbn; auto).
    cbn beta iota. rewrite fluxes_body3_exec by auto.
    rewrite st3_put_same, !st3_put_other by (left; discriminate). rewrite st3_put_same.
    rewrite st3_put_other by (left; discriminate). rewrite st3_put_same. auto.
  - intros l H1 H2 H3. eapply cellwise_other; eauto using NoDup_cells3. cbn. intuition.
Qed.

(** ** Update, implementation version 0 *)
Definition upd3 (F : hs T) (X X' Y Y' Z Z' : hs T) : hs T :=
  hs_map2 sub (hs_map2 add (hs_map2 sub (hs_map2 add (hs_map2 sub (hs_map2 add F X) X') Y) Y') Z) Z'.

Lemma update3_spec aOut (s s' : store) : aOut <> aFx -> aOut <> aFy -> aOut <> aFz -> 0 < gw g ->
  par_exec s (update3 g aOut) s' ->
  (forall i j k, interior3 g i j k = true ->
     st3 s' aOut i j k = upd3 (st3 s aOut i j k) (st3 s aFx i j k) (st3 s aFx (i + 1) j k) (st3 s aFy i j k) (st3 s aFy i (j + 1) k)
       (st3 s aFz i j k) (st3 s aFz i j (k + 1))) /\
  (forall i j k v, interior3 g i j k = false -> s' (Loc aOut i j k v) = s (Loc aOut i j k v)) /\
  (forall l, la l <> aOut -> s' l = s l).
Proof. clear junk.
  intros Hx Hy Hz Hg Hex. unfold update3 in Hex. cells_ok [aOut].
  { intros [[i j] k] Hc. apply In_cells3 in Hc. cbn [fst snd] in Hc.
    apply acc_if; intros _; [|apply acc_skip].
    do 5 (apply acc_bind; [apply acc_accum3; fp; congruence|intros _]).
    apply acc_accum3; fp; congruence. }
  split; [|split].
  - intros i j k Hf. assert (Hc : In (i, j, k) (cells3 g)).
    { apply interior3_spec in Hf. apply in3; lia. }
    rewrite (st3_cellwise _ _ _ s s' _ i j k (NoDup_cells3 g) Hok Hex) by (cbn; auto).
    cbn beta iota. rewrite Hf, !exec_bind.
    rewrite !accum3_st by auto. rewrite !st3_accum_other by auto. reflexivity.
  - intros i j k v Hf. destruct (cellwise_spec _ _ _ s s' (NoDup_cells3 g) Hok Hex) as [H1 H2].
    destruct (in_dec cell_eq_dec (i, j, k) (cells3 g)) as [Hc|Hc].
    + rewrite H1 by (cbn; auto). unfold at_of; cbn [li lj lk]. rewrite Hf. reflexivity.
    + apply H2. cbn. intros [_ H]. apply Hc, H.
  - intros l Hl. eapply cellwise_other; eauto using NoDup_cells3. cbn. intuition.
Qed.

(** ** Slopes, implementation version 1 *)
Lemma compute_slopes3_spec (s s' : store) : slopes_ok p -> 0 < gw g ->
  par_exec s (compute_slopes3 p g junk) s' ->
  (forall i j k, srange3 g i j k = true ->
     (st3 s' aSx i j k, st3 s' aSy i j k, st3 s' aSz i j k) = slopes3 p (st3 s aQ) i j k zs zs zs) /\
  (forall l, la l <> aSx -> la l <> aSy -> la l <> aSz -> s' l = s l).
Proof.
  intros Hsl Hg Hex. unfold compute_slopes3 in Hex. cells_ok [aSx; aSy; aSz].
  { intros [[i j] k] Hc. apply In_cells3 in Hc. cbn [fst snd] in Hc.
    apply acc_if; intros _; [|apply acc_skip].
    apply acc_bind; [apply acc_fetch3; fp|intros [q [[dx dy] dz]]].
    apply acc_bind; [apply acc_put3; fp|intros _]. apply acc_bind; [apply acc_put3; fp|intros _]. apply acc_put3; fp. }
  split.
  - intros i j k Hf. assert (Hc : In (i, j, k) (cells3 g)).
    { apply srange3_spec in Hf. apply in3; lia. }
    rewrite !(st3_cellwise _ _ _ s s' _ i j k (NoDup_cells3 g) Hok Hex) by (cbn; auto).
    cbn beta iota. unfold srange3 in Hf. rewrite Hf, exec_fetch3.
    rewrite slopes3_junk by auto.
    destruct (slopes3 p (st3 s aQ) i j k zs zs zs) as [[X Y] Z]. rewrite !exec_put3.
    rewrite st3_put_same, !st3_put_other by (left; discriminate). rewrite st3_put_same.
    rewrite st3_put_other by (left; discriminate). rewrite st3_put_same. auto.
  - intros l H1 H2 H3. eapply cellwise_other; eauto using NoDup_cells3. cbn. intuition.
Qed.

(** ** Trace and fluxes, implementation version 1 *)
Lemma trace_body3_acc (R W : loc -> Prop) d aF i j k :
  (forall a i' j' k' v, a = aQ \/ a = aSx \/ a = aSy \/ a = aSz -> i - 1 <= i' <= i -> j - 1 <= j' <= j -> k - 1 <= k' <= k ->
     faces3 g i j k = true -> 0 <= v < 5 -> R (Loc a i' j' k' v)) ->
  (forall i' j' k' v, ge = true -> i - 1 <= i' <= i -> j - 1 <= j' <= j -> k - 1 <= k' <= k -> faces3 g i j k = true -> 0 <= v < 3 ->
     R (Loc aG i' j' k' v)) ->
  (forall v, faces3 g i j k = true -> 0 <= v < 5 -> W (Loc aF i j k v)) ->
  acc (T:=T) R W (trace_body3 p g dt ge junk d aF i j k).
Proof.
  intros HQ HG HW. unfold trace_body3. apply acc_if; intros Hf; [|apply acc_skip].
  do 4 (apply acc_bind; [apply acc_load3; intros; apply HQ; auto; lia|intros ?]).
  destruct d.
  - apply acc_bind; [apply acc_predict3; intros; apply HG; auto; lia|intros qr].
    do 4 (apply acc_bind; [apply acc_load3; intros; apply HQ; auto; lia|intros ?]).
    apply acc_bind; [apply acc_predict3; intros; apply HG; auto; lia|intros ql].
    apply acc_put3; intros; apply HW; auto.
  - apply acc_bind; [apply acc_predict3; intros; apply HG; auto; lia|intros qr].
    do 4 (apply acc_bind; [apply acc_load3; intros; apply HQ; auto; lia|intros ?]).
    apply acc_bind; [apply acc_predict3; intros; apply HG; auto; lia|intros ql].
    apply acc_put3; intros; apply HW; auto.
  - do 4 (apply acc_bind; [apply acc_load3; intros; apply HQ; auto; lia|intros ?]).
    apply acc_bind; [apply acc_predict3; intros; apply HG; auto; lia|intros ql].
    apply acc_put3; intros; apply HW; auto.
Qed.

(** The slope arrays hold the slopes of the field in [aQ]. *)
Definition have_slopes3 (s : store) : Prop := forall i j k, srange3 g i j k = true ->
  (st3 s aSx i j k, st3 s aSy i j k, st3 s aSz i j k) = slopes3 p (st3 s aQ) i j k zs zs zs.

Lemma have_tr3 (s : store) i j k f : have_slopes3 s -> srange3 g i j k = true ->
  trace_unsplit_3d_along_dir p (st3 s aQ i j k) (st3 s aSx i j k) (st3 s aSy i j k) (st3 s aSz i j k)
    (dtdx p dt) (dtdy p dt) (dtdz p dt) f = tr3 p dt (st3 s aQ) i j k f.
Proof. intros H Hi. unfold tr3. rewrite <- (H i j k Hi). reflexivity. Qed.

Definition flux3 (d : direction) Q G := match d with XDIR => fluxX3 p dt ge Q G | YDIR => fluxY3 p dt ge Q G
  | ZDIR => fluxZ3' p dt ge Q G end.

Lemma trace_body3_exec d aF i j k (s : store) : riem3_ok -> have_slopes3 s -> faces3 g i j k = true ->
  exec (trace_body3 p g dt ge junk d aF i j k) s =
  exec (put3 aF i j k (flux3 d (st3 s aQ) (gr3 s) i j k)) s.
Proof.
  intros Hr Hs Hf. unfold trace_body3. rewrite Hf. apply faces3_spec in Hf.
  rewrite !exec_load3. destruct d.
  - rewrite exec_predict3, !exec_load3, exec_predict3, !have_tr3, riemann3_junk by (auto; apply srange3_spec; lia).
    reflexivity.
  - rewrite exec_predict3, !exec_load3, exec_predict3, !have_tr3, riemann3_junk by (auto; apply srange3_spec; lia).
    reflexivity.
  - rewrite !exec_load3, exec_predict3. cbv zeta. rewrite !have_tr3, riemann3_junk by (auto; apply srange3_spec; lia).
    reflexivity.
Qed.

Lemma trace3_spec d (s s' : store) : riem3_ok -> have_slopes3 s -> 0 < gw g ->
  par_exec s (trace_and_fluxes3 p g dt ge junk d aFx) s' ->
  (forall i j k, faces3 g i j k = true -> st3 s' aFx i j k = flux3 d (st3 s aQ) (gr3 s) i j k) /\
  (forall l, la l <> aFx -> s' l = s l).
Proof.
  intros Hr Hs Hg Hex. unfold trace_and_fluxes3 in Hex. cells_ok [aFx].
  { intros [[i j] k] Hc. apply In_cells3 in Hc. cbn [fst snd] in Hc.
    apply trace_body3_acc; fp. }
  split.
  - intros i j k Hf. assert (Hc : In (i, j, k) (cells3 g)).
    { apply faces3_spec in Hf. apply in3; lia. }
    rewrite !(st3_cellwise _ _ _ s s' _ i j k (NoDup_cells3 g) Hok Hex) by (cbn; auto).
    cbn beta iota. rewrite trace_body3_exec by auto. apply st3_put_same.
  - intros l H1. eapply cellwise_other; eauto using NoDup_cells3. cbn. intuition.
Qed.

(** ** Directional update, implementation version 1 *)
Lemma update_dir3_spec d aOut (s s' : store) : aOut <> aFx -> 0 < gw g ->
  par_exec s (update_dir3 g d aOut aFx) s' ->
  (forall i j k, interior3 g i j k = true ->
     st3 s' aOut i j k = hs_map2 sub (hs_map2 add (st3 s aOut i j k) (st3 s aFx i j k))
          (match d with XDIR => st3 s aFx (i + 1) j k | YDIR => st3 s aFx i (j + 1) k
                   | ZDIR => st3 s aFx i j (k + 1) end)) /\
  (forall i j k v, interior3 g i j k = false -> s' (Loc aOut i j k v) = s (Loc aOut i j k v)) /\
  (forall l, la l <> aOut -> s' l = s l).
Proof. clear junk.
  intros Hx Hg Hex. unfold update_dir3 in Hex. cells_ok [aOut].
  { intros [[i j] k] Hc. apply In_cells3 in Hc. cbn [fst snd] in Hc.
    apply acc_if; intros _; [|apply acc_skip]. destruct d.
    all: apply acc_bind; [apply acc_accum3; fp; congruence|intros _].
    all: apply acc_accum3; fp; congruence. }
  split; [|split].
  - intros i j k Hf. assert (Hc : In (i, j, k) (cells3 g)).
    { apply interior3_spec in Hf. apply in3; lia. }
    rewrite (st3_cellwise _ _ _ s s' _ i j k (NoDup_cells3 g) Hok Hex) by (cbn; auto).
    cbn beta iota. rewrite Hf. destruct d; rewrite !exec_bind;
    rewrite !accum3_st by auto; rewrite !st3_accum_other by auto; reflexivity.
  - intros i j k v Hf. destruct (cellwise_spec _ _ _ s s' (NoDup_cells3 g) Hok Hex) as [H1 H2].
    destruct (in_dec cell_eq_dec (i, j, k) (cells3 g)) as [Hc|Hc].
    + rewrite H1 by (cbn; auto). unfold at_of; cbn [li lj lk]. rewrite Hf. reflexivity.
    + apply H2. cbn. intros [_ H]. apply Hc, H.
  - intros l Hl. eapply cellwise_other; eauto using NoDup_cells3. cbn. intuition.
Qed.

(** ** Gravity source term *)
Lemma gravity3_spec aIn aOut (s s' : store) : arr_ok aIn aOut -> 0 < gw g ->
  par_exec s (gravity_term3 g dt aIn aOut) s' ->
  (forall i j k, interior3 g i j k = true ->
     st3 s' aOut i j k = gravity_source3 dt (hD (st3 s aIn i j k)) (st3 s aOut i j k) (gr3 s i j k IX) (gr3 s i j k IY) (gr3 s i j k IZ)) /\
  (forall i j k v, interior3 g i j k = false -> s' (Loc aOut i j k v) = s (Loc aOut i j k v)) /\
  (forall l, la l <> aOut -> s' l = s l).
Proof. clear junk.
  intros Ha Hg Hex. unfold gravity_term3 in Hex. cells_ok [aOut].
  { intros [[i j] k] Hc. apply In_cells3 in Hc. cbn [fst snd] in Hc.
    apply acc_if; intros _; [|apply acc_skip].
    apply acc_bind; [apply acc_rd; fp|intros r].
    apply acc_bind; [apply acc_load3; fp|intros u].
    do 3 (apply acc_bind; [apply acc_rd; fp|intros ?]).
    do 3 (apply acc_bind; [apply acc_wr; fp|intros ?]). apply acc_wr; fp. }
  split; [|split].
  - intros i j k Hf. assert (Hc : In (i, j, k) (cells3 g)).
    { apply interior3_spec in Hf. apply in3; lia. }
    rewrite (st3_cellwise _ _ _ s s' _ i j k (NoDup_cells3 g) Hok Hex) by (cbn; auto).
    cbn beta iota. rewrite Hf, exec_rd, exec_load3, !exec_rd, !exec_wr.
    unfold exec; cbn [run snd wr]. unfold st3 at 1. rewrite !upd_eq.
    cbn [Z.eqb Pos.eqb ID IP IU IV IW IE]. reflexivity.
  - intros i j k v Hf. destruct (cellwise_spec _ _ _ s s' (NoDup_cells3 g) Hok Hex) as [H1 H2].
    destruct (in_dec cell_eq_dec (i, j, k) (cells3 g)) as [Hc|Hc].
    + rewrite H1 by (cbn; auto). unfold at_of; cbn [li lj lk]. rewrite Hf. reflexivity.
    + apply H2. cbn. intros [_ H]. apply Hc, H.
  - intros l Hl. eapply cellwise_other; eauto using NoDup_cells3. cbn. intuition.
Qed.
End P3.
