(** What each loop of the 2D hydrodynamics solver computes. *)
From Coq Require Import ZArith List Bool Lia.
From Verif Require Import Arith Par ParProofs GridModel BoundaryModel BoundarySpec BoundaryProofs
  HydroState RiemannModel HydroPoint HydroKernels CellKernels HydroField HydroExec HydroSpec.
Import ListNotations.
Open Scope Z_scope.
Open Scope prog_scope.

Ltac arrays := unfold arr_ok, aU, aU2, aQ, aFx, aFy, aFz, aSx, aSy, aSz, aG in *.

(** Side conditions about footprints of cellwise loops. *)
Ltac fp := intros; unfold cellR, cellW, at_of; cbn [la li lj lk lv In]; arrays;
  repeat split; intros; repeat match goal with H : _ \/ _ |- _ => destruct H | H : _ /\ _ |- _ => destruct H end;
  subst; try lia; try discriminate; try tauto; try reflexivity.

Ltac cells_ok W := let c := fresh "c" in
  match goal with Hex : par_exec ?s (md_for ?cells ?b) ?s' |- _ =>
    assert (Hok : forall c, In c cells -> cellprog W c (b c)) end.

Lemma in2 g i j : 0 <= i < isize g -> 0 <= j < jsize g -> In (i, j, 0) (cells2 g).
Proof. intros H1 H2. apply In_cells2. cbn. auto. Qed.

Lemma interior2_spec g i j :
  interior2 g i j = true <-> gw g <= i < isize g - gw g /\ gw g <= j < jsize g - gw g.
Proof. unfold interior2. rewrite !andb_true_iff, !Z.leb_le, !Z.ltb_lt. lia. Qed.
Lemma faces2_spec g i j :
  faces2 g i j = true <-> gw g <= i <= isize g - gw g /\ gw g <= j <= jsize g - gw g.
Proof. unfold faces2. rewrite !andb_true_iff, !Z.leb_le. lia. Qed.

Definition srange2 (g : grid) (i j : Z) : bool :=
  (gw g - 1 <=? j) && (j <=? jsize g - gw g) && (gw g - 1 <=? i) && (i <=? isize g - gw g).
Lemma srange2_spec g i j :
  srange2 g i j = true <-> gw g - 1 <= i <= isize g - gw g /\ gw g - 1 <= j <= jsize g - gw g.
Proof. unfold srange2. rewrite !andb_true_iff, !Z.leb_le. lia. Qed.

Section P2.
Context {T : Type} {A : Arith T}.
Notation store := (store T).
Variable p : hparams T.
Variable g : grid.
Variable dt : T.
Variable ge : bool.
Variable junk : Z * Z * Z -> Z -> hs T.

(** Generic wrapper: a cellwise loop, seen through the state vectors. *)
Lemma st2_cellwise W cells body (s s' : store) a i j :
  NoDup cells -> (forall c, In c cells -> cellprog W c (body c)) -> par_exec s (md_for cells body) s' ->
  In a W -> In (i, j, 0) cells -> st2 s' a i j = st2 (exec (body (i, j, 0)) s) a i j.
Proof.
  intros Hnd Hok Hex Ha Hc. destruct (cellwise_spec W cells body s s' Hnd Hok Hex) as [H1 _].
  unfold st2. rewrite !H1; auto.
Qed.
Lemma st2_frame (s s' : store) a i j : (forall l, la l = a -> s' l = s l) -> st2 s' a i j = st2 s a i j.
Proof. intros H. unfold st2. rewrite !H; auto. Qed.
Lemma gr2_frame (s s' : store) i j d : (forall l, la l = aG -> s' l = s l) -> gr2 s' i j d = gr2 s i j d.
Proof. intros H. unfold gr2. rewrite !H; auto. Qed.

(** ** ConvertToPrimitives *)
Lemma convert2_spec aIn (s s' : store) : aIn <> aQ -> par_exec s (convert2 p g aIn) s' ->
  (forall i j, 0 <= i < isize g -> 0 <= j < jsize g ->
     st2 s' aQ i j = snd (computePrimitives2 p (st2 s aIn i j))) /\
  (forall l, la l <> aQ -> s' l = s l).
Proof. clear junk.
  intros Ha Hex. unfold convert2 in Hex.
  cells_ok [aQ].
  { intros [[i j] k] Hc. apply In_cells2 in Hc. cbn [fst snd] in Hc. destruct Hc as (_ & _ & ->).
    apply acc_if; intros _; [|apply acc_skip].
    apply acc_bind; [apply acc_load2; fp; congruence|intros u]. apply acc_put2; fp. }
  split.
  - intros i j Hi Hj. rewrite (st2_cellwise _ _ _ s s' aQ i j (NoDup_cells2 g) Hok Hex) by (cbn; auto using in2).
    cbn beta iota.
    assert (E : (0 <=? j) && (j <? jsize g) && (0 <=? i) && (i <? isize g) = true).
    { rewrite !andb_true_iff, !Z.leb_le, !Z.ltb_lt. lia. }
    rewrite E, exec_load2, st2_put_same. unfold w0, computePrimitives2. cbn. reflexivity.
  - intros l Hl. eapply cellwise_other; eauto using NoDup_cells2. cbn. intuition.
Qed.

(** ** Fluxes, implementation version 0 *)
Definition slopes_ok := slopes_defined p = true.
Definition riem2_ok := riemann_defined2 p = true.

Lemma slopes2_junk Q i j jx jy : slopes_ok -> slopes2 p Q i j jx jy = slopes2 p Q i j zs zs.
Proof.
  unfold slopes_ok, slopes_defined, slopes2, slope_unsplit_hydro_2d. intros H.
  destruct (eqb (slope_type p) zero); [reflexivity|]. cbn [orb] in H. rewrite H. reflexivity.
Qed.
Lemma riemann2_junk ql qr j : riem2_ok -> riemann_hydro2 p ql qr j = riemann_hydro2 p ql qr zs.
Proof.
  unfold riem2_ok, riemann_defined2, riemann_hydro2. intros H.
  destruct (riemann_type p =? RIEMANN_APPROX); [reflexivity|].
  destruct (riemann_type p =? RIEMANN_HLL); [reflexivity|].
  destruct (riemann_type p =? RIEMANN_HLLC); [reflexivity|].
  destruct (riemann_type p =? RIEMANN_LLF); [reflexivity|discriminate].
Qed.

Lemma fluxes_body2_acc (R W : loc -> Prop) i j :
  (forall i' j' v, Z.abs (i' - i) <= 2 -> Z.abs (j' - j) <= 2 -> i' <= i + 1 -> j' <= j + 1 -> faces2 g i j = true ->
     0 <= v < 4 -> R (Loc aQ i' j' 0 v)) ->
  (forall i' j' v, ge = true -> i - 1 <= i' <= i -> j - 1 <= j' <= j -> faces2 g i j = true -> 0 <= v < 2 -> R (Loc aG i' j' 0 v)) ->
  (forall v, faces2 g i j = true -> 0 <= v < 4 -> W (Loc aFx i j 0 v) /\ W (Loc aFy i j 0 v)) ->
  acc (T:=T) R W (fluxes_body2 p g dt ge junk i j).
Proof.
  intros HQ HG HW. unfold fluxes_body2. apply acc_if; intros Hf; [|apply acc_skip].
  apply acc_bind; [apply acc_fetch2; intros; apply HQ; auto; lia|]. intros [qLoc [dqX dqY]].
  apply acc_bind; [apply acc_fetch2; intros; apply HQ; auto; lia|]. intros [qN [dqXn dqYn]].
  apply acc_bind; [apply acc_predict2; intros; apply HG; auto; lia|]. intros ql.
  apply acc_bind; [apply acc_predict2; intros; apply HG; auto; lia|]. intros qr.
  apply acc_bind; [apply acc_put2; intros; apply HW; auto|]. intros _.
  apply acc_bind; [apply acc_fetch2; intros; apply HQ; auto; lia|]. intros [qN2 [dqXn2 dqYn2]].
  apply acc_bind; [apply acc_predict2; intros; apply HG; auto; lia|]. intros ql2.
  apply acc_bind; [apply acc_predict2; intros; apply HG; auto; lia|]. intros qr2.
  apply acc_put2; intros; apply HW; auto.
Qed.

Lemma fluxes_body2_exec i j (s : store) : slopes_ok -> riem2_ok -> faces2 g i j = true ->
  exec (fluxes_body2 p g dt ge junk i j) s =
  exec (put2 aFy i j (fluxY2 p dt ge (st2 s aQ) (gr2 s) i j))
       (exec (put2 aFx i j (fluxX2 p dt ge (st2 s aQ) (gr2 s) i j)) s).
Proof.
  intros Hs Hr Hf. unfold fluxes_body2. rewrite Hf.
  rewrite exec_fetch2. rewrite (slopes2_junk _ i j) by auto.
  destruct (slopes2 p (st2 s aQ) i j zs zs) as [dqX dqY] eqn:E0.
  rewrite exec_fetch2. rewrite (slopes2_junk _ (i - 1) j) by auto.
  destruct (slopes2 p (st2 s aQ) (i - 1) j zs zs) as [dqXn dqYn] eqn:E1.
  rewrite !exec_predict2, exec_put2.
  set (X := scale _ _).
  assert (EX : X = fluxX2 p dt ge (st2 s aQ) (gr2 s) i j).
  { subst X. rewrite riemann2_junk by auto. unfold fluxX2, face2. rewrite E0, E1. reflexivity. }
  clearbody X. subst X. set (s1 := exec (put2 aFx _ _ _) s).
  rewrite exec_fetch2. rewrite (slopes2_junk _ i (j - 1)) by auto.
  assert (EQ : slopes2 p (st2 s1 aQ) i (j - 1) zs zs = slopes2 p (st2 s aQ) i (j - 1) zs zs).
  { unfold slopes2, s1. rewrite !st2_put_other by (left; discriminate). reflexivity. }
  rewrite EQ. destruct (slopes2 p (st2 s aQ) i (j - 1) zs zs) as [dqXn2 dqYn2] eqn:E2.
  rewrite !exec_predict2. f_equal. f_equal.
  rewrite riemann2_junk by auto. unfold fluxY2, face2. rewrite E0, E2. unfold s1.
  rewrite !gr2_put by discriminate. rewrite !st2_put_other by (left; discriminate). reflexivity.
Qed.

Lemma fluxes2_spec (s s' : store) : slopes_ok -> riem2_ok ->
  par_exec s (compute_and_store_fluxes2 p g dt ge junk) s' -> 0 < gw g ->
  (forall i j, faces2 g i j = true ->
     st2 s' aFx i j = w0 (fluxX2 p dt ge (st2 s aQ) (gr2 s) i j) /\
     st2 s' aFy i j = w0 (fluxY2 p dt ge (st2 s aQ) (gr2 s) i j)) /\
  (forall l, la l <> aFx -> la l <> aFy -> s' l = s l).
Proof.
  intros Hs Hr Hex Hg. unfold compute_and_store_fluxes2 in Hex. cells_ok [aFx; aFy].
  { intros [[i j] k] Hc. apply In_cells2 in Hc. cbn [fst snd] in Hc. destruct Hc as (_ & _ & ->).
    apply fluxes_body2_acc; fp. }
  split.
  - intros i j Hf. assert (Hc : In (i, j, 0) (cells2 g)).
    { apply faces2_spec in Hf. apply in2; lia. }
    rewrite !(st2_cellwise _ _ _ s s' _ i j (NoDup_cells2 g) Hok Hex) by (cbn; auto).
    cbn beta iota. rewrite fluxes_body2_exec by auto.
    rewrite st2_put_same, st2_put_other by (left; discriminate). rewrite st2_put_same. auto.
  - intros l H1 H2. eapply cellwise_other; eauto using NoDup_cells2. cbn. intuition.
Qed.

(** ** Update, implementation version 0 *)
Definition upd2 (F : hs T) (X X' Y Y' : hs T) : hs T :=
  w0 (hs_map2 sub (hs_map2 add (hs_map2 sub (hs_map2 add F X) X') Y) Y').

Lemma update2_spec aOut (s s' : store) : aOut <> aFx -> aOut <> aFy -> 0 < gw g ->
  par_exec s (update2 g aOut) s' ->
  (forall i j, interior2 g i j = true ->
     st2 s' aOut i j = upd2 (st2 s aOut i j) (st2 s aFx i j) (st2 s aFx (i + 1) j) (st2 s aFy i j) (st2 s aFy i (j + 1))) /\
  (forall i j v, interior2 g i j = false -> s' (Loc aOut i j 0 v) = s (Loc aOut i j 0 v)) /\
  (forall l, la l <> aOut -> s' l = s l).
Proof. clear junk.
  intros Hx Hy Hg Hex. unfold update2 in Hex. cells_ok [aOut].
  { intros [[i j] k] Hc. apply In_cells2 in Hc. cbn [fst snd] in Hc. destruct Hc as (_ & _ & ->).
    apply acc_if; intros _; [|apply acc_skip].
    do 3 (apply acc_bind; [apply acc_accum2; fp; congruence|intros _]).
    apply acc_accum2; fp; congruence. }
  split; [|split].
  - intros i j Hf. assert (Hc : In (i, j, 0) (cells2 g)).
    { apply interior2_spec in Hf. apply in2; lia. }
    rewrite (st2_cellwise _ _ _ s s' _ i j (NoDup_cells2 g) Hok Hex) by (cbn; auto).
    cbn beta iota. rewrite Hf, !exec_bind.
    rewrite !accum2_st by auto. rewrite !st2_accum_other by auto. reflexivity.
  - intros i j v Hf. destruct (cellwise_spec _ _ _ s s' (NoDup_cells2 g) Hok Hex) as [H1 H2].
    destruct (in_dec cell_eq_dec (i, j, 0) (cells2 g)) as [Hc|Hc].
    + rewrite H1 by (cbn; auto). unfold at_of; cbn [li lj lk]. rewrite Hf. reflexivity.
    + apply H2. cbn. intros [_ H]. apply Hc, H.
  - intros l Hl. eapply cellwise_other; eauto using NoDup_cells2. cbn. intuition.
Qed.

(** ** Slopes, implementation version 1 *)
Lemma compute_slopes2_spec (s s' : store) : 0 < gw g ->
  par_exec s (compute_slopes2 p g) s' ->
  (forall i j, srange2 g i j = true ->
     st2 s' aSx i j = w0 (fst (slopes2 p (st2 s aQ) i j zs zs)) /\
     st2 s' aSy i j = w0 (snd (slopes2 p (st2 s aQ) i j zs zs))) /\
  (forall l, la l <> aSx -> la l <> aSy -> s' l = s l).
Proof. clear junk.
  intros Hg Hex. unfold compute_slopes2 in Hex. cells_ok [aSx; aSy].
  { intros [[i j] k] Hc. apply In_cells2 in Hc. cbn [fst snd] in Hc. destruct Hc as (_ & _ & ->).
    apply acc_if; intros _; [|apply acc_skip].
    apply acc_bind; [apply acc_fetch2; fp|intros [q [dx dy]]].
    apply acc_bind; [apply acc_put2; fp|intros _]. apply acc_put2; fp. }
  split.
  - intros i j Hf. assert (Hc : In (i, j, 0) (cells2 g)).
    { apply srange2_spec in Hf. apply in2; lia. }
    rewrite !(st2_cellwise _ _ _ s s' _ i j (NoDup_cells2 g) Hok Hex) by (cbn; auto).
    cbn beta iota. unfold srange2 in Hf. rewrite Hf, exec_fetch2.
    change (@zero_state T A) with (@zs T A).
    destruct (slopes2 p (st2 s aQ) i j zs zs) as [X Y]. rewrite exec_put2.
    rewrite st2_put_same, st2_put_other by (left; discriminate). rewrite st2_put_same. auto.
  - intros l H1 H2. eapply cellwise_other; eauto using NoDup_cells2. cbn. intuition.
Qed.

(** The trace does not look at the unused W entry of the slopes. *)
Lemma trace2_w0 q X Y a b f :
  trace_unsplit_2d_along_dir p q (w0 X) (w0 Y) a b f = trace_unsplit_2d_along_dir p q X Y a b f.
Proof. destruct f; reflexivity. Qed.

(** ** Trace and fluxes, implementation version 1 *)
Lemma trace_body2_acc (R W : loc -> Prop) d aF i j :
  (forall a i' j' v, a = aQ \/ a = aSx \/ a = aSy -> i - 1 <= i' <= i -> j - 1 <= j' <= j ->
     faces2 g i j = true -> 0 <= v < 4 -> R (Loc a i' j' 0 v)) ->
  (forall i' j' v, ge = true -> i - 1 <= i' <= i -> j - 1 <= j' <= j -> faces2 g i j = true -> 0 <= v < 2 ->
     R (Loc aG i' j' 0 v)) ->
  (forall v, faces2 g i j = true -> 0 <= v < 4 -> W (Loc aF i j 0 v)) ->
  acc (T:=T) R W (trace_body2 p g dt ge junk d aF i j).
Proof.
  intros HQ HG HW. unfold trace_body2. apply acc_if; intros Hf; [|apply acc_skip].
  do 3 (apply acc_bind; [apply acc_load2; intros; apply HQ; auto; lia|intros ?]).
  destruct d; [| |apply acc_skip].
  - apply acc_bind; [apply acc_predict2; intros; apply HG; auto; lia|intros qr].
    do 3 (apply acc_bind; [apply acc_load2; intros; apply HQ; auto; lia|intros ?]).
    apply acc_bind; [apply acc_predict2; intros; apply HG; auto; lia|intros ql].
    apply acc_put2; intros; apply HW; auto.
  - apply acc_bind; [apply acc_predict2; intros; apply HG; auto; lia|intros qr].
    do 3 (apply acc_bind; [apply acc_load2; intros; apply HQ; auto; lia|intros ?]).
    apply acc_bind; [apply acc_predict2; intros; apply HG; auto; lia|intros ql].
    apply acc_put2; intros; apply HW; auto.
Qed.

(** The slope arrays hold the slopes of the field in [aQ]. *)
Definition have_slopes2 (s : store) : Prop := forall i j, srange2 g i j = true ->
  st2 s aSx i j = w0 (fst (slopes2 p (st2 s aQ) i j zs zs)) /\
  st2 s aSy i j = w0 (snd (slopes2 p (st2 s aQ) i j zs zs)).

Lemma trace_body2_exec_x aF i j (s : store) : riem2_ok -> have_slopes2 s -> faces2 g i j = true ->
  exec (trace_body2 p g dt ge junk XDIR aF i j) s =
  exec (put2 aF i j (fluxX2 p dt ge (st2 s aQ) (gr2 s) i j)) s.
Proof.
  intros Hr Hs Hf. unfold trace_body2. rewrite Hf.
  rewrite !exec_load2, exec_predict2, !exec_load2, exec_predict2.
  apply faces2_spec in Hf.
  destruct (Hs i j) as [E1 E2]; [apply srange2_spec; lia|].
  destruct (Hs (i - 1) j) as [E3 E4]; [apply srange2_spec; lia|].
  rewrite E1, E2, E3, E4, !trace2_w0, riemann2_junk by auto. reflexivity.
Qed.
Lemma trace_body2_exec_y aF i j (s : store) : riem2_ok -> have_slopes2 s -> faces2 g i j = true ->
  exec (trace_body2 p g dt ge junk YDIR aF i j) s =
  exec (put2 aF i j (fluxY2 p dt ge (st2 s aQ) (gr2 s) i j)) s.
Proof.
  intros Hr Hs Hf. unfold trace_body2. rewrite Hf.
  rewrite !exec_load2, exec_predict2, !exec_load2, exec_predict2.
  apply faces2_spec in Hf.
  destruct (Hs i j) as [E1 E2]; [apply srange2_spec; lia|].
  destruct (Hs i (j - 1)) as [E3 E4]; [apply srange2_spec; lia|].
  rewrite E1, E2, E3, E4, !trace2_w0, riemann2_junk by auto. reflexivity.
Qed.

Definition flux2 (d : direction) Q G := match d with XDIR => fluxX2 p dt ge Q G | _ => fluxY2 p dt ge Q G end.

Lemma trace2_spec d (s s' : store) : riem2_ok -> have_slopes2 s -> 0 < gw g -> d <> ZDIR ->
  par_exec s (trace_and_fluxes2 p g dt ge junk d aFx) s' ->
  (forall i j, faces2 g i j = true -> st2 s' aFx i j = w0 (flux2 d (st2 s aQ) (gr2 s) i j)) /\
  (forall l, la l <> aFx -> s' l = s l).
Proof.
  intros Hr Hs Hg Hd Hex. unfold trace_and_fluxes2 in Hex. cells_ok [aFx].
  { intros [[i j] k] Hc. apply In_cells2 in Hc. cbn [fst snd] in Hc. destruct Hc as (_ & _ & ->).
    apply trace_body2_acc; fp. }
  split.
  - intros i j Hf. assert (Hc : In (i, j, 0) (cells2 g)).
    { apply faces2_spec in Hf. apply in2; lia. }
    rewrite !(st2_cellwise _ _ _ s s' _ i j (NoDup_cells2 g) Hok Hex) by (cbn; auto).
    cbn beta iota. destruct d; [| |congruence].
    + rewrite trace_body2_exec_x by auto. apply st2_put_same.
    + rewrite trace_body2_exec_y by auto. apply st2_put_same.
  - intros l H1. eapply cellwise_other; eauto using NoDup_cells2. cbn. intuition.
Qed.

(** ** Directional update, implementation version 1 *)
Lemma update_dir2_spec d aOut (s s' : store) : aOut <> aFx -> 0 < gw g -> d <> ZDIR ->
  par_exec s (update_dir2 g d aOut aFx) s' ->
  (forall i j, interior2 g i j = true ->
     st2 s' aOut i j = w0 (hs_map2 sub (hs_map2 add (st2 s aOut i j) (st2 s aFx i j))
                            (match d with XDIR => st2 s aFx (i + 1) j | _ => st2 s aFx i (j + 1) end))) /\
  (forall i j v, interior2 g i j = false -> s' (Loc aOut i j 0 v) = s (Loc aOut i j 0 v)) /\
  (forall l, la l <> aOut -> s' l = s l).
Proof. clear junk.
  intros Hx Hg Hd Hex. unfold update_dir2 in Hex. cells_ok [aOut].
  { intros [[i j] k] Hc. apply In_cells2 in Hc. cbn [fst snd] in Hc. destruct Hc as (_ & _ & ->).
    apply acc_if; intros _; [|apply acc_skip]. destruct d; [| |apply acc_skip].
    all: apply acc_bind; [apply acc_accum2; fp; congruence|intros _].
    all: apply acc_accum2; fp; congruence. }
  split; [|split].
  - intros i j Hf. assert (Hc : In (i, j, 0) (cells2 g)).
    { apply interior2_spec in Hf. apply in2; lia. }
    rewrite (st2_cellwise _ _ _ s s' _ i j (NoDup_cells2 g) Hok Hex) by (cbn; auto).
    cbn beta iota. rewrite Hf. destruct d; [| |congruence]; rewrite !exec_bind;
    rewrite !accum2_st by auto; rewrite !st2_accum_other by auto; reflexivity.
  - intros i j v Hf. destruct (cellwise_spec _ _ _ s s' (NoDup_cells2 g) Hok Hex) as [H1 H2].
    destruct (in_dec cell_eq_dec (i, j, 0) (cells2 g)) as [Hc|Hc].
    + rewrite H1 by (cbn; auto). unfold at_of; cbn [li lj lk]. rewrite Hf. reflexivity.
    + apply H2. cbn. intros [_ H]. apply Hc, H.
  - intros l Hl. eapply cellwise_other; eauto using NoDup_cells2. cbn. intuition.
Qed.

(** ** Gravity source term *)
Lemma gravity2_spec aIn aOut (s s' : store) : arr_ok aIn aOut -> 0 < gw g ->
  par_exec s (gravity_term2 p g dt aIn aOut) s' ->
  (forall i j, interior2 g i j = true ->
     st2 s' aOut i j = gravity_source2 p dt (hD (st2 s aIn i j)) (st2 s aOut i j) (gr2 s i j IX) (gr2 s i j IY)) /\
  (forall i j v, interior2 g i j = false -> s' (Loc aOut i j 0 v) = s (Loc aOut i j 0 v)) /\
  (forall l, la l <> aOut -> s' l = s l).
Proof. clear junk.
  intros Ha Hg Hex. unfold gravity_term2 in Hex. cells_ok [aOut].
  { intros [[i j] k] Hc. apply In_cells2 in Hc. cbn [fst snd] in Hc. destruct Hc as (_ & _ & ->).
    apply acc_if; intros _; [|apply acc_skip].
    apply acc_bind; [apply acc_rd; fp|intros r].
    apply acc_bind; [apply acc_load2; fp|intros u].
    do 2 (apply acc_bind; [apply acc_rd; fp|intros ?]).
    do 2 (apply acc_bind; [apply acc_wr; fp|intros ?]). apply acc_wr; fp. }
  split; [|split].
  - intros i j Hf. assert (Hc : In (i, j, 0) (cells2 g)).
    { apply interior2_spec in Hf. apply in2; lia. }
    rewrite (st2_cellwise _ _ _ s s' _ i j (NoDup_cells2 g) Hok Hex) by (cbn; auto).
    cbn beta iota. rewrite Hf, exec_rd, exec_load2, !exec_rd, !exec_wr.
    unfold exec; cbn [run snd wr]. unfold st2 at 1. rewrite !upd_eq.
    cbn [Z.eqb Pos.eqb ID IP IU IV IE]. reflexivity.
  - intros i j v Hf. destruct (cellwise_spec _ _ _ s s' (NoDup_cells2 g) Hok Hex) as [H1 H2].
    destruct (in_dec cell_eq_dec (i, j, 0) (cells2 g)) as [Hc|Hc].
    + rewrite H1 by (cbn; auto). unfold at_of; cbn [li lj lk]. rewrite Hf. reflexivity.
    + apply H2. cbn. intros [_ H]. apply Hc, H.
  - intros l Hl. eapply cellwise_other; eauto using NoDup_cells2. cbn. intuition.
Qed.
End P2.
