(** C90: the borders of the problem "wedge" (double Mach reflection) of the MOOD
    solver.  [shocked]: behind the front at time t (SdmBcSpec.v). *)
From Coq Require Import ZArith List Bool Lia Reals Lra.
From Verif Require Import Arith Par ParProofs GridModel BoundaryModel BoundarySpec BoundaryProofs HydroState HydroKernels HydroSpec
  Physics MhdState MhdInit MhdInitSpec HydroInit HydroInitSpec SdmInit SdmInitSpec SdmInitProofs SdmBc SdmBcSpec SdmBcProofs Thm_SdmInit Thm_SdmBc MoodWedge.
Import ListNotations.
Open Scope Z_scope.

(** ** Specification *)

(** State stored for the cell (i, j). *)
Definition stored (a : Z) (s : store R) (i j : Z) : hs R :=
  HS (s (Loc a i j 0 ID)) (s (Loc a i j 0 IP)) (s (Loc a i j 0 IU)) (s (Loc a i j 0 IV)) 0%R.
(** Centre of the cell (i, j), ghost cells included. *)
Definition centre (g : grid) (h : hparams R) (bx : MhdInit.box R) (i j : Z) : point :=
  Point (xmin bx + (IZR (i - gw g) + / 2) * dx h)%R (ymin bx + (IZR (j - gw g) + / 2) * dy h)%R 0%R.
(** The borders at time t: [U] before, [U'] after. *)
Definition mood_borders (g : grid) (h : hparams R) (bx : MhdInit.box R) (w : wedge R) (t : R) (U U' : Z -> Z -> hs R) : Prop :=
  forall i j, 0 <= i < nx g + 2 * gw g -> 0 <= j < ny g + 2 * gw g ->
  let X := centre g h bx i j in
  let post := conservative (gamma0 h) (wd_post w) in
  let inside_x := gw g <= i < nx g + gw g in
  let inside_y := gw g <= j < ny g + gw g in
  (inside_x -> inside_y -> U' i j = U i j) /\
  (** left: gas behind the shock flows in; right: the gas flows out *)
  (i < gw g -> inside_y -> U' i j = post) /\
  (nx g + gw g <= i -> inside_y -> U' i j = U' (nx g + gw g - 1) j) /\
  (** below: inflow before the wedge, then a wall *)
  (j < gw g -> (px X < wd_x w)%R -> U' i j = post) /\
  (j < gw g -> (wd_x w <= px X)%R -> U' i j = bounced_y (U' i (2 * gw g - 1 - j))) /\
  (** above: inflow behind the moving front, before it the gas flows out *)
  (ny g + gw g <= j -> shocked w t X -> U' i j = post) /\
  (ny g + gw g <= j -> ~ shocked w t X -> U' i j = U' i (ny g + gw g - 1)).

(** ** One face: every cell of the slab gets values computed from one cell
    outside the slab. *)
Section Face.
Context {T : Type}.
Variables (a nb nbIter : Z) (body : Z -> prog T unit) (slab : cell -> Prop) (src : cell -> cell) (enc : cell -> Z)
  (act : cell -> prog T unit) (val : cell -> store T -> Z -> T).
Hypothesis Hcases : forall index, 0 <= index < nbIter -> (exists c, slab c /\ enc c = index /\ body index = act c) \/ body index = skip.
Hypothesis Hcover : forall c, slab c -> 0 <= enc c < nbIter /\ body (enc c) = act c.
Hypothesis Hsrc : forall c, slab c -> ~ slab (src c).
Hypothesis Hact : forall c, slab c -> no_rmw (act c) /\
  reads_in (fun l => exists v, 0 <= v < nb /\ l = at_cell a (src c) v) (act c) /\
  writes_in (fun l => exists v, 0 <= v < nb /\ l = at_cell a c v) (act c) /\
  (forall s v, 0 <= v < nb -> exec (act c) s (at_cell a c v) = val c s v).

Lemma slab_spec s s' : par_exec s (parallel_for nbIter body) s' ->
  (forall c v, slab c -> 0 <= v < nb -> s' (at_cell a c v) = val c s v) /\
  (forall l, (forall c v, slab c -> 0 <= v < nb -> l <> at_cell a c v) -> s' l = s l).
Proof.
  intros Hex.
  set (fW := fun index l => exists c v, slab c /\ enc c = index /\ 0 <= v < nb /\ l = at_cell a c v).
  set (fR := fun index l => exists c v, slab c /\ enc c = index /\ 0 <= v < nb /\ l = at_cell a (src c) v).
  assert (RF : forall i j l, In i (zrange 0 nbIter) -> In j (zrange 0 nbIter) -> i <> j -> fW i l -> ~ fW j l /\ ~ fR j l).
  { intros i j l _ _ Hij (c & v & Hc & He & Hv & ->). split.
    - intros (c' & v' & Hc' & He' & Hv' & H). apply at_cell_inj in H. destruct H as [-> ->]. congruence.
    - intros (c' & v' & Hc' & He' & Hv' & H). apply at_cell_inj in H. destruct H as [-> ->]. exact (Hsrc c' Hc' Hc). }
  destruct (par_for_spec (zrange 0 nbIter) fR fW RF body s s') as [H1 H2]; auto.
  - apply NoDup_zrange.
  - intros i Hi. apply In_zrange in Hi. destruct (Hcases i Hi) as [(c & Hc & He & ->)| ->].
    + destruct (Hact c Hc) as (A1 & A2 & A3 & _). repeat split; auto.
      * eapply reads_in_mono; [|exact A2]. intros l (v & Hv & ->). exists c, v. auto.
      * eapply writes_in_mono; [|exact A3]. intros l (v & Hv & ->). exists c, v. auto.
    + repeat split; cbn; auto.
  - split.
    + intros c v Hc Hv. destruct (Hcover c Hc) as [Hr Hb]. rewrite (H1 (enc c)).
      * rewrite Hb. apply (proj2 (proj2 (proj2 (Hact c Hc)))). exact Hv.
      * now apply In_zrange.
      * exists c, v. auto.
    + intros l Hl. apply H2. intros i Hi (c & v & Hc & He & Hv & ->). exact (Hl c v Hc Hv eq_refl).
Qed.
End Face.

Ltac bool_true := repeat match goal with
  | |- (_ && _)%bool = true => apply andb_true_intro; split
  | |- (_ <=? _) = true => apply Z.leb_le
  | |- (_ <? _) = true => apply Z.ltb_lt
  end.
Ltac unfold_sizes := unfold isize, jsize, ksize, imin, imax, jmin, jmax, kmin, kmax in *.
Ltac guard_true H :=
  repeat match type of H with
  | (_ && _)%bool = true => let H1 := fresh in let H2 := fresh in
      apply andb_prop in H; destruct H as [H H2]; rewrite ?Z.leb_le, ?Z.ltb_lt in H2
  end; rewrite ?Z.leb_le, ?Z.ltb_lt in H.
Ltac not_in_slab H := intros [[? ?] ?] ? Hcc ? Heq; unfold slab2 in Hcc; cbn [at_cell] in Heq;
  let A1 := fresh in let A2 := fresh in pose proof (f_equal li Heq) as A1; pose proof (f_equal lj Heq) as A2; cbn [li lj] in A1, A2; lia.

Section Wedge.
Variables (g : grid) (h : hparams R) (bx : MhdInit.box R) (w : wedge R) (t : R) (a : Z).
Hypothesis Hw : 0 < gw g.
Hypothesis Hx : gw g <= nx g.
Hypothesis Hy : gw g <= ny g.
Hypothesis Hnb : nbvar g = 4.
Notation post := (par_cons (wd_gamma w) (wd_post w)).

(** The cell read by a ghost cell; the action; the values. *)
Definition wsrc (f : face) (c : cell) : cell :=
  let '(i, j, k) := c in
  match f with
  | FACE_XMIN => (nx g + gw g - 1, j, k) | FACE_XMAX => (nx g + gw g - 1, j, k)
  | FACE_YMIN => (i, 2 * gw g - 1 - j, k) | FACE_YMAX => (i, ny g + gw g - 1, k)
  | _ => c end.
Definition wact (f : face) (c : cell) : prog R unit :=
  let '(i, j, _) := c in
  match f with
  | FACE_XMIN => inflow_cell w a i j
  | FACE_XMAX => outflow_cell g a i j (nx g + gw g - 1) j
  | FACE_YMIN => if (wx g h bx i <? wd_x w)%A then inflow_cell w a i j
                 else assign_cell a (nbvar g) (i, j, 0) (i, 2 * gw g - 1 - j, 0) wall_sign
  | FACE_YMAX => if (wx g h bx i <? wd_x w + wy g h bx j / ftan RSLibm (wd_angle w) + wd_delta RSLibm w t)%A then inflow_cell w a i j
                 else outflow_cell g a i j i (ny g + gw g - 1)
  | _ => skip end.
Definition wval (f : face) (c : cell) (s : store R) (v : Z) : R :=
  let '(i, j, _) := c in
  let copy := s (at_cell a (wsrc f c) v) in
  match f with
  | FACE_XMIN => state_var post v
  | FACE_XMAX => copy
  | FACE_YMIN => if (wx g h bx i <? wd_x w)%A then state_var post v else mul copy (wall_sign v)
  | FACE_YMAX => if (wx g h bx i <? wd_x w + wy g h bx j / ftan RSLibm (wd_angle w) + wd_delta RSLibm w t)%A then state_var post v
                 else copy
  | _ => s (at_cell a c v) end.

Lemma inflow_act c0 i j : 
  no_rmw (inflow_cell (T:=R) w a i j) /\
  reads_in (fun l => exists v, 0 <= v < nbvar g /\ l = at_cell a c0 v) (inflow_cell (T:=R) w a i j) /\
  writes_in (fun l => exists v, 0 <= v < nbvar g /\ l = at_cell a (i, j, 0) v) (inflow_cell (T:=R) w a i j) /\
  (forall s v, 0 <= v < nbvar g -> exec (inflow_cell (T:=R) w a i j) s (at_cell a (i, j, 0) v) = state_var post v).
Proof.
  rewrite Hnb. split; [cbn; auto|]. split; [cbn; auto|]. split.
  - cbn. repeat split; eexists; (split; [|reflexivity]); unfold ID, IP, IU, IV; lia.
  - intros s v Hv. assert (v = 0 \/ v = 1 \/ v = 2 \/ v = 3) as [->|[->|[->| ->]]] by lia;
      unfold inflow_cell; cbn -[par_cons upd]; unfold ID, IP, IU, IV;
      repeat first [rewrite upd_same | rewrite upd_other by (intros E; inversion E)]; reflexivity.
Qed.

Lemma outflow_exec dst src (vs : list Z) s : dst <> src -> NoDup vs ->
  let p := for_each vs (fun v => bind (rd (at_cell a src v)) (fun x : R => wr (at_cell a dst v) x)) in
  (forall v, In v vs -> exec p s (at_cell a dst v) = s (at_cell a src v)) /\
  (forall l, (forall v, In v vs -> l <> at_cell a dst v) -> exec p s l = s l).
Proof.
  intros Hne Hnd. revert s. induction Hnd as [|v0 vs Hni Hnd IH]; intros s; cbn zeta.
  - split; [intros v []|reflexivity].
  - cbn [for_each]. rewrite exec_bind. cbn [bind rd wr run fst snd exec].
    set (s1 := upd s (at_cell a dst v0) _). destruct (IH s1) as [IH1 IH2].
    assert (Hs1 : forall v, s1 (at_cell a src v) = s (at_cell a src v)).
    { intros v. unfold s1. apply upd_other. intros H. apply at_cell_inj in H. tauto. }
    split.
    + intros v [->|Hv].
      * unfold exec in IH2 |- *. cbn [run snd]. fold s1. rewrite IH2.
        -- unfold s1. apply upd_same.
        -- intros v' Hv' H. apply at_cell_inj in H. destruct H as [_ ->]. contradiction.
      * unfold exec in IH1 |- *. cbn [run snd]. fold s1. rewrite IH1 by auto. now rewrite Hs1.
    + intros l Hl. unfold exec in IH2 |- *. cbn [run snd]. fold s1. rewrite IH2.
      * unfold s1. apply upd_other. intros H. apply (Hl v0); cbn; auto.
      * intros v Hv. apply Hl; cbn; auto.
Qed.

Lemma outflow_act i j i0 j0 : (i, j) <> (i0, j0) ->
  no_rmw (outflow_cell (T:=R) g a i j i0 j0) /\
  reads_in (fun l => exists v, 0 <= v < nbvar g /\ l = at_cell a (i0, j0, 0) v) (outflow_cell (T:=R) g a i j i0 j0) /\
  writes_in (fun l => exists v, 0 <= v < nbvar g /\ l = at_cell a (i, j, 0) v) (outflow_cell (T:=R) g a i j i0 j0) /\
  (forall s v, 0 <= v < nbvar g -> exec (outflow_cell (T:=R) g a i j i0 j0) s (at_cell a (i, j, 0) v) = s (at_cell a (i0, j0, 0) v)).
Proof.
  intros Hne. split; [|split; [|split]].
  - unfold no_rmw. apply for_each_rmws. intros v _. cbn. auto.
  - apply for_each_reads. intros v Hv. apply In_zrange in Hv. cbn. split; auto. exists v; auto.
  - apply for_each_writes. intros v Hv. apply In_zrange in Hv. cbn. split; auto. exists v; auto.
  - intros s v Hv.
    destruct (outflow_exec (i, j, 0) (i0, j0, 0) (zrange 0 (nbvar g)) s ltac:(congruence) (NoDup_zrange 0 _)) as [E _].
    apply E. apply In_zrange. exact Hv.
Qed.

Lemma wedge_face f s s' : In f [FACE_XMIN; FACE_XMAX; FACE_YMIN; FACE_YMAX] ->
  par_exec s (parallel_for (gw g * Z.max (isize g) (jsize g)) (wedge_functor RSLibm g h bx w t a f)) s' ->
  (forall c v, slab2 g f c -> 0 <= v < nbvar g -> s' (at_cell a c v) = wval f c s v) /\
  (forall l, (forall c v, slab2 g f c -> 0 <= v < nbvar g -> l <> at_cell a c v) -> s' l = s l).
Proof.
  intros Hf. apply (slab_spec a (nbvar g) _ _ (slab2 g f) (wsrc f) (enc2 g f) (wact f)).
  - intros index Hi. destruct Hf as [<-|[<-|[<-|[<-|[]]]]]; unfold wedge_functor;
      match goal with |- context [if ?b then _ else skip] => destruct b eqn:Hb; [left|right; reflexivity] end;
      guard_true Hb; unfold_sizes.
    + exists (index - index / gw g * gw g, index / gw g, 0). repeat split; try lia; unfold slab2, enc2; lia.
    + exists (index - index / gw g * gw g + (nx g + gw g), index / gw g, 0). repeat split; try lia; unfold slab2, enc2; lia.
    + exists (index / gw g, index - index / gw g * gw g, 0). repeat split; try lia; unfold slab2, enc2; lia.
    + exists (index / gw g, index - index / gw g * gw g + (ny g + gw g), 0). repeat split; try lia; unfold slab2, enc2; lia.
  - intros [[i j] k] Hc. split.
    + apply (cover2 (T:=R) false g f a); auto; lia.
    + unfold slab2 in Hc. destruct Hc as [-> Hc]. unfold wedge_functor, wact, enc2.
      destruct Hf as [<-|[<-|[<-|[<-|[]]]]]; destruct Hc as [H1 H2]; rewrite div_split by lia.
      * replace (j * gw g + i - j * gw g) with i by lia.
        match goal with |- (if ?b then _ else _) = _ => assert (Hb : b = true) by (unfold_sizes; bool_true; lia); rewrite Hb end. reflexivity.
      * replace (j * gw g + (i - (nx g + gw g)) - j * gw g + (nx g + gw g)) with i by lia.
        match goal with |- (if ?b then _ else _) = _ => assert (Hb : b = true) by (unfold_sizes; bool_true; lia); rewrite Hb end. reflexivity.
      * replace (i * gw g + j - i * gw g) with j by lia.
        match goal with |- (if ?b then _ else _) = _ => assert (Hb : b = true) by (unfold_sizes; bool_true; lia); rewrite Hb end. reflexivity.
      * replace (i * gw g + (j - (ny g + gw g)) - i * gw g + (ny g + gw g)) with j by lia.
        match goal with |- (if ?b then _ else _) = _ => assert (Hb : b = true) by (unfold_sizes; bool_true; lia); rewrite Hb end. reflexivity.
  - intros [[i j] k] [-> Hc] H'. unfold wsrc, slab2 in *. destruct Hf as [<-|[<-|[<-|[<-|[]]]]]; lia.
  - intros [[i j] k] [-> Hc]. destruct Hf as [<-|[<-|[<-|[<-|[]]]]]; unfold wact, wval, wsrc.
    + apply inflow_act.
    + apply outflow_act. intros E. inversion E. lia.
    + destruct (_ <? _)%A; [apply inflow_act|].
      destruct (assign_cell_fp (T:=R) a (nbvar g) (i, j, 0) (i, 2 * gw g - 1 - j, 0) wall_sign) as (E1 & E2 & E3).
      repeat split; auto. intros s0 v Hv.
      apply (proj1 (assign_cell_exec a (nbvar g) (i, j, 0) (i, 2 * gw g - 1 - j, 0) wall_sign s0
        ltac:(intros E; apply (f_equal (fun c : cell => snd (fst c))) in E; cbn [fst snd] in E; lia)) v Hv).
    + destruct (_ <? _)%A; [apply inflow_act|]. apply outflow_act. intros E. inversion E. lia.
Qed.
End Wedge.

(** The borders of the wedge problem at time t, for every schedule; interior cells and the
    other arrays stay as they were. *)
Theorem C90_borders : forall g h bx w t a s s',
  grid_ok2d g -> nbvar g = 4 -> (1 < gamma0 h)%R -> wd_gamma w = gamma0 h -> hW (wd_post w) = 0%R ->
  (0 < sin (wd_angle w))%R -> cos (wd_angle w) <> 0%R ->
  run_kernels (mood_wedge_boundaries RSLibm g h bx w t a) s s' ->
  mood_borders g h bx w t (stored a s) (stored a s') /\ (forall l, ~ alloc2d g a l -> s' l = s l).
Proof.
  intros g h bx w t a s s' (Hw & Hx & Hy & _) Hnb Hg Hwg H1 Hs Hc Hr. unfold mood_wedge_boundaries in Hr. cbn [map] in Hr.
  inversion Hr as [|p0 k0 q0 s1 r0 K1 R1]; subst. clear Hr.
  inversion R1 as [|p1 k1 q1 s2 r1 K2 R2]; subst. clear R1.
  inversion R2 as [|p2 k2 q2 s3 r2 K3 R3]; subst. clear R2.
  inversion R3 as [|p3 k3 q3 s4 r3 K4 R4]; subst. clear R3. inversion R4; subst. clear R4.
  apply wedge_face in K1; cbn; auto. apply wedge_face in K2; cbn; auto.
  apply wedge_face in K3; cbn; auto. apply wedge_face in K4; cbn; auto.
  destruct K1 as [A1 F1], K2 as [A2 F2], K3 as [A3 F3], K4 as [A4 F4]. rewrite Hnb in *.
  assert (V : forall v, In v [ID; IP; IU; IV] -> 0 <= v < 4) by (intros v [<-|[<-|[<-|[<-|[]]]]]; unfold ID, IP, IU, IV; lia).
  assert (SP : forall m i j, (forall v, In v [ID; IP; IU; IV] -> m (Loc a i j 0 v) = state_var (par_cons (wd_gamma w) (wd_post w)) v) ->
            stored a m i j = conservative (gamma0 h) (wd_post w)).
  { intros m i j E. unfold stored. rewrite !E by (cbn; auto). exact (par_conservative h Hg false _ _ Hwg (fun _ => H1)). }
  assert (SC : forall m m' i j i' j', (forall v, In v [ID; IP; IU; IV] -> m (Loc a i j 0 v) = m' (Loc a i' j' 0 v)) ->
            stored a m i j = stored a m' i' j').
  { intros m m' i j i' j' E. unfold stored. rewrite !E by (cbn; auto). reflexivity. }
  assert (PX : forall i j, wx g h bx i = px (centre g h bx i j)).
  { intros. unfold wx, centre. cbn -[IZR]. unfold ofZ. cbn. field. }
  assert (PY : forall i j, wy g h bx j = py (centre g h bx i j)).
  { intros. unfold wy, centre. cbn -[IZR]. unfold ofZ. cbn. field. }
  split.
  - intros i j Hi Hj. cbv zeta. split; [|split; [|split; [|split; [|split; [|split]]]]].
    + intros Ix Iy. apply SC. intros v Hv. apply V in Hv.
      rewrite F4 by not_in_slab tt. rewrite F3 by not_in_slab tt. rewrite F2 by not_in_slab tt. apply F1. not_in_slab tt.
    + intros Ix Iy. apply SP. intros v Hv. apply V in Hv.
      rewrite F4 by not_in_slab tt. rewrite F3 by not_in_slab tt. rewrite F2 by not_in_slab tt.
      apply (A1 (i, j, 0) v); auto. unfold slab2. lia.
    + intros Ix Iy. apply SC. intros v Hv. apply V in Hv.
      rewrite !F4 by not_in_slab tt. rewrite !F3 by not_in_slab tt. rewrite (F2 (Loc a (nx g + gw g - 1) j 0 v)) by not_in_slab tt.
      apply (A2 (i, j, 0) v); auto. unfold slab2. lia.
    + intros Ly Lt. apply SP. intros v Hv. apply V in Hv. rewrite F4 by not_in_slab tt.
      etransitivity; [apply (A3 (i, j, 0) v); auto; unfold slab2; lia|]. unfold wval. rewrite (PX i j). cbn [ltb RArith].
      destruct (Rlt_dec _ _); [reflexivity|contradiction].
    + intros Ly Ge.
      assert (E : forall v, In v [ID; IP; IU; IV] -> s' (Loc a i j 0 v) =
                  (s' (Loc a i (2 * gw g - 1 - j) 0 v) * (if (IV <=? v)%Z then -1 else 1))%R).
      { intros v Hv. apply V in Hv. rewrite !F4 by not_in_slab tt. rewrite (F3 (Loc a i (2 * gw g - 1 - j) 0 v)) by not_in_slab tt.
        etransitivity; [apply (A3 (i, j, 0) v); auto; unfold slab2; lia|]. unfold wval. rewrite (PX i j). cbn [ltb RArith].
        destruct (Rlt_dec _ _); [lra|]. unfold wall_sign. cbn [mul opp one RArith wsrc at_cell]. reflexivity. }
      unfold stored, bounced_y. cbn [hD hP hU hV hW]. rewrite !E by (cbn; auto).
      unfold ID, IP, IU, IV. cbn [Z.leb Z.compare Pos.compare Pos.compare_cont]. f_equal; ring.
    + intros Ly Sh. apply SP. intros v Hv. apply V in Hv.
      etransitivity; [apply (A4 (i, j, 0) v); auto; unfold slab2; lia|]. unfold wval. rewrite (PX i j), (PY i j).
      change (ftan RSLibm (wd_angle w)) with (tan (wd_angle w)). cbn [ltb add div RArith].
      destruct (Rlt_dec _ _) as [Hl|Hl]; [reflexivity|]. exfalso. apply Hl. eapply (front_spec w t); eauto.
    + intros Ly Sh. apply SC. intros v Hv. apply V in Hv.
      rewrite (F4 (Loc a i (ny g + gw g - 1) 0 v)) by not_in_slab tt.
      etransitivity; [apply (A4 (i, j, 0) v); auto; unfold slab2; lia|]. unfold wval. rewrite (PX i j), (PY i j).
      change (ftan RSLibm (wd_angle w)) with (tan (wd_angle w)). cbn [ltb add div RArith].
      destruct (Rlt_dec _ _) as [Hl|Hl]; [|reflexivity]. exfalso. apply Sh. eapply (front_spec w t) in Hl; eauto.
  - intros l Hl.
    assert (N : forall f c v, slab2 g f c -> 0 <= v < 4 -> l <> at_cell a c v).
    { intros f [[i j] k] v Hcc Hv' ->. apply Hl. unfold alloc2d. rewrite Hnb. cbn [at_cell la li lj lk lv]. unfold slab2 in Hcc. destruct f; lia. }
    rewrite F4 by (intros; eauto). rewrite F3 by (intros; eauto). rewrite F2 by (intros; eauto). apply F1. eauto.
Qed.
Print Assumptions C90_borders.

(** The front of the borders is at time 0 the front of the initial condition (behind_front,
    SdmInitSpec.v, C86), and moves along its normal with the given speed. *)
Theorem C90_front : forall (w : wedge R) t X,
  (shocked w 0 X <-> behind_front w X) /\
  (shocked w t (Point (px X + wd_speed w * t * sin (wd_angle w)) (py X - wd_speed w * t * cos (wd_angle w)) (pz X)) <-> shocked w 0 X).
Proof.
  intros w t X. unfold shocked, behind_front. cbn [px py]. assert (E := sin2_cos2 (wd_angle w)). unfold Rsqr in E. split.
  - split; lra.
  - replace ((px X + wd_speed w * t * sin (wd_angle w) - wd_x w) * sin (wd_angle w)
       - (py X - wd_speed w * t * cos (wd_angle w)) * cos (wd_angle w))%R
      with ((px X - wd_x w) * sin (wd_angle w) - py X * cos (wd_angle w)
        + wd_speed w * t * (sin (wd_angle w) * sin (wd_angle w) + cos (wd_angle w) * cos (wd_angle w)))%R by ring.
    rewrite E. split; lra.
Qed.
Print Assumptions C90_front.

(** A front at an angle of 60 degrees on 8 x 4 cells with three ghost cells, at time 1/100: below, the first
    ghost column is inflow and the last a wall; above, the first column is behind the front. *)
Definition ramp_grid : grid := Grid 8 4 1 3 4 (fun _ => 2).
Example C90_case : exists s', run_kernels (mood_wedge_boundaries RSLibm ramp_grid ipar ibox bwedge (1 / 100)%R aU) (fun _ => 1%R) s' /\
  stored aU s' 0 0 = conservative (7 / 5) (wd_post bwedge) /\ stored aU s' 10 2 = HS 1%R 1%R 1%R (-1)%R 0%R /\
  stored aU s' 0 9 = conservative (7 / 5) (wd_post bwedge) /\ stored aU s' 10 7 = HS 1%R 1%R 1%R 1%R 0%R.
Proof.
  eexists. split; [apply run_kernels_seq|].
  set (s' := fold_left _ _ _).
  assert (Hr : run_kernels (mood_wedge_boundaries RSLibm ramp_grid ipar ibox bwedge (1 / 100)%R aU) (fun _ => 1%R) s') by apply run_kernels_seq.
  clearbody s'.
  assert (S3 : (0 < sqrt 3)%R) by (apply sqrt_lt_R0; lra). assert (S4 : (sqrt 3 * sqrt 3 = 3)%R) by (apply sqrt_sqrt; lra).
  assert (S5 : (sqrt 3 < 2)%R) by (apply Rsqr_incrst_0; unfold Rsqr; lra).
  assert (S6 : (1 < sqrt 3)%R) by (apply Rsqr_incrst_0; unfold Rsqr; lra).
  assert (Hs : (0 < sin (wd_angle bwedge))%R) by (cbn; rewrite sin_PI3; lra).
  assert (Hc : cos (wd_angle bwedge) <> 0%R) by (cbn; rewrite cos_PI3; lra).
  destruct (C90_borders ramp_grid ipar ibox bwedge (1 / 100)%R aU _ s' ltac:(unfold grid_ok2d; cbn; lia) eq_refl ltac:(cbn; lra) eq_refl eq_refl Hs Hc Hr) as [W _].
  split; [|split; [|split]].
  - destruct (W 0 0 ltac:(cbn; lia) ltac:(cbn; lia)) as (_ & _ & _ & W4 & _). apply W4; [cbn; lia|]. cbn. lra.
  - destruct (W 10 2 ltac:(cbn; lia) ltac:(cbn; lia)) as (_ & _ & _ & _ & W5 & _). rewrite W5; [|cbn; lia|cbn; lra].
    destruct (W 10 3 ltac:(cbn; lia) ltac:(cbn; lia)) as (W1 & _).
    replace (2 * gw ramp_grid - 1 - 2) with 3 by reflexivity. rewrite W1 by (cbn; lia). unfold stored, bounced_y. cbn. f_equal; lra.
  - destruct (W 0 9 ltac:(cbn; lia) ltac:(cbn; lia)) as (_ & _ & _ & _ & _ & W6 & _). apply W6; [cbn; lia|].
    unfold shocked. cbn. rewrite sin_PI3, cos_PI3. nra.
  - destruct (W 10 7 ltac:(cbn; lia) ltac:(cbn; lia)) as (_ & _ & _ & _ & _ & _ & W7). rewrite W7; [|cbn; lia|].
    + destruct (W 10 6 ltac:(cbn; lia) ltac:(cbn; lia)) as (W1 & _). replace (ny ramp_grid + gw ramp_grid - 1) with 6 by reflexivity.
      rewrite W1 by (cbn; lia). reflexivity.
    + unfold shocked. cbn. rewrite sin_PI3, cos_PI3. nra.
Qed.
Print Assumptions C90_case.
