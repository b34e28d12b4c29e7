(** The time step reduced over processes is the time step of the whole domain,
    in any arithmetic on the reals with exact maximum and comparison and
    monotone division (exact arithmetic and double precision). *)
From Coq Require Import ZArith List Bool Lia Reals Lra Permutation.
From Verif Require Import Arith Par ParProofs GridModel BoundaryModel BoundarySpec BoundaryProofs
  HydroState RiemannModel HydroPoint HydroKernels CellKernels HydroField HydroExec HydroSpec HydroProofs2 HydroStep2 HydroProofs3 HydroStep3 HydroConserve
  ReduceModel DtProofs LoopModel LoopSpec LoopProofs LoopHydro SpmdModel SpmdSpec MpiModel MpiSpec MpiTopo MpiFill MpiRun.
Import ListNotations.
Open Scope Z_scope.

Section Arith.
Context {A : Arith R}.
Hypothesis Hmax : forall x y, maxv x y = Rmax x y.
Hypothesis Hlt : forall x y, ltb x y = true <-> (x < y)%R.

Lemma min_of_cases x y : (min_of x y = x /\ (x <= y)%R) \/ (min_of x y = y /\ (y <= x)%R).
Proof.
  unfold min_of. destruct (ltb y x) eqn:E.
  - right. apply Hlt in E. split; [reflexivity|lra].
  - left. split; [reflexivity|]. destruct (Rle_dec x y); auto. assert (ltb y x = true) by (apply Hlt; lra). congruence.
Qed.
Lemma combined_min l d : combined l d -> In d l /\ forall x, In x l -> (d <= x)%R.
Proof.
  induction 1 as [x|l1 l2 a b H1 [I1 L1] H2 [I2 L2]].
  - split; [left; reflexivity|]. intros y [->|[]]. lra.
  - destruct (min_of_cases a b) as [[-> Hab]|[-> Hab]]; (split; [apply in_or_app; auto|]);
      intros x Hx; apply in_app_or in Hx; destruct Hx as [Hx|Hx]; [apply L1|specialize (L2 x Hx)|specialize (L1 x Hx)|apply L2]; auto; lra.
Qed.

Variable p : hparams R.
Variable lowest : R.
Variable ge : bool.
Hypothesis Hlow : (lowest <= 0)%R.
Hypothesis Hdiv : forall x y, (0 < x < y)%R -> (div (cfl p) y <= div (cfl p) x)%R.

Lemma traj_sub {X} tE (C1 C2 : X -> R -> Prop) adv n z z' :
  (forall k t x d, (k < n)%nat -> trajectory tE C2 adv k z (t, x) -> C1 x d -> C2 x d) ->
  trajectory tE C1 adv n z z' -> trajectory tE C2 adv n z z'.
Proof.
  intros H Ht. induction Ht as [z|n z t x d Ht IH Hd]; [constructor|].
  assert (T2 : trajectory tE C2 adv n z (t, x)).
  { apply IH. intros k t1 x1 d1 Hk. apply H. lia. }
  constructor; [exact T2|]. apply (H n t x d); auto.
Qed.
Lemma traj_det {X} tE (C : X -> R -> Prop) adv n z z1 z2 :
  (forall k t x d d', (k < n)%nat -> trajectory tE C adv k z (t, x) -> C x d -> C x d' -> d = d') ->
  trajectory tE C adv n z z1 -> trajectory tE C adv n z z2 -> z1 = z2.
Proof.
  intros H Ht. revert z2. induction Ht as [z|n z t x d Ht IH Hd]; intros z2 H2; inversion H2; subst; [reflexivity|].
  assert (E : (t, x) = (t0, x0)).
  { apply IH; [|assumption]. intros k t1 x1 d1 d2 Hk. apply H. lia. }
  inversion E; subst. rewrite (H n t0 x0 d d0); auto.
Qed.

(** ** 2D *)
Definition rate_at2 (G u : Z -> Z -> Z -> R) (i j : Z) : R :=
  let w := HS (u i j ID) (u i j IP) (u i j IU) (u i j IV) zero in
  if ge then invdt_cell_gravity2 p w (G i j IX) (G i j IY) else invdt_cell2 p w.

Lemma cfl_char2 g G u d : hydro_grid2 g -> (forall i j, inside2 g i j -> (0 < rate_at2 G u i j)%R) ->
  (cfl2 p g lowest ge G u d <->
   exists i j, inside2 g i j /\ d = div (cfl p) (rate_at2 G u i j) /\
     forall i' j', inside2 g i' j' -> (rate_at2 G u i' j' <= rate_at2 G u i j)%R).
Proof.
  intros Hg Hpos.
  assert (FW : forall d, cfl2 p g lowest ge G u d -> exists i j, inside2 g i j /\ d = div (cfl p) (rate_at2 G u i j) /\
     forall i' j', inside2 g i' j' -> (rate_at2 G u i' j' <= rate_at2 G u i j)%R).
  { clear d. intros d (r & Hr & ->). pose proof Hg as (G1 & G2 & G3 & G4).
    pose (f := fun c : Z * Z * Z => let '(i, j, _) := c in if interior2 g i j then Some (rate_at2 G u i j) else None).
    assert (Hin : inside2 g 2 2) by (unfold inside2; lia). destruct (cells2_in g 2 2 Hin ltac:(lia)) as [C1 C2].
    assert (Hr' : reduces lowest (dt_body2 p g ge (store_of2 u G) aU) Rmax (cells2 g) r).
    { destruct Hr as (l & Hl & Hp). exists l. split; [exact Hl|]. clear - Hp Hmax. induction Hp; [constructor|constructor; assumption|].
      rewrite Hmax. constructor; assumption. }
    destruct (reduces_max lowest (dt_body2 p g ge (store_of2 u G) aU) f) with (items := cells2 g) (r := r) as [M1 (c & M2 & M3)].
    - intros [[i j] k] acc. unfold dt_body2, f. cbv zeta. destruct (interior2 g i j); [apply Hmax|reflexivity].
    - exact Hr'.
    - exists (2, 2, 0), (rate_at2 G u 2 2). split; [exact C1|]. split; [unfold f; rewrite C2; reflexivity|].
      specialize (Hpos 2 2 Hin). lra.
    - destruct (cells2_k g c M2) as (i & j & ->). unfold f in M3.
      destruct (interior2 g i j) eqn:E; [|discriminate]. injection M3 as <-. apply interior2_inside in E.
      exists i, j. split; [exact E|]. split; [reflexivity|]. intros i' j' Hi'.
      destruct (cells2_in g i' j' Hi' ltac:(lia)) as [D1 D2]. apply (M1 (i', j', 0)); [exact D1|]. unfold f. rewrite D2. reflexivity. }
  split; [apply FW|]. intros (i & j & Hi & -> & Hm).
  destruct (hydro_dt2_total p g lowest ge aU (store_of2 u G)) as (d' & Hd').
  destruct (FW d' Hd') as (i' & j' & Hi' & -> & Hm').
  assert (E : rate_at2 G u i j = rate_at2 G u i' j') by (apply Rle_antisym; auto). rewrite E. exact Hd'.
Qed.

Lemma inside_part2 tp g r i j : topo_ok tp -> (r < nprocs tp)%nat -> inside2 g i j ->
  inside2 (whole tp g) (rx tp r * nx g + i) (ry tp r * ny g + j).
Proof.
  intros Htp Hr Hi. destruct (coords_range tp Htp r Hr) as (R1 & R2 & R3). unfold inside2 in *. cbn [whole nx ny gw]. nia.
Qed.
Lemma part_inside2 tp g I J : topo_ok tp -> hydro_grid2 g -> inside2 (whole tp g) I J ->
  exists r i j, (r < nprocs tp)%nat /\ inside2 g i j /\ I = rx tp r * nx g + i /\ J = ry tp r * ny g + j.
Proof.
  intros Htp (G1 & G2 & G3 & G4) Hi. unfold inside2 in Hi. cbn [whole nx ny gw] in Hi. pose proof Htp as (T1 & T2 & T3).
  destruct (split_pos (nx g) (mx tp) (gw g) (I - gw g)) as (A1 & A2 & A3); [lia|lia|lia|].
  destruct (split_pos (ny g) (my tp) (gw g) (J - gw g)) as (B1 & B2 & B3); [lia|lia|lia|].
  set (x := (I - gw g) / nx g) in *. set (y := (J - gw g) / ny g) in *.
  destruct (coords_rank_in tp Htp x y 0) as (C1 & C2 & C3); [lia|lia|lia|].
  exists (cart_rank tp (x, y, 0)), (gw g + (I - gw g) mod nx g), (gw g + (J - gw g) mod ny g).
  split; [apply cart_rank_lt; exact Htp|]. unfold inside2. rewrite C1, C2. lia.
Qed.

Lemma mpi_to_serial2 tp g G u d : topo_ok tp -> hydro_grid2 g ->
  (forall i j, inside2 (whole tp g) i j -> (0 < rate_at2 G u i j)%R) ->
  mpi_cfl2 tp g lowest p ge G u d -> cfl2 p (whole tp g) lowest ge G u d.
Proof.
  intros Htp Hg Hpos (dl & Hdl & l & Hl & Hc).
  destruct (combined_min l d Hc) as [I1 L1].
  assert (HW : hydro_grid2 (whole tp g)).
  { destruct Hg as (G1 & G2 & G3 & G4), Htp as (T1 & T2 & T3). unfold hydro_grid2. cbn [whole gw nbvar nx ny]. repeat split; try assumption; nia. }
  assert (CH : forall r, (r < nprocs tp)%nat -> exists i j, inside2 (whole tp g) i j /\ dl r = div (cfl p) (rate_at2 G u i j) /\
     forall i' j', inside2 g i' j' -> (rate_at2 G u (rx tp r * nx g + i') (ry tp r * ny g + j') <= rate_at2 G u i j)%R).
  { intros r Hr. specialize (Hdl r Hr). apply cfl_char2 in Hdl; [|exact Hg|].
    - destruct Hdl as (i & j & Hi & E & M). exists (rx tp r * nx g + i), (ry tp r * ny g + j).
      split; [apply inside_part2; assumption|]. split; [exact E|]. intros i' j' Hi'. apply (M i' j' Hi').
    - intros i j Hi. apply (Hpos (rx tp r * nx g + i) (ry tp r * ny g + j)). apply inside_part2; assumption. }
  apply cfl_char2; [exact HW|exact Hpos|].
  assert (In0 : In d (map dl (List.seq 0 (nprocs tp)))) by (eapply Permutation_in; eauto).
  apply in_map_iff in In0. destruct In0 as (r0 & E0 & In0). apply in_seq in In0.
  (* the process with the largest rate *)
  assert (BEST : exists i j, inside2 (whole tp g) i j /\
     (forall r, (r < nprocs tp)%nat -> forall i' j', inside2 g i' j' ->
        (rate_at2 G u (rx tp r * nx g + i') (ry tp r * ny g + j') <= rate_at2 G u i j)%R) /\
     exists r, (r < nprocs tp)%nat /\ dl r = div (cfl p) (rate_at2 G u i j)).
  { assert (Q : forall n, (n <= nprocs tp)%nat -> (0 < n)%nat -> exists i j, inside2 (whole tp g) i j /\
       (forall r, (r < n)%nat -> forall i' j', inside2 g i' j' ->
          (rate_at2 G u (rx tp r * nx g + i') (ry tp r * ny g + j') <= rate_at2 G u i j)%R) /\
       exists r, (r < n)%nat /\ dl r = div (cfl p) (rate_at2 G u i j)).
    { induction n as [|n IH]; intros Hn H0; [lia|]. destruct (CH n ltac:(lia)) as (i & j & Hi & E & M).
      destruct n as [|n].
      - exists i, j. split; [exact Hi|]. split; [|exists 0%nat; split; [lia|exact E]].
        intros r Hr. replace r with 0%nat by lia. exact M.
      - destruct IH as (i1 & j1 & Hi1 & M1 & r1 & Hr1 & E1); [lia|lia|].
        destruct (Rle_dec (rate_at2 G u i1 j1) (rate_at2 G u i j)) as [L|L].
        + exists i, j. split; [exact Hi|]. split; [|exists (S n); split; [lia|exact E]].
          intros r Hr i' j' Hi'. destruct (Nat.eq_dec r (S n)) as [->|Hne]; [apply M; exact Hi'|].
          eapply Rle_trans; [apply M1; [lia|exact Hi']|exact L].
        + exists i1, j1. split; [exact Hi1|]. split; [|exists r1; split; [lia|exact E1]].
          intros r Hr i' j' Hi'. destruct (Nat.eq_dec r (S n)) as [->|Hne]; [|apply M1; [lia|exact Hi']].
          eapply Rle_trans; [apply M; exact Hi'|lra]. }
    apply Q; lia. }
  destruct BEST as (i & j & Hi & M & r1 & Hr1 & E1). exists i, j. split; [exact Hi|]. split.
  - apply Rle_antisym.
    + rewrite <- E1. apply L1. eapply Permutation_in; [apply Permutation_sym; exact Hl|]. apply in_map. apply in_seq. lia.
    + rewrite <- E0. destruct (CH r0 ltac:(lia)) as (i0 & j0 & Hi0 & E2 & _). rewrite E2.
      destruct (part_inside2 tp g i0 j0 Htp Hg Hi0) as (r & a & b & Hr & Hab & -> & ->).
      specialize (M r Hr a b Hab).
      destruct (Rlt_dec (rate_at2 G u (rx tp r * nx g + a) (ry tp r * ny g + b)) (rate_at2 G u i j)) as [L|L].
      * apply Hdiv. split; [apply Hpos; exact Hi0|exact L].
      * assert (E : rate_at2 G u (rx tp r * nx g + a) (ry tp r * ny g + b) = rate_at2 G u i j) by lra. rewrite E. lra.
  - intros I J HIJ. destruct (part_inside2 tp g I J Htp Hg HIJ) as (r & a & b & Hr & Hab & -> & ->). apply M; assumption.
Qed.

Lemma cfl_det2 g G u d d' : hydro_grid2 g -> (forall i j, inside2 g i j -> (0 < rate_at2 G u i j)%R) ->
  cfl2 p g lowest ge G u d -> cfl2 p g lowest ge G u d' -> d = d'.
Proof.
  intros Hg Hpos H1 H2. apply cfl_char2 in H1; auto. apply cfl_char2 in H2; auto.
  destruct H1 as (i & j & I1 & -> & M1), H2 as (i' & j' & I2 & -> & M2). f_equal. apply Rle_antisym; auto.
Qed.

(** Distributed and serial runs. *)
Theorem same_run2 (Hunit : unit_stable) tp g ly impl c n (sp sp' : nat -> pstate R) (s s' : sim R R) :
  topo_ok tp -> hydro_grid2 g -> known_codes g -> impl = 0 \/ impl = 1 -> slope_ok p -> riemann_ok2 p ->
  0 <= m_iteration s ->
  let W := whole tp g in
  let u := fun i j v => mem s (Loc (current (m_iteration s)) i j 0 v) in
  let G := fun i j d => mem s (Loc aG i j 0 d) in
  good2 tp g u -> 
  (forall q s1, (q < n)%nat -> loop c (hydro_dt2 p W lowest ge) (hydro_step2 p W ge impl) q s s1 ->
     forall i j, inside2 W i j -> (0 < rate_at2 G (fun i j v => mem s1 (Loc (current (m_iteration s1)) i j 0%Z v)) i j)%R) ->
  distributed2 tp g ge s sp ->
  lockstep (nprocs tp) (iterations_mpi tp g ly lowest p ge impl c false n) sp sp' ->
  loop c (hydro_dt2 p W lowest ge) (hydro_step2 p W ge impl) n s s' ->
  distributed2 tp g ge s' sp'.
Proof.
  intros Htp Hg Hcodes Himpl Hs Hr H0 W u G Hgood Hpos Hsy HL Hloop.
  assert (HG : gravity_is2 G (mem s)) by (intros i j d; reflexivity).
  assert (HW : hydro_grid2 W).
  { destruct Hg as (G1 & G2 & G3 & G4), Htp as (T1 & T2 & T3). unfold hydro_grid2, W. cbn [whole gw nbvar nx ny]. repeat split; try assumption; nia. }
  destruct (iterations2 Hunit tp g ly lowest p ge impl c Htp Hg Hcodes Himpl Hs Hr n u G (m_t s) (m_iteration s) sp sp' H0 Hgood Hsy HL)
    as (t2 & u2 & T2 & (Y1 & Y2 & Y3) & _).
  assert (REF : forall q s1, loop c (hydro_dt2 p W lowest ge) (hydro_step2 p W ge impl) q s s1 ->
    exists u1, trajectory (l_tEnd c) (cfl2 p W lowest ge G) (adv2 p W ge G) q (m_t s, u) (m_t s1, u1) /\
      holds2 W u1 (current (m_iteration s1)) (mem s1) /\ gravity_is2 G (mem s1)).
  { intros q s1 Hk.
    destruct (refine c (hydro_dt2 p W lowest ge) (hydro_step2 p W ge impl)
      (fun u a m => holds2 W u a m /\ gravity_is2 G m /\ a <> aG) (cfl2 p W lowest ge G) (adv2 p W ge G)) with (n := q) (s := s) (s' := s1) (x := u)
      as (x' & X1 & X2 & _); auto.
    - intros x a m d (E1 & E2 & E3) Hd. eapply dt_store2; eauto.
    - intros x a b d m m' Ha (E1 & E2 & E3) Hst. destruct (step_store2 p W ge impl Himpl Hs x G a b d m m') as [Z1 Z2]; auto.
      split; auto. split; auto. clear - Ha. arrays; lia.
    - split; [intros i j v _ _; reflexivity|]. split; [exact HG|].
      unfold current. destruct (Z.rem _ 2 =? 0); discriminate.
    - exists x'. split; [exact X1|]. split; apply X2. }
  assert (RE : forall u1 a m, holds2 W u1 a m -> forall i j, inside2 W i j ->
    rate_at2 G (fun i j v => m (Loc a i j 0 v)) i j = rate_at2 G u1 i j).
  { intros u1 a m Hh i j Hi. unfold rate_at2. rewrite !Hh by (try exact Hi; unfold ID, IP, IU, IV; lia). reflexivity. }
  (* every prefix of the serial loop exists, so the trajectory is positive *)
  assert (PRE : forall m s1, loop c (hydro_dt2 p W lowest ge) (hydro_step2 p W ge impl) m s s1 ->
     forall q, (q <= m)%nat -> exists s2, loop c (hydro_dt2 p W lowest ge) (hydro_step2 p W ge impl) q s s2).
  { clear. intros m s1 H. induction H as [s|m s s1 s2 H IH Hf Hn]; intros q Hk.
    - exists s. replace q with 0%nat by lia. constructor.
    - destruct (Nat.eq_dec q (S m)) as [->|Hne]; [exists s2; econstructor; eauto|]. apply IH. lia. }
  assert (ALL : forall q, (q <= n)%nat -> forall t1 x1 t2 x2,
    trajectory (l_tEnd c) (cfl2 p W lowest ge G) (adv2 p W ge G) q (m_t s, u) (t1, x1) ->
    trajectory (l_tEnd c) (cfl2 p W lowest ge G) (adv2 p W ge G) q (m_t s, u) (t2, x2) -> (t1, x1) = (t2, x2)).
  { induction q as [|q IH]; intros Hk a1 x1 a2 x2 A1 A2; inversion A1 as [|? ? t x d B1 B2]; subst; inversion A2 as [|? ? t0 x0 d0 B3 B4]; subst; [reflexivity|].
    assert (E : (t, x) = (t0, x0)) by (apply (IH ltac:(lia) _ _ _ _ B1 B3)). inversion E; subst.
    destruct (PRE n s' Hloop q ltac:(lia)) as (s1 & L1). destruct (REF q s1 L1) as (u1 & U1 & U2 & U3).
    assert (E2 : (t0, x0) = (m_t s1, u1)) by (apply (IH ltac:(lia) _ _ _ _ B3 U1)). inversion E2; subst.
    rewrite (cfl_det2 W G u1 d d0); auto. intros i j Hi. rewrite <- (RE u1 _ _ U2 i j Hi). apply (Hpos q s1); auto. }
  assert (T3 : trajectory (l_tEnd c) (cfl2 p W lowest ge G) (adv2 p W ge G) n (m_t s, u) (t2, u2)).
  { revert T2. apply traj_sub. intros q t1 x1 d Hk A1 A2. apply mpi_to_serial2; auto.
    destruct (PRE n s' Hloop q ltac:(lia)) as (s1 & L1). destruct (REF q s1 L1) as (u1 & U1 & U2 & U3).
    assert (E2 : (t1, x1) = (m_t s1, u1)) by (apply (ALL q ltac:(lia) _ _ _ _ A1 U1)). inversion E2; subst.
    intros i j Hi. fold W in Hi. rewrite <- (RE u1 _ _ U2 i j Hi). apply (Hpos q s1); auto. }
  destruct (REF n s' Hloop) as (u1 & U1 & U2 & U3).
  assert (E : (t2, u2) = (m_t s', u1)) by (apply (ALL n (le_n n) _ _ _ _ T3 U1)). inversion E; subst.
  assert (EI : m_iteration s + Z.of_nat n = m_iteration s') by (rewrite (loop_iter c _ _ n s s' Hloop); lia).
  rewrite EI in *. split; [exact Y1|]. split.
  - intros r i j v Hrk Hi Hj Hv. rewrite (Y2 r i j v Hrk Hi Hj Hv). symmetry. apply U2.
    + apply inside_part2; auto. repeat split; first [apply Hi|apply Hj].
    + destruct Hg as (_ & G2 & _). lia.
  - intros Ege r i j d Hrk Hi Hj. rewrite (Y3 Ege r i j d Hrk Hi Hj). symmetry. apply U3.
Qed.

(** ** 3D *)
Definition rate_at3 (G u : Z -> Z -> Z -> Z -> R) (i j k : Z) : R :=
  let w := HS (u i j k ID) (u i j k IP) (u i j k IU) (u i j k IV) (u i j k IW) in
  if ge then invdt_cell_gravity3 p w (G i j k IX) (G i j k IY) (G i j k IZ) else invdt_cell3 p w.

Lemma cfl_char3 g G u d : hydro_grid3 g -> (forall i j k, inside3 g i j k -> (0 < rate_at3 G u i j k)%R) ->
  (cfl3 p g lowest ge G u d <->
   exists i j k, inside3 g i j k /\ d = div (cfl p) (rate_at3 G u i j k) /\
     forall i' j' k', inside3 g i' j' k' -> (rate_at3 G u i' j' k' <= rate_at3 G u i j k)%R).
Proof.
  intros Hg Hpos.
  assert (FW : forall d, cfl3 p g lowest ge G u d -> exists i j k, inside3 g i j k /\ d = div (cfl p) (rate_at3 G u i j k) /\
     forall i' j' k', inside3 g i' j' k' -> (rate_at3 G u i' j' k' <= rate_at3 G u i j k)%R).
  { clear d. intros d (r & Hr & ->). pose proof Hg as (G1 & G2 & G3 & G4 & G5).
    pose (f := fun c : Z * Z * Z => let '(i, j, k) := c in if interior3 g i j k then Some (rate_at3 G u i j k) else None).
    assert (Hin : inside3 g 2 2 2) by (unfold inside3; lia). destruct (cells3_in g 2 2 2 Hin ltac:(lia)) as [C1 C2].
    assert (Hr' : reduces lowest (dt_body3 p g ge (store_of3 u G) aU) Rmax (cells3 g) r).
    { destruct Hr as (l & Hl & Hp). exists l. split; [exact Hl|]. clear - Hp Hmax. induction Hp; [constructor|constructor; assumption|].
      rewrite Hmax. constructor; assumption. }
    destruct (reduces_max lowest (dt_body3 p g ge (store_of3 u G) aU) f) with (items := cells3 g) (r := r) as [M1 (c & M2 & M3)].
    - intros [[i j] k] acc. unfold dt_body3, f. cbv zeta. destruct (interior3 g i j k); [apply Hmax|reflexivity].
    - exact Hr'.
    - exists (2, 2, 2), (rate_at3 G u 2 2 2). split; [exact C1|]. split; [unfold f; rewrite C2; reflexivity|].
      specialize (Hpos 2 2 2 Hin). lra.
    - destruct c as [[i j] k]. unfold f in M3.
      destruct (interior3 g i j k) eqn:E; [|discriminate]. injection M3 as <-. apply interior3_inside in E.
      exists i, j, k. split; [exact E|]. split; [reflexivity|]. intros i' j' k' Hi'.
      destruct (cells3_in g i' j' k' Hi' ltac:(lia)) as [D1 D2]. apply (M1 (i', j', k')); [exact D1|]. unfold f. rewrite D2. reflexivity. }
  split; [apply FW|]. intros (i & j & k & Hi & -> & Hm).
  destruct (hydro_dt3_total p g lowest ge aU (store_of3 u G)) as (d' & Hd').
  destruct (FW d' Hd') as (i' & j' & k' & Hi' & -> & Hm').
  assert (E : rate_at3 G u i j k = rate_at3 G u i' j' k') by (apply Rle_antisym; auto). rewrite E. exact Hd'.
Qed.

Lemma inside_part3 tp g r i j k : topo_ok tp -> (r < nprocs tp)%nat -> inside3 g i j k ->
  inside3 (whole tp g) (rx tp r * nx g + i) (ry tp r * ny g + j) (rz tp r * nz g + k).
Proof.
  intros Htp Hr Hi. destruct (coords_range tp Htp r Hr) as (R1 & R2 & R3). unfold inside3 in *. cbn [whole nx ny nz gw]. nia.
Qed.
Lemma part_inside3 tp g I J K : topo_ok tp -> hydro_grid3 g -> inside3 (whole tp g) I J K ->
  exists r i j k, (r < nprocs tp)%nat /\ inside3 g i j k /\ I = rx tp r * nx g + i /\ J = ry tp r * ny g + j /\ K = rz tp r * nz g + k.
Proof.
  intros Htp (G1 & G2 & G3 & G4 & G5) Hi. unfold inside3 in Hi. cbn [whole nx ny nz gw] in Hi. pose proof Htp as (T1 & T2 & T3).
  destruct (split_pos (nx g) (mx tp) (gw g) (I - gw g)) as (A1 & A2 & A3); [lia|lia|lia|].
  destruct (split_pos (nz g) (mz tp) (gw g) (K - gw g)) as (D1 & D2 & D3); [lia|lia|lia|].
  destruct (split_pos (ny g) (my tp) (gw g) (J - gw g)) as (B1 & B2 & B3); [lia|lia|lia|].
  set (x := (I - gw g) / nx g) in *. set (y := (J - gw g) / ny g) in *. set (z := (K - gw g) / nz g) in *.
  destruct (coords_rank_in tp Htp x y z) as (C1 & C2 & C3); [lia|lia|lia|].
  exists (cart_rank tp (x, y, z)), (gw g + (I - gw g) mod nx g), (gw g + (J - gw g) mod ny g), (gw g + (K - gw g) mod nz g).
  split; [apply cart_rank_lt; exact Htp|]. unfold inside3. rewrite C1, C2, C3. lia.
Qed.

Lemma mpi_to_serial3 tp g G u d : topo_ok tp -> hydro_grid3 g ->
  (forall i j k, inside3 (whole tp g) i j k -> (0 < rate_at3 G u i j k)%R) ->
  mpi_cfl3 tp g lowest p ge G u d -> cfl3 p (whole tp g) lowest ge G u d.
Proof.
  intros Htp Hg Hpos (dl & Hdl & l & Hl & Hc).
  destruct (combined_min l d Hc) as [I1 L1].
  assert (HW : hydro_grid3 (whole tp g)).
  { destruct Hg as (G1 & G2 & G3 & G4 & G5), Htp as (T1 & T2 & T3). unfold hydro_grid3. cbn [whole gw nbvar nx ny nz]. repeat split; try assumption; nia. }
  assert (CH : forall r, (r < nprocs tp)%nat -> exists i j k, inside3 (whole tp g) i j k /\ dl r = div (cfl p) (rate_at3 G u i j k) /\
     forall i' j' k', inside3 g i' j' k' -> (rate_at3 G u (rx tp r * nx g + i') (ry tp r * ny g + j') (rz tp r * nz g + k') <= rate_at3 G u i j k)%R).
  { intros r Hr. specialize (Hdl r Hr). apply cfl_char3 in Hdl; [|exact Hg|].
    - destruct Hdl as (i & j & k & Hi & E & M). exists (rx tp r * nx g + i), (ry tp r * ny g + j), (rz tp r * nz g + k).
      split; [apply inside_part3; assumption|]. split; [exact E|]. intros i' j' k' Hi'. apply (M i' j' k' Hi').
    - intros i j k Hi. apply (Hpos (rx tp r * nx g + i) (ry tp r * ny g + j) (rz tp r * nz g + k)). apply inside_part3; assumption. }
  apply cfl_char3; [exact HW|exact Hpos|].
  assert (In0 : In d (map dl (List.seq 0 (nprocs tp)))) by (eapply Permutation_in; eauto).
  apply in_map_iff in In0. destruct In0 as (r0 & E0 & In0). apply in_seq in In0.
  (* the process with the largest rate *)
  assert (BEST : exists i j k, inside3 (whole tp g) i j k /\
     (forall r, (r < nprocs tp)%nat -> forall i' j' k', inside3 g i' j' k' ->
        (rate_at3 G u (rx tp r * nx g + i') (ry tp r * ny g + j') (rz tp r * nz g + k') <= rate_at3 G u i j k)%R) /\
     exists r, (r < nprocs tp)%nat /\ dl r = div (cfl p) (rate_at3 G u i j k)).
  { assert (Q : forall n, (n <= nprocs tp)%nat -> (0 < n)%nat -> exists i j k, inside3 (whole tp g) i j k /\
       (forall r, (r < n)%nat -> forall i' j' k', inside3 g i' j' k' ->
          (rate_at3 G u (rx tp r * nx g + i') (ry tp r * ny g + j') (rz tp r * nz g + k') <= rate_at3 G u i j k)%R) /\
       exists r, (r < n)%nat /\ dl r = div (cfl p) (rate_at3 G u i j k)).
    { induction n as [|n IH]; intros Hn H0; [lia|]. destruct (CH n ltac:(lia)) as (i & j & k & Hi & E & M).
      destruct n as [|n].
      - exists i, j, k. split; [exact Hi|]. split; [|exists 0%nat; split; [lia|exact E]].
        intros r Hr. replace r with 0%nat by lia. exact M.
      - destruct IH as (i1 & j1 & k1 & Hi1 & M1 & r1 & Hr1 & E1); [lia|lia|].
        destruct (Rle_dec (rate_at3 G u i1 j1 k1) (rate_at3 G u i j k)) as [L|L].
        + exists i, j, k. split; [exact Hi|]. split; [|exists (S n); split; [lia|exact E]].
          intros r Hr i' j' k' Hi'. destruct (Nat.eq_dec r (S n)) as [->|Hne]; [apply M; exact Hi'|].
          eapply Rle_trans; [apply M1; [lia|exact Hi']|exact L].
        + exists i1, j1, k1. split; [exact Hi1|]. split; [|exists r1; split; [lia|exact E1]].
          intros r Hr i' j' k' Hi'. destruct (Nat.eq_dec r (S n)) as [->|Hne]; [|apply M1; [lia|exact Hi']].
          eapply Rle_trans; [apply M; exact Hi'|lra]. }
    apply Q; lia. }
  destruct BEST as (i & j & k & Hi & M & r1 & Hr1 & E1). exists i, j, k. split; [exact Hi|]. split.
  - apply Rle_antisym.
    + rewrite <- E1. apply L1. eapply Permutation_in; [apply Permutation_sym; exact Hl|]. apply in_map. apply in_seq. lia.
    + rewrite <- E0. destruct (CH r0 ltac:(lia)) as (i0 & j0 & k0 & Hi0 & E2 & _). rewrite E2.
      destruct (part_inside3 tp g i0 j0 k0 Htp Hg Hi0) as (r & a & b & e & Hr & Hab & -> & -> & ->).
      specialize (M r Hr a b e Hab).
      destruct (Rlt_dec (rate_at3 G u (rx tp r * nx g + a) (ry tp r * ny g + b) (rz tp r * nz g + e)) (rate_at3 G u i j k)) as [L|L].
      * apply Hdiv. split; [apply Hpos; exact Hi0|exact L].
      * assert (E : rate_at3 G u (rx tp r * nx g + a) (ry tp r * ny g + b) (rz tp r * nz g + e) = rate_at3 G u i j k) by lra. rewrite E. lra.
  - intros I J K HIJ. destruct (part_inside3 tp g I J K Htp Hg HIJ) as (r & a & b & e & Hr & Hab & -> & -> & ->). apply M; assumption.
Qed.

Lemma cfl_det3 g G u d d' : hydro_grid3 g -> (forall i j k, inside3 g i j k -> (0 < rate_at3 G u i j k)%R) ->
  cfl3 p g lowest ge G u d -> cfl3 p g lowest ge G u d' -> d = d'.
Proof.
  intros Hg Hpos H1 H2. apply cfl_char3 in H1; auto. apply cfl_char3 in H2; auto.
  destruct H1 as (i & j & k & I1 & -> & M1), H2 as (i' & j' & k' & I2 & -> & M2). f_equal. apply Rle_antisym; auto.
Qed.

(** Distributed and serial runs. *)
Theorem same_run3 (Hunit : unit_stable) tp g ly impl c n (sp sp' : nat -> pstate R) (s s' : sim R R) :
  topo_ok tp -> hydro_grid3 g -> known_codes g -> impl = 0 \/ impl = 1 -> slope_ok p -> riemann_ok3 p ->
  0 <= m_iteration s ->
  let W := whole tp g in
  let u := fun i j k v => mem s (Loc (current (m_iteration s)) i j k v) in
  let G := fun i j k d => mem s (Loc aG i j k d) in
  good3 tp g u -> 
  (forall q s1, (q < n)%nat -> loop c (hydro_dt3 p W lowest ge) (hydro_step3 p W ge impl) q s s1 ->
     forall i j k, inside3 W i j k -> (0 < rate_at3 G (fun i j k v => mem s1 (Loc (current (m_iteration s1)) i j k v)) i j k)%R) ->
  distributed3 tp g ge s sp ->
  lockstep (nprocs tp) (iterations_mpi tp g ly lowest p ge impl c true n) sp sp' ->
  loop c (hydro_dt3 p W lowest ge) (hydro_step3 p W ge impl) n s s' ->
  distributed3 tp g ge s' sp'.
Proof.
  intros Htp Hg Hcodes Himpl Hs Hr H0 W u G Hgood Hpos Hsy HL Hloop.
  assert (HG : gravity_is3 G (mem s)) by (intros i j k d; reflexivity).
  assert (HW : hydro_grid3 W).
  { destruct Hg as (G1 & G2 & G3 & G4 & G5), Htp as (T1 & T2 & T3). unfold hydro_grid3, W. cbn [whole gw nbvar nx ny nz]. repeat split; try assumption; nia. }
  destruct (iterations3 Hunit tp g ly lowest p ge impl c Htp Hg Hcodes Himpl Hs Hr n u G (m_t s) (m_iteration s) sp sp' H0 Hgood Hsy HL)
    as (t2 & u2 & T2 & (Y1 & Y2 & Y3) & _).
  assert (REF : forall q s1, loop c (hydro_dt3 p W lowest ge) (hydro_step3 p W ge impl) q s s1 ->
    exists u1, trajectory (l_tEnd c) (cfl3 p W lowest ge G) (adv3 p W ge impl G) q (m_t s, u) (m_t s1, u1) /\
      holds3 W u1 (current (m_iteration s1)) (mem s1) /\ gravity_is3 G (mem s1)).
  { intros q s1 Hk.
    destruct (refine c (hydro_dt3 p W lowest ge) (hydro_step3 p W ge impl)
      (fun u a m => holds3 W u a m /\ gravity_is3 G m /\ a <> aG) (cfl3 p W lowest ge G) (adv3 p W ge impl G)) with (n := q) (s := s) (s' := s1) (x := u)
      as (x' & X1 & X2 & _); auto.
    - intros x a m d (E1 & E2 & E3) Hd. eapply dt_store3; eauto.
    - intros x a b d m m' Ha (E1 & E2 & E3) Hst. destruct (step_store3 p W ge impl Himpl Hs x G a b d m m') as [Z1 Z2]; auto.
      split; auto. split; auto. clear - Ha. arrays; lia.
    - split; [intros i j k v _ _; reflexivity|]. split; [exact HG|].
      unfold current. destruct (Z.rem _ 2 =? 0); discriminate.
    - exists x'. split; [exact X1|]. split; apply X2. }
  assert (RE : forall u1 a m, holds3 W u1 a m -> forall i j k, inside3 W i j k ->
    rate_at3 G (fun i j k v => m (Loc a i j k v)) i j k = rate_at3 G u1 i j k).
  { intros u1 a m Hh i j k Hi. unfold rate_at3. rewrite !Hh by (try exact Hi; unfold ID, IP, IU, IV, IW; lia). reflexivity. }
  (* every prefix of the serial loop exists, so the trajectory is positive *)
  assert (PRE : forall m s1, loop c (hydro_dt3 p W lowest ge) (hydro_step3 p W ge impl) m s s1 ->
     forall q, (q <= m)%nat -> exists s2, loop c (hydro_dt3 p W lowest ge) (hydro_step3 p W ge impl) q s s2).
  { clear. intros m s1 H. induction H as [s|m s s1 s2 H IH Hf Hn]; intros q Hk.
    - exists s. replace q with 0%nat by lia. constructor.
    - destruct (Nat.eq_dec q (S m)) as [->|Hne]; [exists s2; econstructor; eauto|]. apply IH. lia. }
  assert (ALL : forall q, (q <= n)%nat -> forall t1 x1 t2 x2,
    trajectory (l_tEnd c) (cfl3 p W lowest ge G) (adv3 p W ge impl G) q (m_t s, u) (t1, x1) ->
    trajectory (l_tEnd c) (cfl3 p W lowest ge G) (adv3 p W ge impl G) q (m_t s, u) (t2, x2) -> (t1, x1) = (t2, x2)).
  { induction q as [|q IH]; intros Hk a1 x1 a2 x2 A1 A2; inversion A1 as [|? ? t x d B1 B2]; subst; inversion A2 as [|? ? t0 x0 d0 B3 B4]; subst; [reflexivity|].
    assert (E : (t, x) = (t0, x0)) by (apply (IH ltac:(lia) _ _ _ _ B1 B3)). inversion E; subst.
    destruct (PRE n s' Hloop q ltac:(lia)) as (s1 & L1). destruct (REF q s1 L1) as (u1 & U1 & U2 & U3).
    assert (E2 : (t0, x0) = (m_t s1, u1)) by (apply (IH ltac:(lia) _ _ _ _ B3 U1)). inversion E2; subst.
    rewrite (cfl_det3 W G u1 d d0); auto. intros i j k Hi. rewrite <- (RE u1 _ _ U2 i j k Hi). apply (Hpos q s1); auto. }
  assert (T3 : trajectory (l_tEnd c) (cfl3 p W lowest ge G) (adv3 p W ge impl G) n (m_t s, u) (t2, u2)).
  { revert T2. apply traj_sub. intros q t1 x1 d Hk A1 A2. apply mpi_to_serial3; auto.
    destruct (PRE n s' Hloop q ltac:(lia)) as (s1 & L1). destruct (REF q s1 L1) as (u1 & U1 & U2 & U3).
    assert (E2 : (t1, x1) = (m_t s1, u1)) by (apply (ALL q ltac:(lia) _ _ _ _ A1 U1)). inversion E2; subst.
    intros i j k Hi. fold W in Hi. rewrite <- (RE u1 _ _ U2 i j k Hi). apply (Hpos q s1); auto. }
  destruct (REF n s' Hloop) as (u1 & U1 & U2 & U3).
  assert (E : (t2, u2) = (m_t s', u1)) by (apply (ALL n (le_n n) _ _ _ _ T3 U1)). inversion E; subst.
  assert (EI : m_iteration s + Z.of_nat n = m_iteration s') by (rewrite (loop_iter c _ _ n s s' Hloop); lia).
  rewrite EI in *. split; [exact Y1|]. split.
  - intros r i j k v Hrk Hi Hj Hk Hv. rewrite (Y2 r i j k v Hrk Hi Hj Hk Hv). symmetry. apply U2.
    + apply inside_part3; auto. repeat split; first [apply Hi|apply Hj|apply Hk].
    + destruct Hg as (_ & G2 & _). lia.
  - intros Ege r i j k d Hrk Hi Hj Hk. rewrite (Y3 Ege r i j k d Hrk Hi Hj Hk). symmetry. apply U3.
Qed.
End Arith.
