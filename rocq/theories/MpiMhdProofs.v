(** The distributed MHD loop follows the trajectory of the whole domain (exact
    arithmetic). *)
From Coq Require Import ZArith List Bool Lia Reals Lra Permutation.
From Verif Require Import Arith Par ParProofs GridModel BoundaryModel BoundarySpec BoundaryProofs
  HydroState HydroPoint HydroKernels CellKernels HydroExec HydroSpec HydroProofs2 HydroStep2 HydroProofs3 HydroStep3 HydroConserve ReduceModel DtProofs
  LoopModel LoopSpec LoopProofs LoopHydro SpmdModel SpmdSpec SpmdProofs MpiModel MpiSpec MpiTopo MpiCopy MpiExchange MpiFill MpiDt MpiLive
  MhdState MhdRiemann MhdPoint MhdKernels2 MhdKernels3 MhdSpec MhdSpec3 MhdExec MhdPoint3 MhdField2 MhdField3 MhdProofs2 MhdProofs3 MhdStep2 MhdStep3
  MhdConserve2 MhdConserve3 MhdPhysics MhdLow2 MhdLow3 MhdLoop2 MhdLoop3 MhdRun2 MhdRun3 RestartMhdProofs MpiMhd.
Import ListNotations.
Open Scope Z_scope.

(** ** Matched communication, existence of executions *)
Section Live.
Context {T : Type} {A : Arith T}.
Variables (tp : topo) (g : grid) (ly : layout) (lowest : T) (p : mparams T) (impl : Z) (c : lconf T).
Hypothesis Htp : topo_ok tp.
Notation P := (nprocs tp).

Lemma mdt_matched d3 o : In o (mcompute_dt_mpi g lowest p c d3) -> matched P o.
Proof using. intros [<-|[<-|[<-|[<-|[]]]]]; exact I. Qed.
Lemma mdt_productive d3 o : In o (mcompute_dt_mpi g lowest p c d3) -> productive P o.
Proof using Htp.
  intros [<-|[<-|[<-|[<-|[]]]]]; cbn [productive barrier allreduce_min].
  - intros r s _. destruct d3.
    + eexists. eexists. split; [|reflexivity]. eexists. split; [eexists; split; [apply Permutation_refl|apply partial_seq]|reflexivity].
    + eexists. eexists. split; [|reflexivity]. eexists. split; [eexists; split; [apply Permutation_refl|apply partial_seq]|reflexivity].
  - intros ms _. eexists. reflexivity.
  - intros ms _. destruct (numbers_of ms) as [|x l] eqn:E.
    + exists (MNum zero), [], zero. split; [constructor|]. auto.
    + destruct (combined_total (x :: l)) as (y & Hy); [discriminate|]. exists (MNum y), (x :: l), y. split; [apply Permutation_refl|]. auto.
  - intros r s _. eexists. reflexivity.
Qed.
Lemma miteration_matched d3 o : In o (mnext_iteration_mpi tp g ly lowest p impl c d3) -> matched P o.
Proof using Htp.
  intros H. apply in_app_or in H. destruct H as [H|H].
  { destruct d3; [eapply boundaries3_matched|eapply boundaries2_matched]; eauto. }
  apply in_app_or in H. destruct H as [[<-|[]]|H]; [exact I|]. apply in_app_or in H. destruct H as [H|H]; [eapply mdt_matched; eauto|].
  destruct H as [<-|[]]. exact I.
Qed.
Lemma miteration_productive d3 o : In o (mnext_iteration_mpi tp g ly lowest p impl c d3) -> productive P o.
Proof using Htp.
  intros H. apply in_app_or in H. destruct H as [H|H].
  { destruct d3; [eapply boundaries3_productive|eapply boundaries2_productive]; eauto. }
  apply in_app_or in H. destruct H as [[<-|[]]|H].
  { intros r s _. eexists. eexists. split; [apply run_kernels_seq|reflexivity]. }
  apply in_app_or in H. destruct H as [H|H]; [eapply mdt_productive; eauto|].
  destruct H as [<-|[]]. intros r s _. eexists. exists (fun _ _ => ms_zero). eexists. split; [apply run_kernels_seq|reflexivity].
Qed.
Lemma miterations_matched d3 n o : In o (miterations_mpi tp g ly lowest p impl c d3 n) -> matched P o.
Proof using Htp.
  unfold miterations_mpi. induction n as [|n IH]; cbn [repeat concat]; [intros []|].
  intros H. apply in_app_or in H. destruct H as [H|H]; [eapply miteration_matched; eauto|auto].
Qed.
Lemma miterations_productive d3 n o : In o (miterations_mpi tp g ly lowest p impl c d3 n) -> productive P o.
Proof using Htp.
  unfold miterations_mpi. induction n as [|n IH]; cbn [repeat concat]; [intros []|].
  intros H. apply in_app_or in H. destruct H as [H|H]; [eapply miteration_productive; eauto|auto].
Qed.

Lemma mlock_dt d3 (s s' : nat -> pstate T) : lockstep P (mcompute_dt_mpi g lowest p c d3) s s' ->
  exists dl d, (forall r, (r < P)%nat ->
     (if d3 then mcompute_dt_local3 p g lowest (p_mem (s r)) (dl r) else mcompute_dt_local2 p g lowest (p_mem (s r)) (dl r))) /\
   (exists l, Permutation l (map dl (List.seq 0 P)) /\ combined l d) /\
   forall r, (r < P)%nat -> s' r = PS (p_mem (s r)) (p_t (s r)) (clip_dt c (p_t (s r)) d) (dl r) (p_it (s r)).
Proof using Htp.
  intros H. unfold mcompute_dt_mpi in H.
  inversion H as [|? ? ? s1 ? T1 H1]; subst. inversion H1 as [|? ? ? s2 ? T2 H2]; subst.
  inversion H2 as [|? ? ? s3 ? T3 H3]; subst. inversion H3 as [|? ? ? s4 ? T4 H4]; subst. inversion H4; subst.
  destruct T2 as (x2 & _ & T2). destruct T3 as (x3 & (l & y & L1 & L2 & ->) & T3).
  cbn [together] in T1, T4.
  exists (fun r => p_dtl (s1 r)), y. split; [|split].
  - intros r Hrk. destruct (T1 r Hrk) as (d & D1 & ->). exact D1.
  - assert (E : numbers_of (map (fun r => MNum (p_dtl (s2 r))) (List.seq 0 P)) = map (fun r => p_dtl (s1 r)) (List.seq 0 P)).
    { assert (HB : forall r, In r (List.seq 0 P) -> (r < P)%nat) by (intros r Hin; apply in_seq in Hin; lia).
      revert HB. generalize (List.seq 0 P). clear - T2. induction l as [|r l IH]; intros HB; cbn; [reflexivity|].
      rewrite T2 by (apply HB; left; reflexivity). f_equal. apply IH. intros q Hq. apply HB. right. exact Hq. }
    rewrite E in L1. exists l. split; [exact L1|]. destruct L2 as [L2|[-> _]]; [exact L2|].
    exfalso. apply Permutation_nil in L1. apply map_eq_nil in L1.
    assert (PP : (0 < P)%nat). { destruct Htp as (? & ? & ?). unfold nprocs. assert (0 < mx tp * my tp * mz tp) by nia. lia. }
    destruct P; [lia|discriminate].
  - intros r Hrk. rewrite (T4 r Hrk), (T3 r Hrk), (T2 r Hrk). destruct (T1 r Hrk) as (d & _ & ->). reflexivity.
Qed.
End Live.

Open Scope R_scope.
(** ** 2D *)
Section Local2.
Variables (p : mparams R) (g : grid) (lowest : R).
Hypothesis Hg : mhd_grid2 g.

Lemma mafter_fill2 d junk impl a b (m m1 m' : store R) : variant_ok2 p impl -> arr_ok a b ->
  run_kernels [deep_copy g (cells2 g) b a; mconvert2 p g a] m m1 -> run_kernels (tl (mscheme2 p g d junk impl a b)) m1 m' ->
  (forall i j, inside2 g i j -> m2 m1 aQ i j = prim2 p (m2 m a) i j) /\
  (forall i j, inside2 g i j -> m2 m' b i j = mstep2 p d junk (m2 m a) i j).
Proof.
  intros Hv Ha K1 K2. pose proof Hg as (G1 & G2 & G3 & G4).
  apply rk_inv in K1. destruct K1 as (s2 & Hc & K1). apply rk_inv in K1. destruct K1 as (s3 & Hp & E). apply rk_nil_inv in E. subst s3.
  assert (Hne : b <> a) by (clear - Ha; destruct Ha as [[-> ->]|[-> ->]]; discriminate).
  destruct (deep_copy_spec g (cells2 g) b a m s2 (NoDup_cells2 g) Hne Hc) as [D1 D2].
  assert (EA : forall i j, m2 s2 a i j = m2 m a i j).
  { intros i j. unfold m2, mst. rewrite !D2 by (cbn [la]; intros [H _]; congruence). reflexivity. }
  destruct (mconvert2_spec p g a b s2 m1 Ha Hp) as [C1 _]. split.
  - intros i j Hi. unfold inside2 in Hi. unfold isize, jsize, imax, imin, jmax, jmin in C1. rewrite C1 by lia.
    unfold prim2. rewrite !EA. reflexivity.
  - assert (K : run_kernels (mscheme2 p g d junk impl a b) s2 m').
    { unfold mscheme2 in *. cbn [tl] in K2. econstructor; eauto. }
    assert (SO : scheme_ok2 p g d junk impl a b).
    { destruct Hv as [->|[->| (-> & Hs & Hr)]].
      - intros s0 s1 H01. destruct (mscheme2_0 p g d junk a b s0 s1 Ha ltac:(lia) H01) as (A1 & _ & A3). auto.
      - apply mscheme2_1; auto. lia.
      - apply mscheme2_2; auto; [lia|apply mslope_ok_12; auto]. }
    destruct (SO s2 m' K) as [S1 _]. intros i j Hi. rewrite S1 by (apply interior2_inside; auto).
    assert (EB : m2 s2 b i j = m2 s2 a i j).
    { rewrite EA. unfold m2, mst. assert (Hin : In (i, j, 0%Z) (cells2 g)) by (apply in2; unfold inside2, isize, jsize, imax, imin, jmax, jmin in *; lia).
      rewrite !D1 by (auto; rewrite G2; unfold ID, IP, IU, IV, IW, IA, IB, IC; lia). reflexivity. }
    rewrite EB, mstepfrom2_step. apply mstep2_ext. intros; apply EA.
Qed.

Hypothesis Hp : mhd_params_ok p.
Hypothesis Hdx : 0 < dx (mh p).
Hypothesis Hdy : 0 < dy (mh p).
Hypothesis Hcfl : 0 < cfl (mh p).
Hypothesis Hl : lowest <= 0.
Lemma mlocal_dt2 (m1 : store R) (U : Z -> Z -> ms R) dt :
  (forall i j, inside2 g i j -> m2 m1 aQ i j = prim2 p U i j) -> mcompute_dt_local2 p g lowest m1 dt ->
  0 < dt /\ (forall i j, inside2 g i j -> dt * mhd_rate2 p (prim2 p U i j) <= cfl (mh p)) /\
  (exists i j, inside2 g i j /\ dt * mhd_rate2 p (prim2 p U i j) = cfl (mh p)).
Proof.
  intros Q (r & Hr & ->). cbn [div RArith]. pose proof Hg as (G1 & G2 & G3 & G4).
  set (rate := fun i j => mhd_rate2 p (prim2 p U i j)).
  pose (f := fun c : Z * Z * Z => let '(i, j, _) := c in if interior2 g i j then Some (rate i j) else None).
  assert (Pos : forall i j, 0 < rate i j) by (intros i j; apply (mrate2_pos _ _ _ _ _ Hp Hdx Hdy)).
  destruct (reduces_max lowest (mdt_body2 p g m1) f) with (items := cells2 g) (r := r) as [M1 M2]; auto.
  - intros [[i j] k] acc. unfold mdt_body2, f. cbv zeta. destruct (interior2 g i j) eqn:E; auto. cbn [maxv RArith]. f_equal.
    apply interior2_inside in E. change (MS _ _ _ _ _ _ _ _) with (m2 m1 aQ i j). rewrite Q by auto. unfold rate, prim2.
    symmetry. apply mrate2_pos; auto.
  - assert (Hin : inside2 g 3 3) by (unfold inside2; lia). destruct (cells2_in g 3 3 Hin ltac:(lia)) as [C1 C2].
    exists (3, 3, 0)%Z, (rate 3%Z 3%Z). split; auto. unfold f. rewrite C2. split; auto. pose proof (Pos 3%Z 3%Z). lra.
  - destruct M2 as (c & Hc & Hf). destruct (cells2_k g c Hc) as (i0 & j0 & ->). unfold f in Hf.
    destruct (interior2 g i0 j0) eqn:E; [|discriminate]. injection Hf as Hf.
    pose proof (Pos i0 j0) as P0. rewrite Hf in P0.
    assert (P : 0 < cfl (mh p) / r) by (apply Rdiv_lt_0_compat; auto). split; auto. split.
    + intros i j Hi. destruct (cells2_in g i j Hi ltac:(lia)) as [C1 C2].
      assert (L : rate i j <= r) by (apply (M1 (i, j, 0%Z)); auto; unfold f; rewrite C2; auto).
      change (mhd_rate2 p (prim2 p U i j)) with (rate i j).
      replace (cfl (mh p)) with (cfl (mh p) / r * r) at 2 by (field; lra). apply Rmult_le_compat_l; lra.
    + exists i0, j0. split; [apply interior2_inside; auto|]. change (mhd_rate2 p (prim2 p U i0 j0)) with (rate i0 j0). rewrite Hf. field. lra.
Qed.
Lemma mstep2_shift d junk U a b i j : slope12 p = true -> mriemann_ok p ->
  mstep2 p d junk U (i + a) (j + b) = mstep2 p d junk (fun i j => U (i + a)%Z (j + b)%Z) i j.
Proof.
  intros Hs Hr. unfold mstep2. cbv zeta.
  replace (i + a + 1)%Z with (i + 1 + a)%Z by lia. replace (j + b + 1)%Z with (j + 1 + b)%Z by lia.
  destruct (flux2f_shift p d junk Hs Hr (prim2 p U) U a b i j) as (-> & -> & ->).
  destruct (flux2f_shift p d junk Hs Hr (prim2 p U) U a b (i + 1)%Z j) as (-> & _ & ->).
  destruct (flux2f_shift p d junk Hs Hr (prim2 p U) U a b i (j + 1)%Z) as (_ & -> & ->).
  set (V := fun i j => U (i + a)%Z (j + b)%Z).
  assert (QE : forall i j, prim2 p U (i + a) (j + b) = prim2 p V i j) by (intros; apply prim2_shift).
  destruct (flux2f_ext p d junk (fun i j => prim2 p U (i + a) (j + b)) (prim2 p V) V V i j) as (-> & -> & ->); auto.
  destruct (flux2f_ext p d junk (fun i j => prim2 p U (i + a) (j + b)) (prim2 p V) V V (i + 1)%Z j) as (-> & _ & ->); auto.
  destruct (flux2f_ext p d junk (fun i j => prim2 p U (i + a) (j + b)) (prim2 p V) V V i (j + 1)%Z) as (_ & -> & ->); auto.
Qed.
End Local2.

Lemma mcombined_min l d : combined l d -> In d l /\ forall x, In x l -> d <= x.
Proof. apply (combined_min (A := RArith)). intros x y; cbn; destruct (Rlt_dec x y); split; auto; discriminate. Qed.

Lemma mtraj_det {X} tE (C : X -> R -> Prop) adv n z z1 z2 :
  (forall x d d', C x d -> C x d' -> d = d') ->
  trajectory tE C adv n z z1 -> trajectory tE C adv n z z2 -> z1 = z2.
Proof.
  intros H Ht. revert z2. induction Ht as [z|n z t x d Ht IH Hd]; intros z2 H2; inversion H2; subst; [reflexivity|].
  assert (E : (t, x) = (t0, x0)) by (apply IH; assumption).
  inversion E; subst. rewrite (H x0 d d0); auto.
Qed.
Lemma minside_part2 tp g r i j : topo_ok tp -> (r < nprocs tp)%nat -> inside2 g i j ->
  inside2 (whole tp g) (rx tp r * nx g + i) (ry tp r * ny g + j).
Proof.
  intros Htp Hr Hi. destruct (coords_range tp Htp r Hr) as (R1 & R2 & R3). unfold inside2 in *. cbn [whole nx ny gw]. nia.
Qed.
Lemma minside_part3 tp g r i j k : topo_ok tp -> (r < nprocs tp)%nat -> inside3 g i j k ->
  inside3 (whole tp g) (rx tp r * nx g + i) (ry tp r * ny g + j) (rz tp r * nz g + k).
Proof.
  intros Htp Hr Hi. destruct (coords_range tp Htp r Hr) as (R1 & R2 & R3). unfold inside3 in *. cbn [whole nx ny nz gw]. nia.
Qed.

Section Run2.
Variables (tp : topo) (g : grid) (ly : layout) (lowest : R) (p : mparams R) (impl : Z) (c : lconf R).
Hypothesis Htp : topo_ok tp.
Hypothesis Hg : mhd_grid2 g.
Hypothesis Hcodes : known_codes g.
Hypothesis Himpl : variant_ok2 p impl.
Hypothesis Hs : mslope_ok p.
Hypothesis Hr : mriemann_ok p.
Hypothesis Hp : mhd_params_ok p.
Hypothesis Hdx : 0 < dx (mh p).
Hypothesis Hdy : 0 < dy (mh p).
Hypothesis Hcfl : 0 < cfl (mh p).
Hypothesis Hl : lowest <= 0.
Notation P := (nprocs tp).
Notation W := (whole tp g).

Definition msynced2 (u : Z -> Z -> Z -> R) (t : R) (it : Z) (s : nat -> pstate R) : Prop :=
  (forall r, (r < P)%nat -> p_t (s r) = t /\ p_it (s r) = it) /\ parts2 tp g u (current it) (fun r => p_mem (s r)).

Lemma mpart_inside2 I J : inside2 W I J ->
  exists r i j, (r < P)%nat /\ inside2 g i j /\ (I = rx tp r * nx g + i)%Z /\ (J = ry tp r * ny g + j)%Z.
Proof using Htp Hg.
  intros Hi. pose proof Hg as (G1 & G2 & G3 & G4). unfold inside2 in Hi. cbn [whole nx ny gw] in Hi. pose proof Htp as (T1 & T2 & T3).
  destruct (split_pos (nx g) (mx tp) (gw g) (I - gw g)) as (A1 & A2 & A3); [lia|lia|lia|].
  destruct (split_pos (ny g) (my tp) (gw g) (J - gw g)) as (B1 & B2 & B3); [lia|lia|lia|].
  set (x := ((I - gw g) / nx g)%Z) in *. set (y := ((J - gw g) / ny g)%Z) in *.
  destruct (coords_rank_in tp Htp x y 0) as (C1 & C2 & C3); [lia|lia|lia|].
  exists (cart_rank tp (x, y, 0%Z)), (gw g + (I - gw g) mod nx g)%Z, (gw g + (J - gw g) mod ny g)%Z.
  split; [apply cart_rank_lt; exact Htp|]. unfold inside2. rewrite C1, C2. lia.
Qed.

Lemma miteration2 u t it (s s' : nat -> pstate R) : (0 <= it)%Z -> msynced2 u t it s ->
  lockstep P (mnext_iteration_mpi tp g ly lowest p impl c false) s s' ->
  exists d, mcfl2 p W u d /\
    let dt := shortened (l_tEnd c) t d in
    msynced2 (madv2 p W dt u) (add t dt) (it + 1) s' /\ forall r, (r < P)%nat -> p_dt (s' r) = dt.
Proof.
  intros H0 (S1 & S2) HL. unfold mnext_iteration_mpi in HL. pose proof Hg as (G1 & G2 & G3 & G4).
  apply lockstep_app in HL. destruct HL as (s1 & L1 & HL). apply lockstep_app in HL. destruct HL as (s2 & L2 & HL).
  apply lockstep_app in HL. destruct HL as (s3 & L3 & L4).
  set (a := current it) in *. set (b := other it).
  assert (Hab : arr_ok a b) by apply arr_ok_current.
  assert (Hb : ~ is_buffer a).
  { intros (f & Hf). clear - Hf Hab. destruct Hab as [[-> _]|[-> _]], f; destruct Hf; discriminate. }
  pose proof (fill_mpi2 (A := RArith) ltac:(intros; cbn; apply Rmult_1_r) tp g ly true Htp ltac:(lia) ltac:(lia) ltac:(lia) Hcodes
    cur_array a u s s1 Hb ltac:(reflexivity) ltac:(intros r Hrk; unfold cur_array; destruct (S1 r Hrk) as (_ & ->); reflexivity)
    S2 ltac:(intros; cbn; apply Rmult_1_r) L1) as F.
  inversion L2 as [|? ? ? z ? T2 Lz]; subst. inversion Lz; subst. cbn [together launch] in T2. clear L2 Lz.
  apply mlock_dt in L3; auto. destruct L3 as (dl & d & Ld & (l & Lp & Lc) & E3).
  inversion L4 as [|? ? ? z ? T4 Lz]; subst. inversion Lz; subst. cbn [together] in T4. clear L4 Lz.
  set (V := mfill2 W (sto2 u) aU).
  set (Vr := fun r i j => V (i + rx tp r * nx g)%Z (j + ry tp r * ny g)%Z).
  assert (FA : forall r, (r < P)%nat -> forall i j, (0 <= i < nx g + 2 * gw g)%Z -> (0 <= j < ny g + 2 * gw g)%Z ->
     m2 (p_mem (s1 r)) a i j = Vr r i j).
  { intros r Hrk i j Hi Hj. destruct (F r Hrk) as (_ & _ & FV). unfold m2, mst. rewrite !FV by (auto; rewrite G2; unfold ID, IP, IU, IV, IW, IA, IB, IC; lia).
    unfold Vr, V, mfill2. rewrite (Z.add_comm i), (Z.add_comm j). reflexivity. }
  assert (B2 : forall r, (r < P)%nat -> p_t (s2 r) = t /\ p_it (s2 r) = it /\
     run_kernels [deep_copy g (cells2 g) b a; mconvert2 p g a] (p_mem (s1 r)) (p_mem (s2 r))).
  { intros r Hrk. destruct (T2 r Hrk) as (m & Hk & Es). destruct (F r Hrk) as (I1 & _). destruct (S1 r Hrk) as (Et & Ei).
    assert (Ei1 : p_it (s1 r) = it) by (rewrite I1; exact Ei). assert (Et1 : p_t (s1 r) = t) by (rewrite I1; exact Et).
    rewrite Ei1 in Hk. fold a b in Hk. rewrite Es. cbn [with_mem p_t p_it p_mem]. auto. }
  assert (B3 : forall r, (r < P)%nat -> p_t (s3 r) = t /\ p_it (s3 r) = it /\ p_mem (s3 r) = p_mem (s2 r) /\ p_dt (s3 r) = shortened (l_tEnd c) t d).
  { intros r Hrk. rewrite (E3 r Hrk). destruct (B2 r Hrk) as (Et & Ei & _). cbn [p_t p_it p_mem p_dt]. rewrite Et. auto. }
  assert (PL : forall r, (r < P)%nat -> forall U, (forall i j, inside2 g i j -> forall i' j', (i - 2 <= i' <= i + 3)%Z -> (j - 2 <= j' <= j + 3)%Z -> U i' j' = Vr r i' j') ->
     forall i j, inside2 g i j -> prim2 p U i j = prim2 p V (rx tp r * nx g + i) (ry tp r * ny g + j)).
  { intros r Hrk U HU i j Hi. rewrite (Z.add_comm _ i), (Z.add_comm _ j), prim2_shift. unfold prim2. rewrite !(HU i j Hi) by lia. reflexivity. }
  assert (NE : forall r, (r < P)%nat -> forall i j, inside2 g i j -> forall i' j', (i - 2 <= i' <= i + 3)%Z -> (j - 2 <= j' <= j + 3)%Z ->
     m2 (p_mem (s1 r)) a i' j' = Vr r i' j').
  { intros r Hrk i j Hi i' j' Hi' Hj'. unfold inside2 in Hi. apply FA; auto; lia. }
  destruct (mcombined_min l d Lc) as [I1 I2].
  exists d. split.
  - assert (LD : forall r, (r < P)%nat -> 0 < dl r /\
       (forall i j, inside2 g i j -> dl r * mhd_rate2 p (prim2 p V (rx tp r * nx g + i) (ry tp r * ny g + j)) <= cfl (mh p)) /\
       (exists i j, inside2 g i j /\ dl r * mhd_rate2 p (prim2 p V (rx tp r * nx g + i) (ry tp r * ny g + j)) = cfl (mh p))).
    { intros r Hrk. destruct (B2 r Hrk) as (_ & _ & K1). destruct (T4 r Hrk) as (junk & m & K2 & _).
      destruct (B3 r Hrk) as (_ & Ei & Em & _). rewrite Ei, Em in K2. fold a b in K2.
      destruct (mafter_fill2 p g Hg _ junk impl a b _ _ m Himpl Hab K1 K2) as [Q1 _].
      destruct (mlocal_dt2 p g lowest Hg Hp Hdx Hdy Hcfl Hl (p_mem (s2 r)) (m2 (p_mem (s1 r)) a) (dl r) Q1 (Ld r Hrk)) as (X1 & X2 & i & j & X3 & X4).
      split; auto. split.
      - intros i' j' Hi'. rewrite <- (PL r Hrk _ (NE r Hrk) i' j' Hi'). auto.
      - exists i, j. split; auto. rewrite <- (PL r Hrk _ (NE r Hrk) i j X3). auto. }
    assert (In0 : In d (map dl (List.seq 0 P))) by (eapply Permutation_in; eauto).
    apply in_map_iff in In0. destruct In0 as (r0 & E0 & In0). apply in_seq in In0.
    assert (LE : forall r, (r < P)%nat -> d <= dl r).
    { intros r Hrk. apply I2. eapply Permutation_in; [apply Permutation_sym; exact Lp|]. apply in_map, in_seq. lia. }
    destruct (LD r0 ltac:(lia)) as (X1 & X2 & i & j & X3 & X4). rewrite E0 in *.
    unfold mcfl2. cbv zeta. fold V. split; auto. split.
    + intros I J HIJ. destruct (mpart_inside2 I J HIJ) as (r & i' & j' & Hrk & Hi' & -> & ->).
      destruct (LD r Hrk) as (_ & Y & _). eapply Rle_trans; [|apply (Y i' j' Hi')].
      apply Rmult_le_compat_r; [left; apply (mrate2_pos _ _ _ _ _ Hp Hdx Hdy)|auto].
    + eexists _, _. split; [|exact X4]. apply minside_part2; auto. lia.
  - intros dt.
    assert (Z4 : forall r, (r < P)%nat -> p_t (s' r) = add t dt /\ p_it (s' r) = (it + 1)%Z /\ p_dt (s' r) = dt /\
       (forall i j, inside2 g i j -> m2 (p_mem (s' r)) b i j = mstep2 p dt (fun _ _ => ms_zero) V (rx tp r * nx g + i) (ry tp r * ny g + j))).
    { intros r Hrk. destruct (B2 r Hrk) as (_ & _ & K1). destruct (T4 r Hrk) as (junk & m & K2 & Es).
      destruct (B3 r Hrk) as (Et & Ei & Em & Ed). rewrite Ei, Em in K2. fold a b in K2.
      change (p_dt (s3 r) = dt) in Ed. rewrite Ed in K2.
      destruct (mafter_fill2 p g Hg _ junk impl a b _ _ m Himpl Hab K1 K2) as [_ Q2].
      rewrite Es. cbn [p_t p_it p_dt p_mem]. rewrite Et, Ei, Ed. split; [reflexivity|]. split; [reflexivity|]. split; [reflexivity|].
      intros i j Hi. rewrite Q2 by exact Hi. rewrite (Z.add_comm _ i), (Z.add_comm _ j), mstep2_shift by (auto; apply mslope_ok_12; auto).
      rewrite (mstep2_junk p dt junk (fun _ _ => ms_zero) (mslope_ok_12 p Hs) Hr). apply mstep2_ext. intros i' j' Hi' Hj'. apply (NE r Hrk i j Hi); auto. }
    split; [split|].
    + intros r Hrk. destruct (Z4 r Hrk) as (-> & -> & _). auto.
    + rewrite current_next by exact H0. fold b. intros r i j v Hrk Hi Hj Hv.
      destruct (Z4 r Hrk) as (_ & _ & _ & K). rewrite (mst_get (p_mem (s' r)) b i j 0 v) by lia.
      change (mst (p_mem (s' r)) b i j 0) with (m2 (p_mem (s' r)) b i j). rewrite K by (split; assumption). reflexivity.
    + intros r Hrk. destruct (Z4 r Hrk) as (_ & _ & -> & _). reflexivity.
Qed.

Theorem miterations2 n u t it (s s' : nat -> pstate R) : (0 <= it)%Z -> msynced2 u t it s ->
  lockstep P (miterations_mpi tp g ly lowest p impl c false n) s s' ->
  exists t' u', trajectory (l_tEnd c) (mcfl2 p W) (madv2 p W) n (t, u) (t', u') /\ msynced2 u' t' (it + Z.of_nat n) s'.
Proof.
  intros H0 Hsy. unfold miterations_mpi.
  revert s'. induction n as [|n IH]; intros s' HL.
  - cbn in HL. inversion HL; subst. exists t, u. split; [constructor|]. rewrite Z.add_0_r. auto.
  - assert (E : concat (repeat (mnext_iteration_mpi tp g ly lowest p impl c false) (S n)) =
       concat (repeat (mnext_iteration_mpi tp g ly lowest p impl c false) n) ++ mnext_iteration_mpi tp g ly lowest p impl c false).
    { clear. replace (S n) with (n + 1)%nat by lia. rewrite repeat_app, concat_app. cbn [repeat concat]. rewrite app_nil_r. reflexivity. }
    rewrite E in HL. apply lockstep_app in HL. destruct HL as (s1 & L1 & L2).
    destruct (IH s1 L1) as (t1 & u1 & T1 & Y1).
    destruct (miteration2 u1 t1 (it + Z.of_nat n) s1 s') as (d & D1 & D2 & D3); auto; [lia|].
    eexists _, _. split; [apply traj_step; [exact T1|exact D1]|].
    replace (it + Z.of_nat (S n))%Z with (it + Z.of_nat n + 1)%Z by lia. auto.
Qed.

Theorem msame_run2 n (sp sp' : nat -> pstate R) (s s' : sim R R) : (0 <= m_iteration s)%Z ->
  distributed2 tp g false s sp ->
  lockstep P (miterations_mpi tp g ly lowest p impl c false n) sp sp' ->
  loop c (mhd_dt2 p W lowest) (mhd_step2 p W impl) n s s' ->
  distributed2 tp g false s' sp'.
Proof.
  intros H0 (D1 & D2 & _) HL Hloop. pose proof Hg as (G1 & G2 & G3 & G4). pose proof Htp as (T1 & T2 & T3).
  assert (HW : mhd_grid2 W) by (unfold mhd_grid2; cbn [whole gw nbvar nx ny]; repeat split; try assumption; nia).
  set (u := fun i j v => mem s (Loc (current (m_iteration s)) i j 0 v)) in *.
  destruct (miterations2 n u (m_t s) (m_iteration s) sp sp' H0 (conj D1 D2) HL) as (t2 & u2 & TR & (Y1 & Y2)).
  destruct (refine c (mhd_dt2 p W lowest) (mhd_step2 p W impl) (mholds2 W) (mcfl2 p W) (madv2 p W)) with (n := n) (s := s) (s' := s') (x := u)
    as (x' & X1 & X2 & _); auto.
  { intros. eapply mkeeps2_dt; eauto. }
  { intros. eapply mkeeps2_step; eauto. }
  { intros i j v _ _. reflexivity. }
  assert (E : (t2, u2) = (m_t s', x')).
  { eapply mtraj_det; [|exact TR|exact X1]. intros x d d' A1 A2. eapply mcfl2_det; eauto. }
  inversion E; subst.
  assert (EI : (m_iteration s + Z.of_nat n = m_iteration s')%Z) by (rewrite (loop_iter c _ _ n s s' Hloop); lia).
  rewrite EI in *. split; [exact Y1|]. split; [|discriminate].
  intros r i j v Hrk Hi Hj Hv. rewrite (Y2 r i j v Hrk Hi Hj Hv). symmetry. apply X2.
  - apply minside_part2; auto. repeat split; first [apply Hi|apply Hj].
  - lia.
Qed.
End Run2.

(** ** 3D *)
Section Local3.
Variables (p : mparams R) (g : grid) (lowest : R).
Hypothesis Hg : mhd_grid3 g.

Lemma mafter_fill3 d junk impl a b (m m1 m' : store R) : variant_ok3 p impl -> arr_ok a b ->
  run_kernels [deep_copy g (cells3 g) b a; mconvert3 p g a] m m1 -> run_kernels (tl (mscheme3 p g d junk impl a b)) m1 m' ->
  (forall c, rng3 g (gw g) (gw g) c = true -> m3 m1 aQ c = prim3 p (m3 m a) c) /\
  (forall c, rng3 g (gw g) (gw g) c = true -> m3 m' b c = vstep3 p g d junk impl (m3 m a) c).
Proof.
  intros Hv Ha K1 K2. pose proof Hg as ((G1 & G2 & G3 & G4) & G5).
  apply rk_inv in K1. destruct K1 as (s2 & Hc & K1). apply rk_inv in K1. destruct K1 as (s3 & Hp & E). apply rk_nil_inv in E. subst s3.
  assert (Hne : b <> a) by (clear - Ha; destruct Ha as [[-> ->]|[-> ->]]; discriminate).
  destruct (deep_copy_spec g (cells3 g) b a m s2 (NoDup_cells3 g) Hne Hc) as [D1 D2].
  assert (EA : forall c, m3 s2 a c = m3 m a c).
  { intros c. unfold m3, mst. rewrite !D2 by (cbn [la]; intros [H _]; congruence). reflexivity. }
  destruct (mconvert3_spec p g a b s2 m1 Ha Hp) as [C1 _]. split.
  - intros c Hi. rewrite C1 by (eapply rng_weaken; [| |exact Hi]; lia). apply prim3_ext. intros; apply EA.
  - assert (K : run_kernels (mscheme3 p g d junk impl a b) s2 m').
    { unfold mscheme3 in *. cbn [tl] in K2. econstructor; eauto. }
    assert (SO : scheme_ok3 p g d junk impl a b).
    { destruct Hv as [->|[->| (-> & Hs)]].
      - apply scheme_ok3_0; auto. lia.
      - apply mscheme3_1; auto. lia.
      - apply mscheme3_2; auto; [lia|apply mslope_ok_12; auto]. }
    destruct (SO s2 m' K) as [S1 _]. intros c Hi. rewrite S1 by exact Hi.
    assert (EB : m3 s2 b c = m3 s2 a c).
    { rewrite EA. destruct c as [[i j] k]. unfold m3, mst.
      assert (Hin : In (i, j, k) (cells3 g)) by (apply in3; apply rng3_spec in Hi; unfold cx, cy, cz in Hi; cbn [fst snd] in Hi; lia).
      unfold cx, cy, cz; cbn [fst snd].
      rewrite !D1 by (auto; rewrite G2; unfold ID, IP, IU, IV, IW, IA, IB, IC; lia). reflexivity. }
    rewrite EB. change (vstep3 p g d junk impl (m3 s2 a) c = vstep3 p g d junk impl (m3 m a) c). apply vstep3_ext. intros; apply EA.
Qed.

Hypothesis Hp : mhd_params_ok p.
Hypothesis Hdx : 0 < dx (mh p).
Hypothesis Hdy : 0 < dy (mh p).
Hypothesis Hdz : 0 < dz (mh p).
Hypothesis Hcfl : 0 < cfl (mh p).
Hypothesis Hl : lowest <= 0.
Lemma mlocal_dt3 (m1 : store R) (U : cell -> ms R) dt :
  (forall c, rng3 g (gw g) (gw g) c = true -> m3 m1 aQ c = prim3 p U c) -> mcompute_dt_local3 p g lowest m1 dt ->
  0 < dt /\ (forall c, rng3 g (gw g) (gw g) c = true -> dt * mhd_rate3 p (prim3 p U c) <= cfl (mh p)) /\
  (exists c, rng3 g (gw g) (gw g) c = true /\ dt * mhd_rate3 p (prim3 p U c) = cfl (mh p)).
Proof.
  intros Q (r & Hr & ->). cbn [div RArith]. pose proof Hg as ((G1 & G2 & G3 & G4) & G5).
  set (rate := fun c => mhd_rate3 p (prim3 p U c)).
  pose (f := fun c : cell => if rng3 g (gw g) (gw g) c then Some (rate c) else None).
  assert (Pos : forall c, 0 < rate c) by (intros c; apply (mrate3_pos _ _ _ _ _ Hp Hdx Hdy Hdz)).
  assert (Cin : forall c, rng3 g (gw g) (gw g) c = true -> In c (cells3 g)).
  { intros [[i j] k] Hc. apply rng3_spec in Hc. unfold cx, cy, cz in Hc; cbn [fst snd] in Hc. apply in3; lia. }
  destruct (reduces_max lowest (mdt_body3 p g m1) f) with (items := cells3 g) (r := r) as [M1 M2]; auto.
  - intros c acc. unfold mdt_body3, f. destruct (rng3 g (gw g) (gw g) c) eqn:E; auto. cbn [maxv RArith]. f_equal.
    change (MS _ _ _ _ _ _ _ _) with (m3 m1 aQ c). rewrite Q by auto. unfold rate, prim3. cbv zeta.
    symmetry. apply mrate3_pos; auto.
  - assert (Hin : rng3 g (gw g) (gw g) (3, 3, 3)%Z = true) by (apply inside_rng; unfold inside3; lia).
    exists (3, 3, 3)%Z, (rate (3, 3, 3)%Z). split; [apply Cin, Hin|]. unfold f. rewrite Hin. split; auto.
    pose proof (Pos (3, 3, 3)%Z). lra.
  - destruct M2 as (c0 & Hc & Hf). unfold f in Hf.
    destruct (rng3 g (gw g) (gw g) c0) eqn:E; [|discriminate]. injection Hf as Hf.
    pose proof (Pos c0) as P0. rewrite Hf in P0.
    assert (P : 0 < cfl (mh p) / r) by (apply Rdiv_lt_0_compat; auto). split; auto. split.
    + intros c Hi. assert (L : rate c <= r) by (apply (M1 c); auto; unfold f; rewrite Hi; auto).
      change (mhd_rate3 p (prim3 p U c)) with (rate c).
      replace (cfl (mh p)) with (cfl (mh p) / r * r) at 2 by (field; lra). apply Rmult_le_compat_l; lra.
    + exists c0. split; auto. change (mhd_rate3 p (prim3 p U c0)) with (rate c0). rewrite Hf. field. lra.
Qed.

Lemma vstep3_shift d junk impl U e n c : mriemann_ok p -> no_rotation p ->
  vstep3 p g d junk impl U (move e n c) = vstep3 p g d junk impl (shf e n U) c.
Proof.
  intros Hr Hn. unfold vstep3.
  transitivity (new3 p d (fun a c => flux_of p g d junk impl (prim3 p U) U a (move e n c)) (fun a c => emff_of p g d impl (prim3 p U) U a (move e n c)) (U (move e n c)) c).
  - unfold new3, indf, accf. rewrite !(move_move _ _ e n). reflexivity.
  - apply new3_ext.
    + intros a c' _. rewrite flux_of_shift by auto. apply flux_of_ext; auto. intros c'' _. apply prim3_shift.
    + intros a b c' _. rewrite emff_of_shift by auto. apply emff_of_ext; auto. intros c'' _. apply prim3_shift.
Qed.
Lemma vstep3_grid g' d junk impl U x : gw g' = gw g -> vstep3 p g' d junk impl U x = vstep3 p g d junk impl U x.
Proof using.
  intros E. unfold vstep3. apply new3_ext; intros.
  - unfold flux_of. destruct (impl =? 2)%Z; [reflexivity|]. unfold flux3f, trace3f, xpos3. rewrite E. reflexivity.
  - unfold emff_of. destruct (impl =? 2)%Z; [reflexivity|]. unfold emf3f, trace3f, xpos3. rewrite E. reflexivity.
Qed.
End Local3.

Section Run3.
Variables (tp : topo) (g : grid) (ly : layout) (lowest : R) (p : mparams R) (impl : Z) (c : lconf R).
Hypothesis Htp : topo_ok tp.
Hypothesis Hg : mhd_grid3 g.
Hypothesis Hcodes : known_codes g.
Hypothesis Himpl : variant_ok3 p impl.
Hypothesis Hr : mriemann_ok p.
Hypothesis Hn : no_rotation p.
Hypothesis Hp : mhd_params_ok p.
Hypothesis Hdx : 0 < dx (mh p).
Hypothesis Hdy : 0 < dy (mh p).
Hypothesis Hdz : 0 < dz (mh p).
Hypothesis Hcfl : 0 < cfl (mh p).
Hypothesis Hl : lowest <= 0.
Notation P := (nprocs tp).
Notation W := (whole tp g).

Definition msynced3 (u : Z -> Z -> Z -> Z -> R) (t : R) (it : Z) (s : nat -> pstate R) : Prop :=
  (forall r, (r < P)%nat -> p_t (s r) = t /\ p_it (s r) = it) /\ parts3 tp g u (current it) (fun r => p_mem (s r)).

Lemma mpart_inside3 I J K : inside3 W I J K ->
  exists r i j k, (r < P)%nat /\ inside3 g i j k /\ (I = rx tp r * nx g + i)%Z /\ (J = ry tp r * ny g + j)%Z /\ (K = rz tp r * nz g + k)%Z.
Proof using Htp Hg.
  intros Hi. pose proof Hg as ((G1 & G2 & G3 & G4) & G5). unfold inside3 in Hi. cbn [whole nx ny nz gw] in Hi. pose proof Htp as (T1 & T2 & T3).
  destruct (split_pos (nx g) (mx tp) (gw g) (I - gw g)) as (A1 & A2 & A3); [lia|lia|lia|].
  destruct (split_pos (nz g) (mz tp) (gw g) (K - gw g)) as (D1 & D2 & D3); [lia|lia|lia|].
  destruct (split_pos (ny g) (my tp) (gw g) (J - gw g)) as (B1 & B2 & B3); [lia|lia|lia|].
  set (x := ((I - gw g) / nx g)%Z) in *. set (y := ((J - gw g) / ny g)%Z) in *. set (z := ((K - gw g) / nz g)%Z) in *.
  destruct (coords_rank_in tp Htp x y z) as (C1 & C2 & C3); [lia|lia|lia|].
  exists (cart_rank tp (x, y, z)), (gw g + (I - gw g) mod nx g)%Z, (gw g + (J - gw g) mod ny g)%Z, (gw g + (K - gw g) mod nz g)%Z.
  split; [apply cart_rank_lt; exact Htp|]. unfold inside3. rewrite C1, C2, C3. lia.
Qed.

Definition place (r : nat) (x : cell) : cell := move CX (rx tp r * nx g) (move CY (ry tp r * ny g) (move CZ (rz tp r * nz g) x)).
Lemma place_eq r i j k : place r (i, j, k) = ((rx tp r * nx g + i)%Z, (ry tp r * ny g + j)%Z, (rz tp r * nz g + k)%Z).
Proof using. unfold place. pos3. rewrite (Z.add_comm i), (Z.add_comm j), (Z.add_comm k). reflexivity. Qed.

Lemma miteration3 u t it (s s' : nat -> pstate R) : (0 <= it)%Z -> msynced3 u t it s ->
  lockstep P (mnext_iteration_mpi tp g ly lowest p impl c true) s s' ->
  exists d, mcfl3 p W u d /\
    let dt := shortened (l_tEnd c) t d in
    msynced3 (madv3 p W impl dt u) (add t dt) (it + 1) s' /\ forall r, (r < P)%nat -> p_dt (s' r) = dt.
Proof.
  intros H0 (S1 & S2) HL. unfold mnext_iteration_mpi in HL. pose proof Hg as ((G1 & G2 & G3 & G4) & G5).
  apply lockstep_app in HL. destruct HL as (s1 & L1 & HL). apply lockstep_app in HL. destruct HL as (s2 & L2 & HL).
  apply lockstep_app in HL. destruct HL as (s3 & L3 & L4).
  set (a := current it) in *. set (b := other it).
  assert (Hab : arr_ok a b) by apply arr_ok_current.
  assert (Hb : ~ is_buffer a).
  { intros (f & Hf). clear - Hf Hab. destruct Hab as [[-> _]|[-> _]], f; destruct Hf; discriminate. }
  pose proof (fill_mpi3 (A := RArith) ltac:(intros; cbn; apply Rmult_1_r) tp g ly true Htp ltac:(lia) ltac:(lia) ltac:(lia) Hcodes
    cur_array a u s s1 ltac:(lia) Hb ltac:(reflexivity) ltac:(intros r Hrk; unfold cur_array; destruct (S1 r Hrk) as (_ & ->); reflexivity)
    S2 ltac:(intros; cbn; apply Rmult_1_r) L1) as F.
  inversion L2 as [|? ? ? z ? T2 Lz]; subst. inversion Lz; subst. cbn [together launch] in T2. clear L2 Lz.
  apply mlock_dt in L3; auto. destruct L3 as (dl & d & Ld & (l & Lp & Lc) & E3).
  inversion L4 as [|? ? ? z ? T4 Lz]; subst. inversion Lz; subst. cbn [together] in T4. clear L4 Lz.
  set (V := mfil W (sto3 u) aU).
  set (Vr := fun r x => V (place r x)).
  assert (FA : forall r, (r < P)%nat -> forall x, rng3 g 0 0 x = true -> m3 (p_mem (s1 r)) a x = Vr r x).
  { intros r Hrk [[i j] k] Hi. apply rng3_spec in Hi. unfold isize, jsize, ksize, imax, imin, jmax, jmin, kmax, kmin, cx, cy, cz in Hi; cbn [fst snd] in Hi.
    destruct (F r Hrk) as (_ & _ & FV). unfold m3, mst, cx, cy, cz; cbn [fst snd]. rewrite !FV by (auto; rewrite ?G2; unfold ID, IP, IU, IV, IW, IA, IB, IC; lia).
    unfold Vr, V. rewrite place_eq. reflexivity. }
  assert (B2 : forall r, (r < P)%nat -> p_t (s2 r) = t /\ p_it (s2 r) = it /\
     run_kernels [deep_copy g (cells3 g) b a; mconvert3 p g a] (p_mem (s1 r)) (p_mem (s2 r))).
  { intros r Hrk. destruct (T2 r Hrk) as (m & Hk & Es). destruct (F r Hrk) as (I1 & _). destruct (S1 r Hrk) as (Et & Ei).
    assert (Ei1 : p_it (s1 r) = it) by (rewrite I1; exact Ei). assert (Et1 : p_t (s1 r) = t) by (rewrite I1; exact Et).
    rewrite Ei1 in Hk. fold a b in Hk. rewrite Es. cbn [with_mem p_t p_it p_mem]. auto. }
  assert (B3 : forall r, (r < P)%nat -> p_t (s3 r) = t /\ p_it (s3 r) = it /\ p_mem (s3 r) = p_mem (s2 r) /\ p_dt (s3 r) = shortened (l_tEnd c) t d).
  { intros r Hrk. rewrite (E3 r Hrk). destruct (B2 r Hrk) as (Et & Ei & _). cbn [p_t p_it p_mem p_dt]. rewrite Et. auto. }
  assert (NE : forall r, (r < P)%nat -> forall x, rng3 g (gw g) (gw g) x = true -> forall x', near 2 3 x x' -> m3 (p_mem (s1 r)) a x' = Vr r x').
  { intros r Hrk x Hi x' Hx. apply FA; auto. eapply rng_weaken; [| |eapply near_rng; eauto]; lia. }
  assert (PL : forall r, (r < P)%nat -> forall x, rng3 g (gw g) (gw g) x = true -> prim3 p (m3 (p_mem (s1 r)) a) x = prim3 p V (place r x)).
  { intros r Hrk x Hx. unfold place. rewrite !prim3_shift. apply prim3_ext. intros x' Hx'. apply (NE r Hrk x Hx).
    clear - Hx'. destruct x as [[? ?] ?], x' as [[? ?] ?]; pos3; lia. }
  destruct (mcombined_min l d Lc) as [I1 I2].
  exists d. split.
  - assert (LD : forall r, (r < P)%nat -> 0 < dl r /\
       (forall x, rng3 g (gw g) (gw g) x = true -> dl r * mhd_rate3 p (prim3 p V (place r x)) <= cfl (mh p)) /\
       (exists x, rng3 g (gw g) (gw g) x = true /\ dl r * mhd_rate3 p (prim3 p V (place r x)) = cfl (mh p))).
    { intros r Hrk. destruct (B2 r Hrk) as (_ & _ & K1). destruct (T4 r Hrk) as (junk & m & K2 & _).
      destruct (B3 r Hrk) as (_ & Ei & Em & _). rewrite Ei, Em in K2. fold a b in K2.
      destruct (mafter_fill3 p g Hg _ junk impl a b _ _ m Himpl Hab K1 K2) as [Q1 _].
      destruct (mlocal_dt3 p g lowest Hg Hp Hdx Hdy Hdz Hcfl Hl (p_mem (s2 r)) (m3 (p_mem (s1 r)) a) (dl r) Q1 (Ld r Hrk)) as (X1 & X2 & x & X3 & X4).
      split; auto. split.
      - intros x' Hx'. rewrite <- (PL r Hrk x' Hx'). auto.
      - exists x. split; auto. rewrite <- (PL r Hrk x X3). auto. }
    assert (In0 : In d (map dl (List.seq 0 P))) by (eapply Permutation_in; eauto).
    apply in_map_iff in In0. destruct In0 as (r0 & E0 & In0). apply in_seq in In0.
    assert (LE : forall r, (r < P)%nat -> d <= dl r).
    { intros r Hrk. apply I2. eapply Permutation_in; [apply Permutation_sym; exact Lp|]. apply in_map, in_seq. lia. }
    destruct (LD r0 ltac:(lia)) as (X1 & X2 & [[i j] k] & X3 & X4). rewrite E0 in *.
    unfold mcfl3. cbv zeta. fold V. split; auto. split.
    + intros I J K HIJ. destruct (mpart_inside3 I J K HIJ) as (r & i' & j' & k' & Hrk & Hi' & -> & -> & ->).
      destruct (LD r Hrk) as (_ & Y & _). apply inside_rng in Hi'. specialize (Y _ Hi'). rewrite place_eq in Y. eapply Rle_trans; [|exact Y].
      apply Rmult_le_compat_r; [left; apply (mrate3_pos _ _ _ _ _ Hp Hdx Hdy Hdz)|auto].
    + rewrite place_eq in X4. eexists _, _, _. split; [|exact X4]. apply minside_part3; auto; [lia|]. apply inside_rng; auto.
  - intros dt.
    assert (Z4 : forall r, (r < P)%nat -> p_t (s' r) = add t dt /\ p_it (s' r) = (it + 1)%Z /\ p_dt (s' r) = dt /\
       (forall x, rng3 g (gw g) (gw g) x = true -> m3 (p_mem (s' r)) b x = vstep3 p W dt (fun _ _ => ms_zero) impl V (place r x))).
    { intros r Hrk. destruct (B2 r Hrk) as (_ & _ & K1). destruct (T4 r Hrk) as (junk & m & K2 & Es).
      destruct (B3 r Hrk) as (Et & Ei & Em & Ed). rewrite Ei, Em in K2. fold a b in K2.
      change (p_dt (s3 r) = dt) in Ed. rewrite Ed in K2.
      destruct (mafter_fill3 p g Hg _ junk impl a b _ _ m Himpl Hab K1 K2) as [_ Q2].
      rewrite Es. cbn [p_t p_it p_dt p_mem]. rewrite Et, Ei, Ed. split; [reflexivity|]. split; [reflexivity|]. split; [reflexivity|].
      intros x Hx. rewrite Q2 by exact Hx. rewrite (vstep3_grid p g W) by reflexivity. unfold place. rewrite !vstep3_shift by auto.
      rewrite (vstep3_junk p g dt junk (fun _ _ => ms_zero) Hr). apply vstep3_ext. intros x' Hx'. apply (NE r Hrk x Hx); auto. }
    split; [split|].
    + intros r Hrk. destruct (Z4 r Hrk) as (-> & -> & _). auto.
    + rewrite current_next by exact H0. fold b. intros r i j k v Hrk Hi Hj Hk Hv.
      destruct (Z4 r Hrk) as (_ & _ & _ & K). rewrite (mst_get (p_mem (s' r)) b i j k v) by lia.
      change (mst (p_mem (s' r)) b i j k) with (m3 (p_mem (s' r)) b (i, j, k)). rewrite K by (apply inside_rng; repeat split; lia).
      rewrite place_eq. reflexivity.
    + intros r Hrk. destruct (Z4 r Hrk) as (_ & _ & -> & _). reflexivity.
Qed.

Theorem miterations3 n u t it (s s' : nat -> pstate R) : (0 <= it)%Z -> msynced3 u t it s ->
  lockstep P (miterations_mpi tp g ly lowest p impl c true n) s s' ->
  exists t' u', trajectory (l_tEnd c) (mcfl3 p W) (madv3 p W impl) n (t, u) (t', u') /\ msynced3 u' t' (it + Z.of_nat n) s'.
Proof.
  intros H0 Hsy. unfold miterations_mpi.
  revert s'. induction n as [|n IH]; intros s' HL.
  - cbn in HL. inversion HL; subst. exists t, u. split; [constructor|]. rewrite Z.add_0_r. auto.
  - assert (E : concat (repeat (mnext_iteration_mpi tp g ly lowest p impl c true) (S n)) =
       concat (repeat (mnext_iteration_mpi tp g ly lowest p impl c true) n) ++ mnext_iteration_mpi tp g ly lowest p impl c true).
    { clear. replace (S n) with (n + 1)%nat by lia. rewrite repeat_app, concat_app. cbn [repeat concat]. rewrite app_nil_r. reflexivity. }
    rewrite E in HL. apply lockstep_app in HL. destruct HL as (s1 & L1 & L2).
    destruct (IH s1 L1) as (t1 & u1 & T1 & Y1).
    destruct (miteration3 u1 t1 (it + Z.of_nat n) s1 s') as (d & D1 & D2 & D3); auto; [lia|].
    eexists _, _. split; [apply traj_step; [exact T1|exact D1]|].
    replace (it + Z.of_nat (S n))%Z with (it + Z.of_nat n + 1)%Z by lia. auto.
Qed.

Theorem msame_run3 n (sp sp' : nat -> pstate R) (s s' : sim R R) : (0 <= m_iteration s)%Z ->
  distributed3 tp g false s sp ->
  lockstep P (miterations_mpi tp g ly lowest p impl c true n) sp sp' ->
  loop c (mhd_dt3 p W lowest) (mhd_step3 p W impl) n s s' ->
  distributed3 tp g false s' sp'.
Proof.
  intros H0 (D1 & D2 & _) HL Hloop. pose proof Hg as ((G1 & G2 & G3 & G4) & G5). pose proof Htp as (T1 & T2 & T3).
  assert (HW : mhd_grid3 W) by (unfold mhd_grid3, mhd_grid2; cbn [whole gw nbvar nx ny nz]; repeat split; try assumption; nia).
  set (u := fun i j k v => mem s (Loc (current (m_iteration s)) i j k v)) in *.
  destruct (miterations3 n u (m_t s) (m_iteration s) sp sp' H0 (conj D1 D2) HL) as (t2 & u2 & TR & (Y1 & Y2)).
  destruct (refine c (mhd_dt3 p W lowest) (mhd_step3 p W impl) (mholds3 W) (mcfl3 p W) (madv3 p W impl)) with (n := n) (s := s) (s' := s') (x := u)
    as (x' & X1 & X2 & _); auto.
  { intros. eapply mkeeps3_dt; eauto. }
  { intros. eapply mkeeps3_step; eauto. }
  { intros i j k v _ _. reflexivity. }
  assert (E : (t2, u2) = (m_t s', x')).
  { eapply mtraj_det; [|exact TR|exact X1]. intros x d d' A1 A2. eapply mcfl3_det; eauto. }
  inversion E; subst.
  assert (EI : (m_iteration s + Z.of_nat n = m_iteration s')%Z) by (rewrite (loop_iter c _ _ n s s' Hloop); lia).
  rewrite EI in *. split; [exact Y1|]. split; [|discriminate].
  intros r i j k v Hrk Hi Hj Hk Hv. rewrite (Y2 r i j k v Hrk Hi Hj Hk Hv). symmetry. apply X2.
  - apply minside_part3; auto. repeat split; first [apply Hi|apply Hj|apply Hk].
  - lia.
Qed.
End Run3.
