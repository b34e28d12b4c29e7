(** The distributed time loop follows the trajectory of the whole domain. *)
From Coq Require Import ZArith List Bool Lia Permutation.
From Verif Require Import Arith Par ParProofs GridModel BoundaryModel BoundarySpec BoundaryProofs
  HydroState RiemannModel HydroPoint HydroKernels CellKernels HydroField HydroExec HydroSpec HydroProofs2 HydroStep2
  HydroProofs3 HydroStep3 HydroConserve ReduceModel LoopModel LoopSpec LoopProofs LoopHydro
  SpmdModel SpmdSpec SpmdProofs MpiModel MpiSpec MpiTopo MpiCopy MpiExchange MpiFill.
Import ListNotations.
Open Scope Z_scope.

(** ** 2D *)
Section Run2.
Context {T : Type} {A : Arith T}.
Hypothesis Hunit : @unit_stable T A.
Variable tp : topo.
Variable g : grid.
Variable ly : layout.
Variable lowest : T.
Variable p : hparams T.
Variable ge : bool.
Variable impl : Z.
Variable c : lconf T.
Hypothesis Htp : topo_ok tp.
Hypothesis Hg : hydro_grid2 g.
Hypothesis Hcodes : known_codes g.
Hypothesis Himpl : impl = 0 \/ impl = 1.
Hypothesis Hs : slope_ok p.
Hypothesis Hr : riemann_ok2 p.
Notation P := (nprocs tp).
Notation W := (whole tp g).

Lemma step2_nograv d (U : Z -> Z -> hs T) G G' i j : step2 p d false U G i j = step2 p d false U G' i j.
Proof. reflexivity. Qed.

(** Deep copy and scheme, on memory whose ghost cells are filled. *)
Lemma scheme_after_fill2 d junk a b (m m' : store T) : arr_ok a b ->
  run_kernels (deep_copy g (cells2 g) b a :: scheme2 p g d ge junk impl a b) m m' ->
  (forall i j, inside2 g i j -> st2 m' b i j = step2 p d ge (st2 m a) (gr2 m) i j) /\
  (forall l, ~ scratch2 b l -> m' l = m l).
Proof.
  intros Ha Hk. pose proof Hg as (G1 & G2 & G3 & G4). apply rk_inv in Hk. destruct Hk as (s2 & Hc & Hk).
  assert (Hne : b <> a) by (clear - Ha; arrays; lia).
  destruct (deep_copy_spec g (cells2 g) b a m s2 (NoDup_cells2 g) Hne Hc) as [D1 D2].
  assert (Hg2 : 2 <= gw g) by (clear - G1; lia).
  destruct (scheme2_spec p g d ge junk impl a b s2 m' Himpl Ha Hg2 (slope_ok_spec p Hs) (riemann_ok2_spec p Hr) Hk) as (S1 & S2 & S3).
  assert (DI : forall l, la l <> b -> s2 l = m l) by (intros l Hl; apply D2; intros [H _]; auto).
  split.
  - intros i j Hi. rewrite S1 by (apply interior2_inside; exact Hi).
    assert (E0 : st2 s2 b i j = st2 m a i j).
    { unfold st2. assert (Hin : In (i, j, 0) (cells2 g)) by (apply in2; unfold inside2, isize, jsize, imax, imin, jmax, jmin in *; lia).
      rewrite !D1 by (auto; rewrite G2; unfold ID, IP, IU, IV; lia). reflexivity. }
    rewrite E0. assert (E1 : forall i j, st2 s2 a i j = st2 m a i j).
    { intros i' j'. unfold st2. rewrite !DI by (cbn [la]; auto). reflexivity. }
    rewrite <- E1, stepfrom2_step2. apply step2_ext; [intros; apply E1|].
    intros i' j' d' _. unfold gr2. apply DI. cbn [la]. clear - Ha. arrays. lia.
  - intros l Hl. rewrite S3 by assumption. apply DI. intros E. apply Hl. left. exact E.
Qed.

Lemma step2_good d U G i j v : 0 <= v < 4 ->
  mul (comp (step2 p d ge U G i j) v) one = comp (step2 p d ge U G i j) v.
Proof.
  destruct Hunit as (U1 & U2 & U3). intros Hv. apply v4 in Hv. unfold step2. cbv zeta.
  repeat match goal with |- context [fluxX2 ?a ?b ?e ?q ?h ?i ?j] => generalize (fluxX2 a b e q h i j); intro end.
  repeat match goal with |- context [fluxY2 ?a ?b ?e ?q ?h ?i ?j] => generalize (fluxY2 a b e q h i j); intro end.
  match goal with |- context [hs_map2 sub (hs_map2 add ?x ?y) ?z] => generalize (hs_map2 add x y); intro end.
  destruct ge; destruct Hv as [->|[->|[->| ->]]]; unfold comp, gravity_source2, w0, hs_map2; cbn [hD hP hU hV hW Z.eqb Pos.eqb ID IP IU IV]; first [apply U1 | apply U2].
Qed.

(** Process state between iterations. *)
Definition synced2 (u G : Z -> Z -> Z -> T) (t : T) (it : Z) (s : nat -> pstate T) : Prop :=
  (forall r, (r < P)%nat -> p_t (s r) = t /\ p_it (s r) = it) /\
  parts2 tp g u (current it) (fun r => p_mem (s r)) /\
  (ge = true -> gparts2 tp g G (fun r => p_mem (s r))).
Definition good2 (u : Z -> Z -> Z -> T) : Prop :=
  forall i j v, inside2 W i j -> 0 <= v < 4 -> mul (u i j v) one = u i j v.
(** The smallest of the CFL time steps of the processes. *)
Definition mpi_cfl2 (G u : Z -> Z -> Z -> T) (d : T) : Prop :=
  exists dl : nat -> T, (forall r, (r < P)%nat -> cfl2 p g lowest ge (part2 tp g r G) (part2 tp g r u) (dl r)) /\
  exists l, Permutation l (map dl (List.seq 0 P)) /\ combined l d.

Lemma dt_local2 u G t it (s : nat -> pstate T) r d : synced2 u G t it s -> (r < P)%nat ->
  compute_dt_local2 p g lowest ge (p_mem (s r)) (cur_array (s r)) d ->
  cfl2 p g lowest ge (part2 tp g r G) (part2 tp g r u) d.
Proof.
  intros (S1 & S2 & S3) Hrk (x & Hx & ->). destruct (S1 r Hrk) as [_ E]. unfold cur_array in Hx. rewrite E in Hx.
  pose proof Hg as (G1 & G2 & G3 & G4).
  exists x. split; auto. revert Hx. apply reduces_ext.
  intros [[i j] k] acc _. unfold dt_body2. destruct (interior2 g i j) eqn:Ei; auto.
  apply interior2_inside in Ei. unfold inside2 in Ei. unfold load_hs2, store_of2, part2. cbn [la li lj lk lv].
  assert (EE : aU =? aG = false) by reflexivity. rewrite EE, Z.eqb_refl.
  rewrite !(S2 r) by (try exact Hrk; rewrite ?G2; unfold ID, IP, IU, IV; lia).
  destruct ge; [|reflexivity]. rewrite !(S3 eq_refl r) by (try exact Hrk; lia). reflexivity.
Qed.

Lemma lock_dt d3 (s s' : nat -> pstate T) : lockstep P (compute_dt_mpi g lowest p ge c d3) s s' ->
  exists dl d, (forall r, (r < P)%nat ->
     (if d3 then compute_dt_local3 p g lowest ge (p_mem (s r)) (cur_array (s r)) (dl r)
      else compute_dt_local2 p g lowest ge (p_mem (s r)) (cur_array (s r)) (dl r))) /\
   (exists l, Permutation l (map dl (List.seq 0 P)) /\ combined l d) /\
   forall r, (r < P)%nat -> s' r = PS (p_mem (s r)) (p_t (s r)) (clip_dt c (p_t (s r)) d) (dl r) (p_it (s r)).
Proof.
  intros H. unfold compute_dt_mpi in H.
  inversion H as [|? ? ? s1 ? T1 H1]; subst. inversion H1 as [|? ? ? s2 ? T2 H2]; subst.
  inversion H2 as [|? ? ? s3 ? T3 H3]; subst. inversion H3 as [|? ? ? s4 ? T4 H4]; subst. inversion H4; subst.
  destruct T2 as (x2 & _ & T2). destruct T3 as (x3 & (l & y & L1 & L2 & ->) & T3).
  cbn [together] in T1, T4.
  exists (fun r => p_dtl (s1 r)), y. split; [|split].
  - intros r Hrk. destruct (T1 r Hrk) as (d & D1 & ->). exact D1.
  - assert (E : numbers_of (map (fun r => MNum (p_dtl (s2 r))) (List.seq 0 P)) = map (fun r => p_dtl (s1 r)) (List.seq 0 P)).
    { assert (HB : forall r, In r (List.seq 0 P) -> (r < P)%nat) by (intros r Hin; apply in_seq in Hin; lia).
      revert HB. generalize (List.seq 0 P). clear - T2. induction l as [|r l IH]; intros HB; cbn; [reflexivity|].
      rewrite T2 by (apply HB; left; reflexivity). f_equal. apply IH. intros q Hq. apply HB. right. exact Hq. }
    rewrite E in L1. exists l. split; [exact L1|]. destruct L2 as [L2|[-> _]]; [exact L2|].
    exfalso. apply Permutation_nil in L1. apply map_eq_nil in L1.
    assert (PP : (0 < P)%nat). { destruct Htp as (? & ? & ?). unfold nprocs. assert (0 < mx tp * my tp * mz tp) by nia. lia. }
    destruct P; [lia|discriminate].
  - intros r Hrk. rewrite (T4 r Hrk), (T3 r Hrk), (T2 r Hrk). destruct (T1 r Hrk) as (d & _ & ->). reflexivity.
Qed.

Lemma iteration2 u G t it (s s' : nat -> pstate T) : 0 <= it -> good2 u -> synced2 u G t it s ->
  lockstep P (next_iteration_mpi tp g ly lowest p ge impl c false) s s' ->
  exists d, mpi_cfl2 G u d /\
    let dt := shortened (l_tEnd c) t d in
    synced2 (adv2 p W ge G dt u) G (add t dt) (it + 1) s' /\ good2 (adv2 p W ge G dt u) /\
    forall r, (r < P)%nat -> p_dt (s' r) = dt.
Proof.
  intros H0 Hgood Hsy HL. unfold next_iteration_mpi in HL.
  apply lockstep_app in HL. destruct HL as (s1 & L1 & HL). apply lockstep_app in HL. destruct HL as (s2 & L2 & L3).
  apply lock_dt in L1. destruct L1 as (dl & d & Ld & Lm & E1). exists d.
  pose proof Hsy as (S1 & S2 & S3). pose proof Hg as (G1 & G2 & G3 & G4).
  split. { exists dl. split; [|exact Lm]. intros r Hrk. exact (dt_local2 u G t it s r (dl r) Hsy Hrk (Ld r Hrk)). }
  intros dt.
  assert (S1' : forall r, (r < P)%nat -> p_t (s1 r) = t /\ p_it (s1 r) = it /\ p_mem (s1 r) = p_mem (s r) /\ p_dt (s1 r) = dt).
  { intros r Hrk. rewrite (E1 r Hrk). destruct (S1 r Hrk) as [Et Ei]. cbn [p_t p_it p_mem p_dt]. rewrite Et. auto. }
  set (a := current it) in *. set (b := other it).
  assert (Hab : arr_ok a b) by apply arr_ok_current.
  assert (Hb : ~ is_buffer a).
  { intros (f & Hf). clear - Hf Hab. destruct Hab as [[-> _]|[-> _]], f; destruct Hf; discriminate. }
  assert (Hp1 : parts2 tp g u a (fun r => p_mem (s1 r))).
  { intros r i j v Hrk Hi Hj Hv. cbn beta. destruct (S1' r Hrk) as (_ & _ & -> & _). apply S2; auto. }
  pose proof (fill_mpi2 (proj2 (proj2 Hunit)) tp g ly false Htp ltac:(lia) ltac:(lia) ltac:(lia) Hcodes
    cur_array a u s1 s2 Hb ltac:(reflexivity) ltac:(intros r Hrk; unfold cur_array; destruct (S1' r Hrk) as (_ & -> & _); reflexivity)
    Hp1 ltac:(intros i j v Hi Hv; apply Hgood; [exact Hi|lia]) L2) as F.
  inversion L3 as [|? ? ? s3 ? T3 L4]; subst. inversion L4; subst. cbn [together] in T3.
  assert (R : forall r, (r < P)%nat ->
     p_t (s' r) = add t dt /\ p_it (s' r) = it + 1 /\ p_dt (s' r) = dt /\
     (forall i j, inside2 g i j -> st2 (p_mem (s' r)) b i j
        = step2 p dt ge (fst2 W (store_of2 u G) aU) G (rx tp r * nx g + i) (ry tp r * ny g + j)) /\
     (forall l, la l = aG -> p_mem (s' r) l = p_mem (s r) l)).
  { intros r Hrk. destruct (F r Hrk) as (I2 & Fr & V). destruct (S1' r Hrk) as (Et & Ei & Em & Ed).
    destruct (T3 r Hrk) as (junk & m & Hk & Es).
    assert (Et2 : p_t (s2 r) = t) by (rewrite I2; exact Et).
    assert (Ei2 : p_it (s2 r) = it) by (rewrite I2; exact Ei).
    assert (Ed2 : p_dt (s2 r) = dt) by (rewrite I2; exact Ed).
    rewrite Et2, Ed2, Ei2 in Es. rewrite Ei2, Ed2 in Hk. fold a b in Hk.
    rewrite Es. cbn [p_t p_it p_dt p_mem]. split; [reflexivity|]. split; [reflexivity|]. split; [reflexivity|].
    destruct (scheme_after_fill2 dt junk a b (p_mem (s2 r)) m Hab Hk) as [K1 K2].
    assert (KG : forall l, la l = aG -> p_mem (s2 r) l = p_mem (s r) l).
    { intros l Hl. rewrite Fr, Em; auto; rewrite Hl; [clear - Hab; arrays; lia|].
      intros (f & Hf). clear - Hf. destruct f; destruct Hf; discriminate. }
    split.
    - intros i j Hi. rewrite K1 by exact Hi. unfold inside2 in Hi.
      rewrite (Z.add_comm (rx tp r * nx g) i), (Z.add_comm (ry tp r * ny g) j), step2_shift.
      assert (EU : forall i' j', near i j 2 i' j' ->
        st2 (p_mem (s2 r)) a i' j' = fst2 W (store_of2 u G) aU (i' + rx tp r * nx g) (j' + ry tp r * ny g)).
      { intros i' j' Hn. unfold near in Hn. unfold st2, fst2. rewrite !V by (rewrite ?G2; unfold ID, IP, IU, IV; lia).
        unfold filled2d, store_of2. cbn [la li lj lk lv]. assert (EE : aU =? aG = false) by reflexivity. rewrite EE.
        rewrite (Z.add_comm i'), (Z.add_comm j'). reflexivity. }
      destruct ge eqn:Ege.
      + apply step2_ext; [exact EU|]. intros i' j' d' Hn. unfold near in Hn. unfold gr2. rewrite KG by reflexivity.
        rewrite (S3 eq_refl r) by (try exact Hrk; lia). rewrite (Z.add_comm i'), (Z.add_comm j'). reflexivity.
      + rewrite (step2_nograv dt _ (gr2 (p_mem (s2 r))) (fun i j d => G (i + rx tp r * nx g) (j + ry tp r * ny g) d)).
        apply step2_ext; [exact EU|reflexivity].
    - intros l Hl. rewrite K2; [apply KG; exact Hl|]. unfold scratch2. rewrite Hl. clear - Hab. arrays. lia. }
  split; [|split].
  - split; [|split].
    + intros r Hrk. destruct (R r Hrk) as (-> & -> & _). auto.
    + rewrite current_next by exact H0. fold b. intros r i j v Hrk Hi Hj Hv.
      destruct (R r Hrk) as (_ & _ & _ & K & _). rewrite <- comp_st2 by lia. rewrite K by (split; assumption). reflexivity.
    + intros Ege r i j d' Hrk Hi Hj. destruct (R r Hrk) as (_ & _ & _ & _ & K). rewrite K by reflexivity. apply S3; auto.
  - intros i j v _ Hv. apply step2_good. exact Hv.
  - intros r Hrk. destruct (R r Hrk) as (_ & _ & -> & _). reflexivity.
Qed.

Theorem iterations2 n u G t it (s s' : nat -> pstate T) : 0 <= it -> good2 u -> synced2 u G t it s ->
  lockstep P (iterations_mpi tp g ly lowest p ge impl c false n) s s' ->
  exists t' u', trajectory (l_tEnd c) (mpi_cfl2 G) (adv2 p W ge G) n (t, u) (t', u') /\
    synced2 u' G t' (it + Z.of_nat n) s' /\ good2 u'.
Proof.
  intros H0 Hgood Hsy. unfold iterations_mpi.
  revert s'. induction n as [|n IH]; intros s' HL.
  - cbn in HL. inversion HL; subst. exists t, u. split; [constructor|]. rewrite Z.add_0_r. auto.
  - assert (E : concat (repeat (next_iteration_mpi tp g ly lowest p ge impl c false) (S n)) =
       concat (repeat (next_iteration_mpi tp g ly lowest p ge impl c false) n) ++ next_iteration_mpi tp g ly lowest p ge impl c false).
    { clear. replace (S n) with (n + 1)%nat by lia. rewrite repeat_app, concat_app. cbn [repeat concat]. rewrite app_nil_r. reflexivity. }
    rewrite E in HL. apply lockstep_app in HL. destruct HL as (s1 & L1 & L2).
    destruct (IH s1 L1) as (t1 & u1 & T1 & Y1 & K1).
    destruct (iteration2 u1 G t1 (it + Z.of_nat n) s1 s') as (d & D1 & D2 & D3 & D4); auto; [lia|].
    eexists _, _. split; [apply traj_step; [exact T1|exact D1]|].
    replace (it + Z.of_nat (S n)) with (it + Z.of_nat n + 1) by lia. auto.
Qed.
End Run2.

(** ** 3D *)
Section Run3.
Context {T : Type} {A : Arith T}.
Hypothesis Hunit : @unit_stable T A.
Variable tp : topo.
Variable g : grid.
Variable ly : layout.
Variable lowest : T.
Variable p : hparams T.
Variable ge : bool.
Variable impl : Z.
Variable c : lconf T.
Hypothesis Htp : topo_ok tp.
Hypothesis Hg : hydro_grid3 g.
Hypothesis Hcodes : known_codes g.
Hypothesis Himpl : impl = 0 \/ impl = 1.
Hypothesis Hs : slope_ok p.
Hypothesis Hr : riemann_ok3 p.
Notation P := (nprocs tp).
Notation W := (whole tp g).

Lemma step3_nograv d (U : Z -> Z -> Z -> hs T) G G' i j k : step3 p d false (zfx p d false impl) U G i j k = step3 p d false (zfx p d false impl) U G' i j k.
Proof. unfold zfx. destruct (impl =? 0); reflexivity. Qed.

(** Deep copy and scheme, on memory whose ghost cells are filled. *)
Lemma scheme_after_fill3 d junk a b (m m' : store T) : arr_ok a b ->
  run_kernels (deep_copy g (cells3 g) b a :: scheme3 p g d ge junk impl a b) m m' ->
  (forall i j k, inside3 g i j k -> st3 m' b i j k = step3 p d ge (zfx p d ge impl) (st3 m a) (gr3 m) i j k) /\
  (forall l, ~ scratch3 b l -> m' l = m l).
Proof.
  intros Ha Hk. pose proof Hg as (G1 & G2 & G3 & G4 & G5). apply rk_inv in Hk. destruct Hk as (s2 & Hc & Hk).
  assert (Hne : b <> a) by (clear - Ha; arrays; lia).
  destruct (deep_copy_spec g (cells3 g) b a m s2 (NoDup_cells3 g) Hne Hc) as [D1 D2].
  assert (Hg2 : 2 <= gw g) by (clear - G1; lia).
  destruct (scheme3_spec p g d ge junk impl a b s2 m' Himpl Ha Hg2 (slope_ok_spec p Hs) (riemann_ok3_spec p Hr) Hk) as (S1 & S2 & S3).
  assert (DI : forall l, la l <> b -> s2 l = m l) by (intros l Hl; apply D2; intros [H _]; auto).
  split.
  - intros i j k Hi. rewrite S1 by (apply interior3_inside; exact Hi).
    assert (E0 : st3 s2 b i j k = st3 m a i j k).
    { unfold st3. assert (Hin : In (i, j, k) (cells3 g)) by (apply in3; unfold inside3, isize, jsize, ksize, imax, imin, jmax, jmin, kmax, kmin in *; lia).
      rewrite !D1 by (auto; rewrite G2; unfold ID, IP, IU, IV, IW; lia). reflexivity. }
    rewrite E0. assert (E1 : forall i j k, st3 s2 a i j k = st3 m a i j k).
    { intros i' j' k'. unfold st3. rewrite !DI by (cbn [la]; auto). reflexivity. }
    rewrite <- E1, stepfrom3_step3. apply step3_ext; [intros; apply E1|].
    intros i' j' k' d' _. unfold gr3. apply DI. cbn [la]. clear - Ha. arrays. lia.
  - intros l Hl. rewrite S3 by assumption. apply DI. intros E. apply Hl. left. exact E.
Qed.

Lemma step3_good d U G i j k v : 0 <= v < 5 ->
  mul (comp (step3 p d ge (zfx p d ge impl) U G i j k) v) one = comp (step3 p d ge (zfx p d ge impl) U G i j k) v.
Proof.
  destruct Hunit as (U1 & U2 & U3). intros Hv. apply v5 in Hv. unfold step3. cbv zeta.
  repeat match goal with |- context [fluxX3 ?a ?b ?e ?q ?h ?i ?j ?k] => generalize (fluxX3 a b e q h i j k); intro end.
  repeat match goal with |- context [fluxY3 ?a ?b ?e ?q ?h ?i ?j ?k] => generalize (fluxY3 a b e q h i j k); intro end.
  repeat match goal with |- context [zfx ?a ?b ?e ?o ?q ?h ?i ?j ?k] => generalize (zfx a b e o q h i j k); intro end.
  match goal with |- context [hs_map2 sub (hs_map2 add ?x ?y) ?z] => generalize (hs_map2 add x y); intro end.
  destruct ge; destruct Hv as [->|[->|[->|[->| ->]]]]; unfold comp, gravity_source3, w0, hs_map2; cbn [hD hP hU hV hW Z.eqb Pos.eqb ID IP IU IV IW]; first [apply U1 | apply U2].
Qed.

(** Process state between iterations. *)
Definition synced3 (u G : Z -> Z -> Z -> Z -> T) (t : T) (it : Z) (s : nat -> pstate T) : Prop :=
  (forall r, (r < P)%nat -> p_t (s r) = t /\ p_it (s r) = it) /\
  parts3 tp g u (current it) (fun r => p_mem (s r)) /\
  (ge = true -> gparts3 tp g G (fun r => p_mem (s r))).
Definition good3 (u : Z -> Z -> Z -> Z -> T) : Prop :=
  forall i j k v, inside3 W i j k -> 0 <= v < 5 -> mul (u i j k v) one = u i j k v.
(** The smallest of the CFL time steps of the processes. *)
Definition mpi_cfl3 (G u : Z -> Z -> Z -> Z -> T) (d : T) : Prop :=
  exists dl : nat -> T, (forall r, (r < P)%nat -> cfl3 p g lowest ge (part3 tp g r G) (part3 tp g r u) (dl r)) /\
  exists l, Permutation l (map dl (List.seq 0 P)) /\ combined l d.

Lemma dt_local3 u G t it (s : nat -> pstate T) r d : synced3 u G t it s -> (r < P)%nat ->
  compute_dt_local3 p g lowest ge (p_mem (s r)) (cur_array (s r)) d ->
  cfl3 p g lowest ge (part3 tp g r G) (part3 tp g r u) d.
Proof.
  intros (S1 & S2 & S3) Hrk (x & Hx & ->). destruct (S1 r Hrk) as [_ E]. unfold cur_array in Hx. rewrite E in Hx.
  pose proof Hg as (G1 & G2 & G3 & G4 & G5).
  exists x. split; auto. revert Hx. apply reduces_ext.
  intros [[i j] k] acc _. unfold dt_body3. destruct (interior3 g i j k) eqn:Ei; auto.
  apply interior3_inside in Ei. unfold inside3 in Ei. unfold load_hs3, store_of3, part3. cbn [la li lj lk lv].
  assert (EE : aU =? aG = false) by reflexivity. rewrite EE, Z.eqb_refl.
  rewrite !(S2 r) by (try exact Hrk; rewrite ?G2; unfold ID, IP, IU, IV, IW; lia).
  destruct ge; [|reflexivity]. rewrite !(S3 eq_refl r) by (try exact Hrk; lia). reflexivity.
Qed.

Lemma iteration3 u G t it (s s' : nat -> pstate T) : 0 <= it -> good3 u -> synced3 u G t it s ->
  lockstep P (next_iteration_mpi tp g ly lowest p ge impl c true) s s' ->
  exists d, mpi_cfl3 G u d /\
    let dt := shortened (l_tEnd c) t d in
    synced3 (adv3 p W ge impl G dt u) G (add t dt) (it + 1) s' /\ good3 (adv3 p W ge impl G dt u) /\
    forall r, (r < P)%nat -> p_dt (s' r) = dt.
Proof.
  intros H0 Hgood Hsy HL. unfold next_iteration_mpi in HL.
  apply lockstep_app in HL. destruct HL as (s1 & L1 & HL). apply lockstep_app in HL. destruct HL as (s2 & L2 & L3).
  apply lock_dt in L1; [|exact Htp]. destruct L1 as (dl & d & Ld & Lm & E1). exists d.
  pose proof Hsy as (S1 & S2 & S3). pose proof Hg as (G1 & G2 & G3 & G4 & G5).
  split. { exists dl. split; [|exact Lm]. intros r Hrk. exact (dt_local3 u G t it s r (dl r) Hsy Hrk (Ld r Hrk)). }
  intros dt.
  assert (S1' : forall r, (r < P)%nat -> p_t (s1 r) = t /\ p_it (s1 r) = it /\ p_mem (s1 r) = p_mem (s r) /\ p_dt (s1 r) = dt).
  { intros r Hrk. rewrite (E1 r Hrk). destruct (S1 r Hrk) as [Et Ei]. cbn [p_t p_it p_mem p_dt]. rewrite Et. auto. }
  set (a := current it) in *. set (b := other it).
  assert (Hab : arr_ok a b) by apply arr_ok_current.
  assert (Hb : ~ is_buffer a).
  { intros (f & Hf). clear - Hf Hab. destruct Hab as [[-> _]|[-> _]], f; destruct Hf; discriminate. }
  assert (Hp1 : parts3 tp g u a (fun r => p_mem (s1 r))).
  { intros r i j k v Hrk Hi Hj Hkk Hv. cbn beta. destruct (S1' r Hrk) as (_ & _ & -> & _). apply S2; auto. }
  pose proof (fill_mpi3 (proj2 (proj2 Hunit)) tp g ly false Htp ltac:(lia) ltac:(lia) ltac:(lia) Hcodes
    cur_array a u s1 s2 ltac:(lia) Hb ltac:(reflexivity) ltac:(intros r Hrk; unfold cur_array; destruct (S1' r Hrk) as (_ & -> & _); reflexivity)
    Hp1 ltac:(intros i j k v Hi Hv; apply Hgood; [exact Hi|lia]) L2) as F.
  inversion L3 as [|? ? ? s3 ? T3 L4]; subst. inversion L4; subst. cbn [together] in T3.
  assert (R : forall r, (r < P)%nat ->
     p_t (s' r) = add t dt /\ p_it (s' r) = it + 1 /\ p_dt (s' r) = dt /\
     (forall i j k, inside3 g i j k -> st3 (p_mem (s' r)) b i j k
        = step3 p dt ge (zfx p dt ge impl) (fst3 W (store_of3 u G) aU) G (rx tp r * nx g + i) (ry tp r * ny g + j) (rz tp r * nz g + k)) /\
     (forall l, la l = aG -> p_mem (s' r) l = p_mem (s r) l)).
  { intros r Hrk. destruct (F r Hrk) as (I2 & Fr & V). destruct (S1' r Hrk) as (Et & Ei & Em & Ed).
    destruct (T3 r Hrk) as (junk & m & Hk & Es).
    assert (Et2 : p_t (s2 r) = t) by (rewrite I2; exact Et).
    assert (Ei2 : p_it (s2 r) = it) by (rewrite I2; exact Ei).
    assert (Ed2 : p_dt (s2 r) = dt) by (rewrite I2; exact Ed).
    rewrite Et2, Ed2, Ei2 in Es. rewrite Ei2, Ed2 in Hk. fold a b in Hk.
    rewrite Es. cbn [p_t p_it p_dt p_mem]. split; [reflexivity|]. split; [reflexivity|]. split; [reflexivity|].
    destruct (scheme_after_fill3 dt junk a b (p_mem (s2 r)) m Hab Hk) as [K1 K2].
    assert (KG : forall l, la l = aG -> p_mem (s2 r) l = p_mem (s r) l).
    { intros l Hl. rewrite Fr, Em; auto; rewrite Hl; [clear - Hab; arrays; lia|].
      intros (f & Hf). clear - Hf. destruct f; destruct Hf; discriminate. }
    split.
    - intros i j k Hi. rewrite K1 by exact Hi. unfold inside3 in Hi.
      rewrite (Z.add_comm (rx tp r * nx g) i), (Z.add_comm (ry tp r * ny g) j), (Z.add_comm (rz tp r * nz g) k), step3_shift.
      assert (EU : forall i' j' k', near3 i j k 2 i' j' k' ->
        st3 (p_mem (s2 r)) a i' j' k' = fst3 W (store_of3 u G) aU (i' + rx tp r * nx g) (j' + ry tp r * ny g) (k' + rz tp r * nz g)).
      { intros i' j' k' Hn. unfold near3 in Hn. unfold st3, fst3. rewrite !V by (rewrite ?G2; unfold ID, IP, IU, IV, IW; lia).
        unfold filled3d, store_of3. cbn [la li lj lk lv]. assert (EE : aU =? aG = false) by reflexivity. rewrite EE.
        rewrite (Z.add_comm i'), (Z.add_comm j'), (Z.add_comm k'). reflexivity. }
      destruct ge eqn:Ege.
      + apply step3_ext; [exact EU|]. intros i' j' k' d' Hn. unfold near3 in Hn. unfold gr3. rewrite KG by reflexivity.
        rewrite (S3 eq_refl r) by (try exact Hrk; lia). rewrite (Z.add_comm i'), (Z.add_comm j'), (Z.add_comm k'). reflexivity.
      + rewrite (step3_nograv dt _ (gr3 (p_mem (s2 r))) (fun i j k d => G (i + rx tp r * nx g) (j + ry tp r * ny g) (k + rz tp r * nz g) d)).
        apply step3_ext; [exact EU|reflexivity].
    - intros l Hl. rewrite K2; [apply KG; exact Hl|]. unfold scratch3. rewrite Hl. clear - Hab. arrays. lia. }
  split; [|split].
  - split; [|split].
    + intros r Hrk. destruct (R r Hrk) as (-> & -> & _). auto.
    + rewrite current_next by exact H0. fold b. intros r i j k v Hrk Hi Hj Hkk Hv.
      destruct (R r Hrk) as (_ & _ & _ & K & _). rewrite <- comp_st3 by lia. rewrite K by (repeat split; try assumption; lia). reflexivity.
    + intros Ege r i j k d' Hrk Hi Hj Hkk. destruct (R r Hrk) as (_ & _ & _ & _ & K). rewrite K by reflexivity. apply S3; auto.
  - intros i j k v _ Hv. apply step3_good. exact Hv.
  - intros r Hrk. destruct (R r Hrk) as (_ & _ & -> & _). reflexivity.
Qed.

Theorem iterations3 n u G t it (s s' : nat -> pstate T) : 0 <= it -> good3 u -> synced3 u G t it s ->
  lockstep P (iterations_mpi tp g ly lowest p ge impl c true n) s s' ->
  exists t' u', trajectory (l_tEnd c) (mpi_cfl3 G) (adv3 p W ge impl G) n (t, u) (t', u') /\
    synced3 u' G t' (it + Z.of_nat n) s' /\ good3 u'.
Proof.
  intros H0 Hgood Hsy. unfold iterations_mpi.
  revert s'. induction n as [|n IH]; intros s' HL.
  - cbn in HL. inversion HL; subst. exists t, u. split; [constructor|]. rewrite Z.add_0_r. auto.
  - assert (E : concat (repeat (next_iteration_mpi tp g ly lowest p ge impl c true) (S n)) =
       concat (repeat (next_iteration_mpi tp g ly lowest p ge impl c true) n) ++ next_iteration_mpi tp g ly lowest p ge impl c true).
    { clear. replace (S n) with (n + 1)%nat by lia. rewrite repeat_app, concat_app. cbn [repeat concat]. rewrite app_nil_r. reflexivity. }
    rewrite E in HL. apply lockstep_app in HL. destruct HL as (s1 & L1 & L2).
    destruct (IH s1 L1) as (t1 & u1 & T1 & Y1 & K1).
    destruct (iteration3 u1 G t1 (it + Z.of_nat n) s1 s') as (d & D1 & D2 & D3 & D4); auto; [lia|].
    eexists _, _. split; [apply traj_step; [exact T1|exact D1]|].
    replace (it + Z.of_nat (S n)) with (it + Z.of_nat n + 1) by lia. auto.
Qed.
End Run3.
