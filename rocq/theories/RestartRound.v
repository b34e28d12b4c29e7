(** A restarted run goes in step with the original one, in any arithmetic on the
    reals whose maximum is exact (exact arithmetic and double precision). *)
From Coq Require Import ZArith List Bool Reals Lia Lra Permutation.
From Verif Require Import Arith Par ParProofs GridModel BoundaryModel BoundarySpec BoundaryProofs HydroState HydroPoint HydroKernels HydroField
  HydroSpec HydroProofs2 HydroStep2 HydroConserve HydroUniform HydroExec ReduceModel DtProofs IoModel IoSpec IoRound LoopModel LoopSpec LoopProofs LoopHydro RestartModel RestartProofs
  MhdState MhdRiemann MhdPoint MhdKernels2 MhdKernels3 MhdSpec MhdSpec3 MhdExec MhdField2 MhdField3 MhdProofs2 MhdProofs3 MhdStep2 MhdStep3
  MhdConserve2 MhdConserve3 MhdLow2 MhdLow3 MhdLoop2 MhdLoop3 MhdRun2 MhdRun3 RestartMhd RestartMhdProofs.
Import ListNotations.
Open Scope Z_scope.

Section Gen.
Context {TT T X : Type} {AT : Arith TT}.
Variables (c : lconf TT) (dtl : Z -> store T -> TT -> Prop) (god : Z -> Z -> TT -> store T -> store T -> Prop).
Variables (holds : X -> Z -> store T -> Prop) (cfl_dt : X -> TT -> Prop) (adv : TT -> X -> X).
Hypothesis Hdt : forall x a m d, holds x a m -> dtl a m d -> cfl_dt x d.
Hypothesis Huniq : forall x d d', cfl_dt x d -> cfl_dt x d' -> d = d'.
Hypothesis Hstep : forall x a b d m m', arr_ok a b -> holds x a m -> god a b d m m' -> holds (adv d x) b m'.

Theorem restart_gen (s0 s' r r' : sim TT T) sn x : 0 <= m_iteration s0 -> written s0 = [] ->
  run c dtl god s0 s' -> leb (sub (l_tEnd c) (lit 1 100000000000000)) (m_t s') = true -> In sn (written s') ->
  leb (sub (l_tEnd c) (lit 1 100000000000000)) (sn_time sn) = false ->
  (forall z : sim TT T, m_times_saved z = (sn_num sn + 1) -> m_t z = sn_time sn -> should_save_solution c z = false) ->
  m_t r = sn_time sn -> m_times_saved r = sn_num sn -> m_iteration r = 0 -> written r = [] ->
  holds x (sn_array sn) (sn_mem sn) -> holds x aU (mem r) ->
  run c dtl god r r' ->
  m_t r' = m_t s' /\ m_times_saved r' = m_times_saved s' /\
  (exists u, holds u (current (m_iteration s')) (mem s') /\ holds u (current (m_iteration r')) (mem r')) /\
  exists l rest, written s' = l ++ rest /\ last l sn = sn /\ l <> [] /\ Forall2 (same holds) l (written r').
Proof.
  intros Hi0 Hw0 Hrun Hend Hin Hbef Hdue R1 R2 R3 R4 X1 X2 Hrun'.
  assert (Hbt : exists s1, s' = edge_save c s1 /\ by_time c s1).
  { destruct Hrun as [n s1 L F ->]. exists s1. split; auto. destruct (edge_same c s1) as (E1 & _). rewrite E1 in Hend. exact Hend. }
  destruct (run_snap c dtl god s0 s' sn Hw0 Hrun Hin) as (z & k & s1 & E & HnO & Hit & L & F & B & ->); auto.
  { intros z Z1 Z2. apply Hdue; cbn; auto. rewrite Z1. reflexivity. }
  destruct Hrun' as [k' r1 L' F' ->].
  assert (HS : sync holds x z r).
  { subst sn. cbn [sn_mem sn_array sn_num sn_time] in *. split; [auto|]. split; [auto|]. split; [lia|]. rewrite R3. split; assumption. }
  destruct (sync_save holds x z r HS) as (HS2 & sn1 & sn2 & W1 & W2 & W3).
  assert (Er : edge_save c r = save_solution r) by (destruct (edge_cases c r) as [(? & _)|(_ & ?)]; [lia|auto]). rewrite Er in L'.
  destruct (sync_run c dtl god holds cfl_dt adv Hdt Huniq Hstep) with (x := x) (s := save_solution z) (r := save_solution r)
    (n := k) (s1 := s1) (k := k') (r1 := r1) as (x' & S' & (l & l' & G1 & G2 & G3)); auto.
  destruct S' as (S1 & S2 & S3 & S4 & S5). split; auto. split; auto. split.
  { exists x'. split; [apply S4|apply S5]. }
  exists (l ++ [sn1]), (written z). rewrite G1, W1, <- app_assoc. split; [reflexivity|].
  split; [rewrite last_last; cbn in W1; injection W1 as <-; congruence|]. split; [destruct l; discriminate|].
  rewrite G2, W2, R4. apply Forall2_app; [exact G3|constructor; [exact W3|constructor]].
Qed.
End Gen.

(** A maximum has one value, whatever the order and grouping. *)
Section Det.
Context {A : Arith R}.
Hypothesis Hmax : forall x y, maxv x y = Rmax x y.
Lemma reduces_det {I} (lowest : R) (step : I -> R -> R) (f : I -> option R) items r r' :
  (forall x acc, step x acc = match f x with Some y => maxv acc y | None => acc end) ->
  reduces lowest step maxv items r -> reduces lowest step maxv items r' -> r = r'.
Proof.
  intros Hf (l & Hl & Hp) (l' & Hl' & Hp').
  assert (Hc : forall l r, partial lowest step maxv l r -> partial lowest step Rmax l r).
  { induction 1; [constructor|constructor; assumption|]. rewrite Hmax. constructor; assumption. }
  assert (Hf' : forall x acc, step x acc = match f x with Some y => Rmax acc y | None => acc end).
  { intros x acc. rewrite Hf. destruct (f x); auto. }
  destruct (partial_max lowest step f Hf' l r (Hc _ _ Hp)) as (A0 & A1 & A2).
  destruct (partial_max lowest step f Hf' l' r' (Hc _ _ Hp')) as (B0 & B1 & B2).
  assert (HP : forall x, In x l <-> In x l').
  { intros z. split; intros Hz; [apply (Permutation_in z (Permutation_sym Hl')), (Permutation_in z Hl), Hz|apply (Permutation_in z (Permutation_sym Hl)), (Permutation_in z Hl'), Hz]. }
  apply Rle_antisym.
  - destruct A2 as [-> |(x & Hx & Hy)]; auto. apply (B1 x); auto. apply HP. exact Hx.
  - destruct B2 as [-> |(x & Hx & Hy)]; auto. apply (A1 x); auto. apply HP. exact Hx.
Qed.

Section Hydro.
Variables (p : hparams R) (g : grid) (lowest : R) (ge : bool) (impl : Z).
Lemma cfl2_one G u d d' : cfl2 p g lowest ge G u d -> cfl2 p g lowest ge G u d' -> d = d'.
Proof.
  intros (r & H & ->) (r' & H' & ->). f_equal.
  eapply (reduces_det lowest _ (fun c => let '(i, j, _) := c in if interior2 g i j then
    Some (if ge then invdt_cell_gravity2 p (load_hs2 (store_of2 u G) aU i j) (store_of2 u G (Loc aG i j 0 IX)) (store_of2 u G (Loc aG i j 0 IY))
          else invdt_cell2 p (load_hs2 (store_of2 u G) aU i j)) else None)); [|exact H|exact H'].
  intros [[i j] k] acc. unfold dt_body2. cbv zeta. destruct (interior2 g i j); reflexivity.
Qed.
Lemma cfl3_one G u d d' : cfl3 p g lowest ge G u d -> cfl3 p g lowest ge G u d' -> d = d'.
Proof.
  intros (r & H & ->) (r' & H' & ->). f_equal.
  eapply (reduces_det lowest _ (fun c => let '(i, j, k) := c in if interior3 g i j k then
    Some (if ge then invdt_cell_gravity3 p (load_hs3 (store_of3 u G) aU i j k) (store_of3 u G (Loc aG i j k IX)) (store_of3 u G (Loc aG i j k IY))
                       (store_of3 u G (Loc aG i j k IZ))
          else invdt_cell3 p (load_hs3 (store_of3 u G) aU i j k)) else None)); [|exact H|exact H'].
  intros [[i j] k] acc. unfold dt_body3. cbv zeta. destruct (interior3 g i j k); reflexivity.
Qed.

Definition og2 : Z -> Z -> Z -> R := fun _ _ _ => zero.
Definition og3 : Z -> Z -> Z -> Z -> R := fun _ _ _ _ => zero.
Definition okeeps2 (u : Z -> Z -> Z -> R) (a : Z) (m : store R) : Prop :=
  holds2 g u a m /\ (ge = true -> gravity_is2 og2 m) /\ a <> aG.
Definition okeeps3 (u : Z -> Z -> Z -> Z -> R) (a : Z) (m : store R) : Prop :=
  holds3 g u a m /\ (ge = true -> gravity_is3 og3 m) /\ a <> aG.
Lemma okeeps2_dt u a m d : okeeps2 u a m -> hydro_dt2 p g lowest ge a m d -> cfl2 p g lowest ge og2 u d.
Proof using.
  intros (H1 & H2 & H3) Hd. destruct ge.
  - eapply dt_store2; eauto.
  - pose proof (dt_store2 p g lowest false u (fun i j d => m (Loc aG i j 0%Z d)) a m d H3 H1 ltac:(intros ? ? ?; reflexivity) Hd) as (r & Hr & ->).
    exists r. split; [exact Hr|reflexivity].
Qed.
Lemma okeeps3_dt u a m d : okeeps3 u a m -> hydro_dt3 p g lowest ge a m d -> cfl3 p g lowest ge og3 u d.
Proof using.
  intros (H1 & H2 & H3) Hd. destruct ge.
  - eapply dt_store3; eauto.
  - pose proof (dt_store3 p g lowest false u (fun i j k d => m (Loc aG i j k d)) a m d H3 H1 ltac:(intros ? ? ? ?; reflexivity) Hd) as (r & Hr & ->).
    exists r. split; [exact Hr|reflexivity].
Qed.
Hypothesis Himpl : impl = 0%Z \/ impl = 1%Z.
Hypothesis Hs : slope_ok p.
Lemma okeeps2_step u a b d m m' : hydro_grid2 g -> riemann_ok2 p -> arr_ok a b -> okeeps2 u a m -> hydro_step2 p g ge impl a b d m m' ->
  okeeps2 (adv2 p g ge og2 d u) b m'.
Proof using Himpl Hs.
  intros Hg Hr Ha (H1 & H2 & H3) St. unfold okeeps2. destruct ge.
  - destruct (step_store2 p g true impl Himpl Hs u og2 a b d m m') as [Y1 Y2]; auto. split; [exact Y1|]. split; [intros _; exact Y2|]. clear - Ha. arrays; lia.
  - destruct (step_store2 p g false impl Himpl Hs u (fun i j d => m (Loc aG i j 0%Z d)) a b d m m') as [Y1 Y2]; auto.
    all: try (intros ? ? ?; reflexivity).
    split; [exact Y1|]. split; [discriminate|]. clear - Ha. arrays; lia.
Qed.
Lemma okeeps3_step u a b d m m' : hydro_grid3 g -> riemann_ok3 p -> arr_ok a b -> okeeps3 u a m -> hydro_step3 p g ge impl a b d m m' ->
  okeeps3 (adv3 p g ge impl og3 d u) b m'.
Proof using Himpl Hs.
  intros Hg Hr Ha (H1 & H2 & H3) St. unfold okeeps3. destruct ge.
  - destruct (step_store3 p g true impl Himpl Hs u og3 a b d m m') as [Y1 Y2]; auto. split; [exact Y1|]. split; [intros _; exact Y2|]. clear - Ha. arrays; lia.
  - destruct (step_store3 p g false impl Himpl Hs u (fun i j k d => m (Loc aG i j k d)) a b d m m') as [Y1 Y2]; auto.
    all: try (intros ? ? ? ?; reflexivity).
    split; [clear - Y1 Himpl; revert Y1; destruct Himpl as [E|E]; rewrite E; intros Y1; exact Y1|]. split; [discriminate|]. clear - Ha. arrays; lia.
Qed.

Variables (c : lconf R) (io : ioconf) (ly1 ly2 : layout).
Hypothesis Hres : halfResolution io = false.
Theorem round_restart2 (s0 s' r r' : sim R R) sn f : hydro_grid2 g -> riemann_ok2 p ->
  0 <= m_iteration s0 -> written s0 = [] ->
  run c (hydro_dt2 p g lowest ge) (hydro_step2 p g ge impl) s0 s' -> leb (sub (l_tEnd c) (lit 1 100000000000000)) (m_t s') = true ->
  In sn (written s') -> (ge = true -> gravity_is2 og2 (sn_mem sn)) ->
  leb (sub (l_tEnd c) (lit 1 100000000000000)) (sn_time sn) = false ->
  (forall z : sim R R, m_times_saved z = sn_num sn + 1 -> m_t z = sn_time sn -> should_save_solution c z = false) ->
  snapshot_file false false g io ly1 sn f -> restarted false g io ly2 false f r ->
  run c (hydro_dt2 p g lowest ge) (hydro_step2 p g ge impl) r r' ->
  m_t r' = m_t s' /\ m_times_saved r' = m_times_saved s' /\
  (exists u, holds2 g u (current (m_iteration s')) (mem s') /\ holds2 g u (current (m_iteration r')) (mem r')) /\
  exists l rest, written s' = l ++ rest /\ last l sn = sn /\ l <> [] /\
    Forall2 (fun a b => sn_num a = sn_num b /\ sn_time a = sn_time b /\
               exists u, holds2 g u (sn_array a) (sn_mem a) /\ holds2 g u (sn_array b) (sn_mem b)) l (written r').
Proof.
  intros Hg Hr Hi0 Hw0 Hrun Hend Hin Hgrav Hbef Hdue Hf Hre Hrun'.
  destruct (restarted2 g io ly1 ly2 Hres false sn f r Hg Hf Hre) as (R1 & R2 & R3 & R4 & R5 & R6).
  destruct (restart_gen c (hydro_dt2 p g lowest ge) (hydro_step2 p g ge impl) okeeps2 (cfl2 p g lowest ge og2) (adv2 p g ge og2))
    with (s0 := s0) (s' := s') (r := r) (r' := r') (sn := sn) (x := fun i j v => sn_mem sn (Loc (sn_array sn) i j 0%Z v))
    as (A1 & A2 & (x & A3 & A4) & l & rest & A5 & A6 & A7 & A8); auto.
  { intros. eapply okeeps2_dt; eauto. } { intros. eapply cfl2_one; eauto. } { intros. eapply okeeps2_step; eauto. }
  { split; [intros i j v _ _; reflexivity|]. split; [exact Hgrav|].
    assert (exists z, sn_array sn = current z) as (z & ->); [|unfold current; destruct (Z.rem _ 2 =? 0); discriminate].
    destruct (run_snap c _ _ s0 s' sn Hw0 Hrun Hin) as (z & k & s1 & E & _); auto.
    - intros z Z1 Z2. apply Hdue; cbn; auto. rewrite Z1. reflexivity.
    - destruct Hrun as [n s1 L F ->]. exists s1. split; auto. destruct (edge_same c s1) as (E1 & _). rewrite E1 in Hend. exact Hend.
    - exists (m_iteration z). rewrite E. reflexivity. }
  { split; [intros i j v Hi Hv; apply R5; auto|]. split; [|discriminate]. intros _ i j d. apply R6. }
  split; [exact A1|]. split; [exact A2|]. split; [exists x; split; [apply A3|apply A4]|].
  exists l, rest. split; [exact A5|]. split; [exact A6|]. split; [exact A7|].
  eapply Forall2_weaken; [|exact A8]. intros a b (Q1 & Q2 & y & (Q3 & _) & (Q4 & _)). eauto.
Qed.
Theorem round_restart3 (s0 s' r r' : sim R R) sn f : hydro_grid3 g -> riemann_ok3 p ->
  0 <= m_iteration s0 -> written s0 = [] ->
  run c (hydro_dt3 p g lowest ge) (hydro_step3 p g ge impl) s0 s' -> leb (sub (l_tEnd c) (lit 1 100000000000000)) (m_t s') = true ->
  In sn (written s') -> (ge = true -> gravity_is3 og3 (sn_mem sn)) ->
  leb (sub (l_tEnd c) (lit 1 100000000000000)) (sn_time sn) = false ->
  (forall z : sim R R, m_times_saved z = sn_num sn + 1 -> m_t z = sn_time sn -> should_save_solution c z = false) ->
  snapshot_file true false g io ly1 sn f -> restarted true g io ly2 false f r ->
  run c (hydro_dt3 p g lowest ge) (hydro_step3 p g ge impl) r r' ->
  m_t r' = m_t s' /\ m_times_saved r' = m_times_saved s' /\
  (exists u, holds3 g u (current (m_iteration s')) (mem s') /\ holds3 g u (current (m_iteration r')) (mem r')) /\
  exists l rest, written s' = l ++ rest /\ last l sn = sn /\ l <> [] /\
    Forall2 (fun a b => sn_num a = sn_num b /\ sn_time a = sn_time b /\
               exists u, holds3 g u (sn_array a) (sn_mem a) /\ holds3 g u (sn_array b) (sn_mem b)) l (written r').
Proof.
  intros Hg Hr Hi0 Hw0 Hrun Hend Hin Hgrav Hbef Hdue Hf Hre Hrun'.
  destruct (restarted3 g io ly1 ly2 Hres false sn f r Hg Hf Hre) as (R1 & R2 & R3 & R4 & R5 & R6).
  destruct (restart_gen c (hydro_dt3 p g lowest ge) (hydro_step3 p g ge impl) okeeps3 (cfl3 p g lowest ge og3) (adv3 p g ge impl og3))
    with (s0 := s0) (s' := s') (r := r) (r' := r') (sn := sn) (x := fun i j k v => sn_mem sn (Loc (sn_array sn) i j k v))
    as (A1 & A2 & (x & A3 & A4) & l & rest & A5 & A6 & A7 & A8); auto.
  { intros. eapply okeeps3_dt; eauto. } { intros. eapply cfl3_one; eauto. } { intros. eapply okeeps3_step; eauto. }
  { split; [intros i j k v _ _; reflexivity|]. split; [exact Hgrav|].
    assert (exists z, sn_array sn = current z) as (z & ->); [|unfold current; destruct (Z.rem _ 2 =? 0); discriminate].
    destruct (run_snap c _ _ s0 s' sn Hw0 Hrun Hin) as (z & k & s1 & E & _); auto.
    - intros z Z1 Z2. apply Hdue; cbn; auto. rewrite Z1. reflexivity.
    - destruct Hrun as [n s1 L F ->]. exists s1. split; auto. destruct (edge_same c s1) as (E1 & _). rewrite E1 in Hend. exact Hend.
    - exists (m_iteration z). rewrite E. reflexivity. }
  { split; [intros i j k v Hi Hv; apply R5; auto|]. split; [|discriminate]. intros _ i j k d. apply R6. }
  split; [exact A1|]. split; [exact A2|]. split; [exists x; split; [apply A3|apply A4]|].
  exists l, rest. split; [exact A5|]. split; [exact A6|]. split; [exact A7|].
  eapply Forall2_weaken; [|exact A8]. intros a b (Q1 & Q2 & y & (Q3 & _) & (Q4 & _)). eauto.
Qed.
End Hydro.

(** ** MHD: the variant with stored fluxes (the atomic and low-memory variants
    round in another order) *)
Section Mhd.
Variables (p : mparams R) (g : grid) (lowest : R).
Hypothesis Hr : mriemann_ok p.

Lemma mgodunov2_order dt junk a b (s s' : store R) : arr_ok a b -> mhd_grid2 g ->
  run_kernels (mgodunov2 p g dt junk 0 a b) s s' ->
  forall i j, inside2 g i j -> m2 s' b i j = mstep2 p dt junk (mfill2 g s a) i j.
Proof.
  intros Ha Hg Hk. pose proof Hg as (G1 & _). apply (mgodunov2_gen p g dt junk 0); auto.
  intros s0 s1 H01. destruct (mscheme2_0 p g dt junk a b s0 s1 Ha ltac:(lia) H01) as (A1 & _ & A3). auto.
Qed.
Lemma mgodunov3_order dt junk a b (s s' : store R) : arr_ok a b -> mhd_grid3 g ->
  run_kernels (mgodunov3 p g dt junk 0 a b) s s' ->
  forall i j k, inside3 g i j k -> mst s' b i j k = vstep3 p g dt junk 0 (mfil g s a) (i, j, k).
Proof.
  intros Ha Hg Hk. pose proof Hg as ((G1 & _) & _).
  destruct (mgodunov3_gen p g dt junk 0 a b s s' Ha Hg) as (B & _); auto.
  - apply scheme_ok3_0; auto. lia.
  - intros i j k Hin. apply (B (i, j, k)), inside_rng, Hin.
Qed.

Lemma mprefix2_q a b (m m1 : store R) : arr_ok a b -> mhd_grid2 g -> run_kernels (mprefix2 p g a b) m m1 ->
  forall i j, inside2 g i j -> m2 m1 aQ i j = prim2 p (mfill2 g m a) i j.
Proof.
  intros Hao Hg Hk.
  assert (Hk3 : run_kernels (mgodunov2 p g zero (fun _ _ => ms_zero) 3 a b) m m1).
  { rewrite mgodunov2_split. unfold mscheme2. cbn [tl Z.eqb Pos.eqb]. rewrite app_nil_r. exact Hk. }
  destruct (mgodunov2_fill p g _ _ 3 a b m m1 Hao Hg Hk3) as (s2 & K & B1 & _ & _).
  unfold mscheme2 in K. cbn [Z.eqb Pos.eqb] in K. apply rk_inv in K. destruct K as (s3 & K & E). apply rk_nil_inv in E. subst s3.
  destruct (mconvert2_spec p g a b s2 m1 Hao K) as [C1 _]. destruct Hg as (G1 & _).
  intros i j Hi. unfold inside2 in Hi. unfold isize, jsize, imax, imin, jmax, jmin in C1. rewrite C1 by lia.
  unfold prim2. rewrite !(m2_fill g m s2 a a) by (intros; apply B1; unfold isize, jsize, imax, imin, jmax, jmin; lia). reflexivity.
Qed.
Lemma mprefix3_q a b (m m1 : store R) : arr_ok a b -> mhd_grid3 g -> run_kernels (mprefix3 p g a b) m m1 ->
  forall c, rng3 g (gw g) (gw g) c = true -> m3 m1 aQ c = prim3 p (mfil g m a) c.
Proof.
  intros Hao Hg Hk.
  assert (Hk3 : run_kernels (mgodunov3 p g zero (fun _ _ => ms_zero) 3 a b) m m1).
  { rewrite mgodunov3_split. unfold mscheme3. cbn [tl Z.eqb Pos.eqb]. rewrite app_nil_r. exact Hk. }
  destruct (mgodunov3_fill p g _ _ 3 a b m m1 Hao Hg Hk3) as (s2 & K & B1 & _ & _).
  unfold mscheme3 in K. cbn [Z.eqb Pos.eqb] in K. apply rk_inv in K. destruct K as (s3 & K & E). apply rk_nil_inv in E. subst s3.
  destruct (mconvert3_spec p g a b s2 m1 Hao K) as [C1 _]. destruct Hg as ((G1 & _) & _).
  intros c Hc. rewrite C1.
  - apply prim3_ext. intros c' Hn. apply m3_fill. intros v Hv. apply B1; auto.
    eapply rng_weaken; [| |eapply near_rng; eauto]; lia.
  - eapply rng_weaken; [| |exact Hc]; lia.
Qed.

Definition orate2 (u : Z -> Z -> Z -> R) (c : Z * Z * Z) : option R :=
  let '(i, j, _) := c in if interior2 g i j then
    let q := prim2 p (mfill2 g (sto2 u) aU) i j in
    Some (add (div (find_speed_info_dir p CX q) (dx (mh p))) (div (find_speed_info_dir p CY q) (dy (mh p)))) else None.
Definition orate3 (u : Z -> Z -> Z -> Z -> R) (c : cell) : option R :=
  if rng3 g (gw g) (gw g) c then
    let q := prim3 p (mfil g (sto3 u) aU) c in
    Some (add (add (div (find_speed_info_dir p CX q) (dx (mh p))) (div (find_speed_info_dir p CY q) (dy (mh p)))) (div (find_speed_info_dir p CZ q) (dz (mh p)))) else None.
Definition omax {I} (f : I -> option R) (x : I) (acc : R) : R := match f x with Some y => maxv acc y | None => acc end.
Definition ocfl2 u (d : R) : Prop := exists r, reduces lowest (omax (orate2 u)) maxv (cells2 g) r /\ d = div (cfl (mh p)) r.
Definition ocfl3 u (d : R) : Prop := exists r, reduces lowest (omax (orate3 u)) maxv (cells3 g) r /\ d = div (cfl (mh p)) r.
Lemma ocfl2_one u d d' : ocfl2 u d -> ocfl2 u d' -> d = d'.
Proof. intros (r & H & ->) (r' & H' & ->). f_equal. eapply reduces_det; [|exact H|exact H']. reflexivity. Qed.
Lemma ocfl3_one u d d' : ocfl3 u d -> ocfl3 u d' -> d = d'.
Proof. intros (r & H & ->) (r' & H' & ->). f_equal. eapply reduces_det; [|exact H|exact H']. reflexivity. Qed.
Lemma okeep_mdt2 u a m d : mhd_grid2 g -> mholds2 g u a m -> mhd_dt2 p g lowest a m d -> ocfl2 u d.
Proof.
  intros Hg H (b & m1 & Ha & Hab & Hk & r & Hr' & ->).
  assert (Hao : arr_ok a b) by (clear - Ha Hab; unfold arr_ok, aU, aU2 in *; lia).
  exists r. split; [|reflexivity]. revert Hr'. apply reduces_ext. intros [[i j] k] acc _. unfold mdt_body2, omax, orate2. cbv zeta.
  destruct (interior2 g i j) eqn:E; [|reflexivity]. apply interior2_inside in E.
  change (MS _ _ _ _ _ _ _ _) with (m2 m1 aQ i j). rewrite (mprefix2_q a b m m1 Hao Hg Hk i j E).
  assert (E2 : prim2 p (mfill2 g m a) i j = prim2 p (mfill2 g (sto2 u) aU) i j).
  { pose proof Hg as (G1 & _). unfold inside2 in E. unfold prim2. rewrite !(mfill2_holds g u a m) by (auto; lia). reflexivity. }
  rewrite E2. reflexivity.
Qed.
Lemma okeep_mdt3 u a m d : mhd_grid3 g -> mholds3 g u a m -> mhd_dt3 p g lowest a m d -> ocfl3 u d.
Proof.
  intros Hg H (b & m1 & Ha & Hab & Hk & r & Hr' & ->).
  assert (Hao : arr_ok a b) by (clear - Ha Hab; unfold arr_ok, aU, aU2 in *; lia).
  exists r. split; [|reflexivity]. revert Hr'. apply reduces_ext. intros c acc _. unfold mdt_body3, omax, orate3. cbv zeta.
  destruct (rng3 g (gw g) (gw g) c) eqn:E; [|reflexivity].
  change (MS _ _ _ _ _ _ _ _) with (m3 m1 aQ c). rewrite (mprefix3_q a b m m1 Hao Hg Hk c E).
  assert (E2 : prim3 p (mfil g m a) c = prim3 p (mfil g (sto3 u) aU) c).
  { destruct c as [[i j] k]. apply inside_rng in E. pose proof Hg as ((G1 & _) & _). unfold inside3 in E. apply prim3_ext. intros [[i' j'] k'] Hn. pos3.
    unfold mfil, cx, cy, cz. cbn [fst snd]. apply mfill3_holds; auto; lia. }
  rewrite E2. reflexivity.
Qed.
Definition oadv2 (dt : R) (u : Z -> Z -> Z -> R) : Z -> Z -> Z -> R :=
  fun i j v => mget (mstep2 p dt (fun _ _ => ms_zero) (mfill2 g (sto2 u) aU) i j) v.
Definition oadv3 (dt : R) (u : Z -> Z -> Z -> Z -> R) : Z -> Z -> Z -> Z -> R :=
  fun i j k v => mget (vstep3 p g dt (fun _ _ => ms_zero) 0 (mfil g (sto3 u) aU) (i, j, k)) v.
Lemma okeep_mstep2 u a b d m m' : mhd_grid2 g -> mslope_ok p -> arr_ok a b -> mholds2 g u a m -> mhd_step2 p g 0 a b d m m' ->
  mholds2 g (oadv2 d u) b m'.
Proof.
  intros Hg Hs Ha H (junk & St) i j v Hi Hv8. pose proof (mgodunov2_order d junk a b m m' Ha Hg St) as K.
  rewrite (mst_get m' b i j 0 v Hv8). change (mst m' b i j 0) with (m2 m' b i j). rewrite K by auto. unfold oadv2. f_equal.
  rewrite (mstep2_junk p d junk (fun _ _ => ms_zero) (mslope_ok_12 p Hs) Hr). apply mstep2_ext.
  pose proof Hg as (G1 & _). unfold inside2 in Hi. intros i' j' H1 H2. apply mfill2_holds; auto; lia.
Qed.
Lemma okeep_mstep3 u a b d m m' : mhd_grid3 g -> arr_ok a b -> mholds3 g u a m -> mhd_step3 p g 0 a b d m m' ->
  mholds3 g (oadv3 d u) b m'.
Proof.
  intros Hg Ha H (junk & St) i j k v Hi Hv8. pose proof (mgodunov3_order d junk a b m m' Ha Hg St) as K.
  rewrite (mst_get m' b i j k v Hv8). rewrite K by auto. unfold oadv3. f_equal.
  rewrite (vstep3_junk p g d junk (fun _ _ => ms_zero) Hr). apply vstep3_ext.
  pose proof Hg as ((G1 & _) & _). unfold inside3 in Hi. intros [[i' j'] k'] Hn. pos3. unfold mfil, cx, cy, cz. cbn [fst snd].
  apply mfill3_holds; auto; lia.
Qed.

Variables (c : lconf R) (io : ioconf) (ly1 ly2 : layout).
Hypothesis Hres : halfResolution io = false.
Theorem round_restart_mhd2 (s0 s' r r' : sim R R) sn f : mhd_grid2 g -> mslope_ok p ->
  0 <= m_iteration s0 -> written s0 = [] ->
  run c (mhd_dt2 p g lowest) (mhd_step2 p g 0) s0 s' -> leb (sub (l_tEnd c) (lit 1 100000000000000)) (m_t s') = true ->
  In sn (written s') -> leb (sub (l_tEnd c) (lit 1 100000000000000)) (sn_time sn) = false ->
  (forall z : sim R R, m_times_saved z = sn_num sn + 1 -> m_t z = sn_time sn -> should_save_solution c z = false) ->
  snapshot_file false true g io ly1 sn f -> restarted_mhd false p g io ly2 false f r ->
  run c (mhd_dt2 p g lowest) (mhd_step2 p g 0) r r' ->
  m_t r' = m_t s' /\ m_times_saved r' = m_times_saved s' /\
  (exists u, mholds2 g u (current (m_iteration s')) (mem s') /\ mholds2 g u (current (m_iteration r')) (mem r')) /\
  exists l rest, written s' = l ++ rest /\ last l sn = sn /\ l <> [] /\ Forall2 (same (mholds2 g)) l (written r').
Proof.
  intros Hg Hs Hi0 Hw0 Hrun Hend Hin Hbef Hdue Hf Hre Hrun'.
  destruct (restarted_mhd2 p g io ly1 ly2 Hres false sn f r Hg Hf Hre) as (R1 & R2 & R3 & R4 & R5).
  apply (restart_gen c (mhd_dt2 p g lowest) (mhd_step2 p g 0) (mholds2 g) ocfl2 oadv2)
    with (s0 := s0) (r := r) (sn := sn) (x := fun i j v => sn_mem sn (Loc (sn_array sn) i j 0%Z v)); auto.
  { intros. eapply okeep_mdt2; eauto. } { intros. eapply ocfl2_one; eauto. } { intros. eapply okeep_mstep2; eauto. }
  { intros i j v _ _; reflexivity. }
Qed.
Theorem round_restart_mhd3 (s0 s' r r' : sim R R) sn f : mhd_grid3 g ->
  0 <= m_iteration s0 -> written s0 = [] ->
  run c (mhd_dt3 p g lowest) (mhd_step3 p g 0) s0 s' -> leb (sub (l_tEnd c) (lit 1 100000000000000)) (m_t s') = true ->
  In sn (written s') -> leb (sub (l_tEnd c) (lit 1 100000000000000)) (sn_time sn) = false ->
  (forall z : sim R R, m_times_saved z = sn_num sn + 1 -> m_t z = sn_time sn -> should_save_solution c z = false) ->
  snapshot_file true true g io ly1 sn f -> restarted_mhd true p g io ly2 false f r ->
  run c (mhd_dt3 p g lowest) (mhd_step3 p g 0) r r' ->
  m_t r' = m_t s' /\ m_times_saved r' = m_times_saved s' /\
  (exists u, mholds3 g u (current (m_iteration s')) (mem s') /\ mholds3 g u (current (m_iteration r')) (mem r')) /\
  exists l rest, written s' = l ++ rest /\ last l sn = sn /\ l <> [] /\ Forall2 (same (mholds3 g)) l (written r').
Proof.
  intros Hg Hi0 Hw0 Hrun Hend Hin Hbef Hdue Hf Hre Hrun'.
  destruct (restarted_mhd3 p g io ly1 ly2 Hres false sn f r Hg Hf Hre) as (R1 & R2 & R3 & R4 & R5).
  apply (restart_gen c (mhd_dt3 p g lowest) (mhd_step3 p g 0) (mholds3 g) ocfl3 oadv3)
    with (s0 := s0) (r := r) (sn := sn) (x := fun i j k v => sn_mem sn (Loc (sn_array sn) i j k v)); auto.
  { intros. eapply okeep_mdt3; eauto. } { intros. eapply ocfl3_one; eauto. } { intros. eapply okeep_mstep3; eauto. }
  { intros i j k v _ _; reflexivity. }
Qed.
End Mhd.
End Det.
