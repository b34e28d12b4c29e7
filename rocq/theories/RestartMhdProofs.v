(** A restarted MHD run goes in step with the original one. *)
From Coq Require Import ZArith List Bool Reals Lia Lra.
From Verif Require Import Arith Par ParProofs GridModel BoundaryModel BoundarySpec BoundaryProofs HydroState HydroPoint HydroKernels HydroField
  HydroSpec HydroProofs2 HydroStep2 HydroConserve HydroUniform HydroExec ReduceModel DtProofs IoModel IoSpec IoRound LoopModel LoopSpec LoopProofs LoopHydro RestartModel RestartProofs
  MhdState MhdRiemann MhdPoint MhdKernels2 MhdKernels3 MhdSpec MhdSpec3 MhdExec MhdField2 MhdField3 MhdProofs2 MhdProofs3 MhdStep2 MhdStep3
  MhdConserve2 MhdConserve3 MhdPhysics MhdLoop2 MhdLoop3 MhdRun2 MhdRun3 RestartMhd.
Import ListNotations.
Open Scope Z_scope.

(** The MHD data of the array [a], ghost cells left out. *)
Definition mholds2 {T} (g : grid) (u : Z -> Z -> Z -> T) (a : Z) (m : store T) : Prop :=
  forall i j v, inside2 g i j -> 0 <= v < 8 -> m (Loc a i j 0 v) = u i j v.
Definition mholds3 {T} (g : grid) (u : Z -> Z -> Z -> Z -> T) (a : Z) (m : store T) : Prop :=
  forall i j k v, inside3 g i j k -> 0 <= v < 8 -> m (Loc a i j k v) = u i j k v.

Section Loaded.
Context {TT T : Type} {AT : Arith TT} {A : Arith T}.
Variables (p : mparams T) (g : grid) (io : ioconf) (ly1 ly2 : layout).
Hypothesis Hres : halfResolution io = false.

Lemma restarted_mhd2 reset (sn : snap TT T) f r : mhd_grid2 g -> snapshot_file false true g io ly1 sn f -> restarted_mhd false p g io ly2 reset f r ->
  m_t r = (if reset then zero else sn_time sn) /\ m_times_saved r = sn_num sn /\ m_iteration r = 0 /\ written r = [] /\
  (forall i j v, inside2 g i j -> 0 <= v < 8 -> mem r (Loc aU i j 0 v) = sn_mem sn (Loc (sn_array sn) i j 0 v)).
Proof.
  intros (G1 & G2 & G3 & G4) (fill & b & jk & Hb & ->) [junk m1 m2 m3 dt r0 E H1 H0 Hk Hc].
  assert (Hok : grid_ok2d g) by (unfold grid_ok2d; lia).
  assert (Hio : io_grid false true g) by (unfold io_grid; intuition (try lia; try discriminate)).
  destruct (fill2_spec true g aU m1 m2 Hok Hk) as [B1 B2]. subst r0. cbn [load snd fst save h_step h_time m_t m_times_saved m_iteration written mem].
  apply rk_inv in Hc. destruct Hc as (m4 & Hc & E). apply rk_nil_inv in E. subst m4.
  destruct (mconvert2_spec p g aU aU2 _ m3 ltac:(left; split; reflexivity) Hc) as [_ C2].
  repeat split.
  intros i j v Hi Hv. rewrite C2 by discriminate. cbn [la]. replace (aU =? aU2) with false by reflexivity.
  pose proof Hi as Hi'. unfold inside2 in Hi'. rewrite B1 by lia. rewrite filled2d_interior by lia.
  rewrite H1 by (try (unfold isize, jsize, imax, imin, jmax, jmin); lia).
  pose proof (round_trip (TT := TT) false true io ly1 ly2 g fill b jk junk (fun _ => zero) (sn_num sn) (sn_time sn) i j 0 v Hio Hres) as R.
  etransitivity; [apply R; [clear R|lia]|clear R].
  2:{ unfold elem. apply Hb; try (unfold isize, jsize, imax, imin, jmax, jmin); lia. }
  unfold in_array, interior. destruct (ghostIncluded io); [unfold isize, jsize, imax, imin, jmax, jmin|]; lia.
Qed.

Lemma restarted_mhd3 reset (sn : snap TT T) f r : mhd_grid3 g -> snapshot_file true true g io ly1 sn f -> restarted_mhd true p g io ly2 reset f r ->
  m_t r = (if reset then zero else sn_time sn) /\ m_times_saved r = sn_num sn /\ m_iteration r = 0 /\ written r = [] /\
  (forall i j k v, inside3 g i j k -> 0 <= v < 8 -> mem r (Loc aU i j k v) = sn_mem sn (Loc (sn_array sn) i j k v)).
Proof.
  intros ((G1 & G2 & G3 & G4) & G5) (fill & b & jk & Hb & ->) [junk m1 m2 m3 dt r0 E H1 H0 Hk Hc].
  assert (Hok : grid_ok3d g) by (unfold grid_ok3d, grid_ok2d; lia).
  assert (Hio : io_grid true true g) by (unfold io_grid; intuition (try lia; try discriminate)).
  destruct (fill3_spec true g aU m1 m2 Hok Hk) as [B1 B2]. subst r0. cbn [load snd fst save h_step h_time m_t m_times_saved m_iteration written mem].
  apply rk_inv in Hc. destruct Hc as (m4 & Hc & E). apply rk_nil_inv in E. subst m4.
  destruct (mconvert3_spec p g aU aU2 _ m3 ltac:(left; split; reflexivity) Hc) as [_ C2].
  repeat split.
  intros i j k v Hi Hv. rewrite C2 by discriminate. cbn [la]. replace (aU =? aU2) with false by reflexivity.
  pose proof Hi as Hi'. unfold inside3 in Hi'. rewrite B1 by lia. rewrite filled3d_interior by lia.
  rewrite H1 by (try (unfold isize, jsize, ksize, imax, imin, jmax, jmin, kmax, kmin); lia).
  pose proof (round_trip (TT := TT) true true io ly1 ly2 g fill b jk junk (fun _ => zero) (sn_num sn) (sn_time sn) i j k v Hio Hres) as R.
  etransitivity; [apply R; [clear R|lia]|clear R].
  2:{ unfold elem. apply Hb; try (unfold isize, jsize, ksize, imax, imin, jmax, jmin, kmax, kmin); lia. }
  unfold in_array, interior. destruct (ghostIncluded io); [unfold isize, jsize, ksize, imax, imin, jmax, jmin, kmax, kmin|]; lia.
Qed.
End Loaded.

(** The memory filled from a snapshot of the interior. *)
Section Fill.
Context {T : Type} {AT : Arith T}.
Variable g : grid.
Definition sto2 (u : Z -> Z -> Z -> T) : store T := fun l => u (li l) (lj l) (lv l).
Definition sto3 (u : Z -> Z -> Z -> Z -> T) : store T := fun l => u (li l) (lj l) (lk l) (lv l).

Lemma mfill2_holds u a (m : store T) i j : mhd_grid2 g -> mholds2 g u a m -> 0 <= i < nx g + 2 * gw g -> 0 <= j < ny g + 2 * gw g ->
  mfill2 g m a i j = mfill2 g (sto2 u) aU i j.
Proof.
  intros (G1 & G2 & G3 & G4) H Hi Hj.
  assert (E : forall v, 0 <= v < 8 -> filled2d true g (fun i j v => m (Loc a i j 0 v)) i j v = filled2d true g (fun i j v => sto2 u (Loc aU i j 0 v)) i j v).
  { intros v Hv. unfold filled2d. cbv zeta. rewrite H; [reflexivity| |auto]. unfold inside2.
    pose proof (image_range (kx0 g) (kx1 g) (nx g) (gw g) (i - gw g)).
    pose proof (image_range (ky0 g) (ky1 g) (ny g) (gw g) (j - gw g)). lia. }
  unfold mfill2. rewrite !E by (unfold ID, IP, IU, IV, IW, IA, IB, IC; lia). reflexivity.
Qed.
Lemma mfill3_holds u a (m : store T) i j k : mhd_grid3 g -> mholds3 g u a m -> 0 <= i < nx g + 2 * gw g -> 0 <= j < ny g + 2 * gw g ->
  0 <= k < nz g + 2 * gw g -> mfill3 g m a i j k = mfill3 g (sto3 u) aU i j k.
Proof.
  intros ((G1 & G2 & G3 & G4) & G5) H Hi Hj Hk.
  assert (E : forall v, 0 <= v < 8 -> filled3d true g (fun i j k v => m (Loc a i j k v)) i j k v = filled3d true g (fun i j k v => sto3 u (Loc aU i j k v)) i j k v).
  { intros v Hv. unfold filled3d. cbv zeta. rewrite H; [reflexivity| |auto]. unfold inside3.
    pose proof (image_range (kx0 g) (kx1 g) (nx g) (gw g) (i - gw g)).
    pose proof (image_range (ky0 g) (ky1 g) (ny g) (gw g) (j - gw g)).
    pose proof (image_range (kz0 g) (kz1 g) (nz g) (gw g) (k - gw g)). lia. }
  unfold mfill3. rewrite !E by (unfold ID, IP, IU, IV, IW, IA, IB, IC; lia). reflexivity.
Qed.
End Fill.

Open Scope R_scope.
Section Mhd.
Variables (p : mparams R) (g : grid) (lowest : R) (impl : Z) (c : lconf R) (io : ioconf) (ly1 ly2 : layout).
Hypothesis Hr : mriemann_ok p.
Hypothesis Hp : mhd_params_ok p.
Hypothesis Hdx : 0 < dx (mh p).
Hypothesis Hdy : 0 < dy (mh p).
Hypothesis Hcfl : 0 < cfl (mh p).
Hypothesis Hl : lowest <= 0.
Hypothesis Hres : halfResolution io = false.

Definition mcfl2 (u : Z -> Z -> Z -> R) (d : R) : Prop :=
  let rate i j := mhd_rate2 p (prim2 p (mfill2 g (sto2 u) aU) i j) in
  0 < d /\ (forall i j, inside2 g i j -> d * rate i j <= cfl (mh p)) /\ (exists i j, inside2 g i j /\ d * rate i j = cfl (mh p)).
Definition mcfl3 (u : Z -> Z -> Z -> Z -> R) (d : R) : Prop :=
  let rate i j k := mhd_rate3 p (prim3 p (mfil g (sto3 u) aU) (i, j, k)) in
  0 < d /\ (forall i j k, inside3 g i j k -> d * rate i j k <= cfl (mh p)) /\ (exists i j k, inside3 g i j k /\ d * rate i j k = cfl (mh p)).
Definition madv2 (dt : R) (u : Z -> Z -> Z -> R) : Z -> Z -> Z -> R :=
  fun i j v => mget (mstep2 p dt (fun _ _ => ms_zero) (mfill2 g (sto2 u) aU) i j) v.
Definition madv3 (dt : R) (u : Z -> Z -> Z -> Z -> R) : Z -> Z -> Z -> Z -> R :=
  fun i j k v => mget (vstep3 p g dt (fun _ _ => ms_zero) impl (mfil g (sto3 u) aU) (i, j, k)) v.

Lemma mkeeps2_dt u a m d : mhd_grid2 g -> mholds2 g u a m -> mhd_dt2 p g lowest a m d -> mcfl2 u d.
Proof using Hp Hdx Hdy Hcfl Hl.
  intros Hg H Hd. destruct (mdt_cfl2 p g lowest m a d Hp Hdx Hdy Hcfl Hl Hg Hd) as (D1 & D2 & D3).
  assert (E : forall i j, inside2 g i j -> prim2 p (mfill2 g m a) i j = prim2 p (mfill2 g (sto2 u) aU) i j).
  { intros i j Hi. pose proof Hg as (G1 & _). unfold inside2 in Hi. unfold prim2. rewrite !(mfill2_holds g u a m) by (auto; lia). reflexivity. }
  split; auto. split.
  - intros i j Hi. rewrite <- E by auto. auto.
  - destruct D3 as (i & j & Hi & D3). exists i, j. split; auto. rewrite <- E by auto. auto.
Qed.
Lemma mkeeps3_dt u a m d : 0 < dz (mh p) -> mhd_grid3 g -> mholds3 g u a m -> mhd_dt3 p g lowest a m d -> mcfl3 u d.
Proof using Hp Hdx Hdy Hcfl Hl.
  intros Hdz Hg H Hd. destruct (mdt_cfl3 p g lowest m a d Hp Hdx Hdy Hdz Hcfl Hl Hg Hd) as (D1 & D2 & D3).
  assert (E : forall i j k, inside3 g i j k -> prim3 p (mfil g m a) (i, j, k) = prim3 p (mfil g (sto3 u) aU) (i, j, k)).
  { intros i j k Hi. pose proof Hg as ((G1 & _) & _). unfold inside3 in Hi. apply prim3_ext. intros [[i' j'] k'] Hn. pos3.
    unfold mfil, cx, cy, cz. cbn [fst snd]. apply mfill3_holds; auto; lia. }
  split; auto. split.
  - intros i j k Hi. rewrite <- E by auto. auto.
  - destruct D3 as (i & j & k & Hi & D3). exists i, j, k. split; auto. rewrite <- E by auto. auto.
Qed.
Lemma mcfl2_det u d d' : mcfl2 u d -> mcfl2 u d' -> d = d'.
Proof using Hp Hdx Hdy.
  intros (A1 & A2 & i & j & Hi & A3) (B1 & B2 & i' & j' & Hi' & B3).
  pose proof (A2 _ _ Hi') as X. pose proof (B2 _ _ Hi) as Y. rewrite <- B3 in X. rewrite <- A3 in Y.
  assert (P : forall i j, 0 < mhd_rate2 p (prim2 p (mfill2 g (sto2 u) aU) i j)) by (intros; apply (mrate2_pos p _ _ _ _ Hp Hdx Hdy)).
  apply Rmult_le_reg_r in X; [|apply P]. apply Rmult_le_reg_r in Y; [|apply P]. lra.
Qed.
Lemma mcfl3_det u d d' : 0 < dz (mh p) -> mcfl3 u d -> mcfl3 u d' -> d = d'.
Proof using Hp Hdx Hdy.
  intros Hdz (A1 & A2 & i & j & k & Hi & A3) (B1 & B2 & i' & j' & k' & Hi' & B3).
  pose proof (A2 _ _ _ Hi') as X. pose proof (B2 _ _ _ Hi) as Y. rewrite <- B3 in X. rewrite <- A3 in Y.
  assert (P : forall i j k, 0 < mhd_rate3 p (prim3 p (mfil g (sto3 u) aU) (i, j, k))) by (intros; apply (mrate3_pos p _ _ _ _ Hp Hdx Hdy Hdz)).
  apply Rmult_le_reg_r in X; [|apply P]. apply Rmult_le_reg_r in Y; [|apply P]. lra.
Qed.
Lemma mkeeps2_step u a b d m m' : mhd_grid2 g -> mslope_ok p -> variant_ok2 p impl -> arr_ok a b -> mholds2 g u a m -> mhd_step2 p g impl a b d m m' ->
  mholds2 g (madv2 d u) b m'.
Proof using Hr.
  intros Hg Hs Hv Ha H (junk & St) i j v Hi Hv8. destruct (mgodunov2_spec p g d junk impl a b m m' Hv Ha Hg St) as (K & _).
  rewrite (mst_get m' b i j 0 v Hv8). change (mst m' b i j 0) with (m2 m' b i j). rewrite K by auto. unfold madv2. f_equal.
  rewrite (mstep2_junk p d junk (fun _ _ => ms_zero) (mslope_ok_12 p Hs) Hr). apply mstep2_ext.
  pose proof Hg as (G1 & _). unfold inside2 in Hi. intros i' j' H1 H2. apply mfill2_holds; auto; lia.
Qed.
Lemma mkeeps3_step u a b d m m' : mhd_grid3 g -> variant_ok3 p impl -> arr_ok a b -> mholds3 g u a m -> mhd_step3 p g impl a b d m m' ->
  mholds3 g (madv3 d u) b m'.
Proof using Hr.
  intros Hg Hv Ha H (junk & St) i j k v Hi Hv8. destruct (mgodunov3_spec p g d junk impl a b m m' Hv Ha Hg St) as (K & _).
  rewrite (mst_get m' b i j k v Hv8). rewrite K by auto. unfold madv3. f_equal.
  rewrite (vstep3_junk p g d junk (fun _ _ => ms_zero) Hr). apply vstep3_ext.
  pose proof Hg as ((G1 & _) & _). unfold inside3 in Hi. intros [[i' j'] k'] Hn. pos3. unfold mfil, cx, cy, cz. cbn [fst snd].
  apply mfill3_holds; auto; lia.
Qed.

Theorem restart_mhd2 (s0 s' r r' : sim R R) sn f : mhd_grid2 g -> mslope_ok p -> variant_ok2 p impl -> (0 < l_nOutput c)%Z ->
  (0 <= m_iteration s0)%Z -> written s0 = [] ->
  run c (mhd_dt2 p g lowest) (mhd_step2 p g impl) s0 s' -> l_tEnd c - / 100000000000000 <= m_t s' ->
  In sn (written s') ->
  sn_time sn <= IZR (sn_num sn + 1) * (l_tEnd c / IZR (l_nOutput c)) -> sn_time sn <= l_tEnd c - / 1000000000000 ->
  snapshot_file false true g io ly1 sn f -> restarted_mhd false p g io ly2 false f r ->
  run c (mhd_dt2 p g lowest) (mhd_step2 p g impl) r r' ->
  m_t r' = m_t s' /\ m_times_saved r' = m_times_saved s' /\
  (exists u, mholds2 g u (current (m_iteration s')) (mem s') /\ mholds2 g u (current (m_iteration r')) (mem r')) /\
  exists l rest, written s' = l ++ rest /\ last l sn = sn /\ l <> [] /\
    Forall2 (fun a b => sn_num a = sn_num b /\ sn_time a = sn_time b /\
               exists u, mholds2 g u (sn_array a) (sn_mem a) /\ mholds2 g u (sn_array b) (sn_mem b)) l (written r').
Proof.
  intros Hg Hs Hvar Hn Hi0 Hw0 Hrun Hend Hin Hd1 Hd2 Hf Hres' Hrun'.
  destruct (restarted_mhd2 p g io ly1 ly2 Hres false sn f r Hg Hf Hres') as (R1 & R2 & R3 & R4 & R5).
  assert (Hbt : exists s1, s' = edge_save c s1 /\ by_time c s1).
  { destruct Hrun as [n s1 L F ->]. exists s1. split; auto. destruct (edge_same c s1) as (X1 & _). rewrite X1 in Hend.
    unfold by_time. cbn [leb sub lit RArith]. destruct Rle_dec; auto. exfalso. lra. }
  destruct (run_snap c _ _ s0 s' sn Hw0 Hrun Hin) as (z & k & s1 & E & HnO & Hit & L & F & B & ->); auto.
  { cbn [leb sub lit RArith]. destruct Rle_dec; auto. exfalso. lra. }
  { intros z Z1 Z2. apply not_due; auto; rewrite ?Z1, Z2; auto. }
  destruct Hrun' as [k' r1 L' F' ->].
  pose (u := fun i j v => sn_mem sn (Loc (sn_array sn) i j 0%Z v)).
  assert (HS : sync (mholds2 g) u z r).
  { subst sn. cbn [sn_mem sn_array sn_num sn_time] in *. split; [auto|]. split; [auto|]. split; [lia|]. rewrite R3. split.
    - intros i j v _ _. reflexivity.
    - intros i j v Hi Hv. apply R5; auto. }
  destruct (sync_save (mholds2 g) u z r HS) as (HS2 & sn1 & sn2 & W1 & W2 & W3).
  assert (Er : edge_save c r = save_solution r) by (destruct (edge_cases c r) as [(? & _)|(_ & ?)]; [lia|auto]). rewrite Er in L'.
  destruct (sync_run c (mhd_dt2 p g lowest) (mhd_step2 p g impl) (mholds2 g) mcfl2 madv2) with (x := u) (s := save_solution z) (r := save_solution r)
    (n := k) (s1 := s1) (k := k') (r1 := r1) as (x' & S' & (l & l' & G1 & G2 & G3)); auto.
  { intros. eapply mkeeps2_dt; eauto. }
  { intros. eapply mcfl2_det; eauto. }
  { intros. eapply mkeeps2_step; eauto. }
  destruct S' as (S1 & S2 & S3 & S4 & S5). split; auto. split; auto. split.
  { exists x'. split; [apply S4|apply S5]. }
  exists (l ++ [sn1]), (written z). rewrite G1, W1, <- app_assoc. split; [reflexivity|].
  split; [rewrite last_last; cbn in W1; injection W1 as <-; congruence|]. split; [destruct l; discriminate|].
  rewrite G2, W2, R4. apply Forall2_app; [exact G3|constructor; [exact W3|constructor]].
Qed.

Hypothesis Hdz : 0 < dz (mh p).
Theorem restart_mhd3 (s0 s' r r' : sim R R) sn f : mhd_grid3 g -> variant_ok3 p impl -> (0 < l_nOutput c)%Z ->
  (0 <= m_iteration s0)%Z -> written s0 = [] ->
  run c (mhd_dt3 p g lowest) (mhd_step3 p g impl) s0 s' -> l_tEnd c - / 100000000000000 <= m_t s' ->
  In sn (written s') ->
  sn_time sn <= IZR (sn_num sn + 1) * (l_tEnd c / IZR (l_nOutput c)) -> sn_time sn <= l_tEnd c - / 1000000000000 ->
  snapshot_file true true g io ly1 sn f -> restarted_mhd true p g io ly2 false f r ->
  run c (mhd_dt3 p g lowest) (mhd_step3 p g impl) r r' ->
  m_t r' = m_t s' /\ m_times_saved r' = m_times_saved s' /\
  (exists u, mholds3 g u (current (m_iteration s')) (mem s') /\ mholds3 g u (current (m_iteration r')) (mem r')) /\
  exists l rest, written s' = l ++ rest /\ last l sn = sn /\ l <> [] /\
    Forall2 (fun a b => sn_num a = sn_num b /\ sn_time a = sn_time b /\
               exists u, mholds3 g u (sn_array a) (sn_mem a) /\ mholds3 g u (sn_array b) (sn_mem b)) l (written r').
Proof.
  intros Hg Hvar Hn Hi0 Hw0 Hrun Hend Hin Hd1 Hd2 Hf Hres' Hrun'.
  destruct (restarted_mhd3 p g io ly1 ly2 Hres false sn f r Hg Hf Hres') as (R1 & R2 & R3 & R4 & R5).
  assert (Hbt : exists s1, s' = edge_save c s1 /\ by_time c s1).
  { destruct Hrun as [n s1 L F ->]. exists s1. split; auto. destruct (edge_same c s1) as (X1 & _). rewrite X1 in Hend.
    unfold by_time. cbn [leb sub lit RArith]. destruct Rle_dec; auto. exfalso. lra. }
  destruct (run_snap c _ _ s0 s' sn Hw0 Hrun Hin) as (z & k & s1 & E & HnO & Hit & L & F & B & ->); auto.
  { cbn [leb sub lit RArith]. destruct Rle_dec; auto. exfalso. lra. }
  { intros z Z1 Z2. apply not_due; auto; rewrite ?Z1, Z2; auto. }
  destruct Hrun' as [k' r1 L' F' ->].
  pose (u := fun i j k v => sn_mem sn (Loc (sn_array sn) i j k v)).
  assert (HS : sync (mholds3 g) u z r).
  { subst sn. cbn [sn_mem sn_array sn_num sn_time] in *. split; [auto|]. split; [auto|]. split; [lia|]. rewrite R3. split.
    - intros i j k0 v _ _. reflexivity.
    - intros i j k0 v Hi Hv. apply R5; auto. }
  destruct (sync_save (mholds3 g) u z r HS) as (HS2 & sn1 & sn2 & W1 & W2 & W3).
  assert (Er : edge_save c r = save_solution r) by (destruct (edge_cases c r) as [(? & _)|(_ & ?)]; [lia|auto]). rewrite Er in L'.
  destruct (sync_run c (mhd_dt3 p g lowest) (mhd_step3 p g impl) (mholds3 g) mcfl3 madv3) with (x := u) (s := save_solution z) (r := save_solution r)
    (n := k) (s1 := s1) (k := k') (r1 := r1) as (x' & S' & (l & l' & G1 & G2 & G3)); auto.
  { intros. eapply mkeeps3_dt; eauto. }
  { intros. eapply mcfl3_det; eauto. }
  { intros. eapply mkeeps3_step; eauto. }
  destruct S' as (S1 & S2 & S3 & S4 & S5). split; auto. split; auto. split.
  { exists x'. split; [apply S4|apply S5]. }
  exists (l ++ [sn1]), (written z). rewrite G1, W1, <- app_assoc. split; [reflexivity|].
  split; [rewrite last_last; cbn in W1; injection W1 as <-; congruence|]. split; [destruct l; discriminate|].
  rewrite G2, W2, R4. apply Forall2_app; [exact G3|constructor; [exact W3|constructor]].
Qed.
End Mhd.
