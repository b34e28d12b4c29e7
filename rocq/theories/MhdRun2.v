(** 2D MHD: the time step, whole runs, uniform states. *)
From Coq Require Import ZArith List Bool Lia Reals Lra Permutation.
From Verif Require Import Arith Par ParProofs GridModel BoundaryModel BoundarySpec BoundaryProofs
  HydroState HydroKernels CellKernels HydroExec HydroSpec HydroProofs2 HydroStep2 HydroSums HydroUniform ReduceModel DtProofs
  LoopModel LoopProofs LoopHydro
  MhdState MhdRiemann MhdPoint MhdKernels2 MhdSpec MhdExec MhdField2 MhdProofs2 MhdStep2 MhdConserve2 MhdPhysics MhdFlux MhdLoop2.
Import ListNotations.
Open Scope Z_scope.

Section W.
Context {T : Type} {AT : Arith T}.
Variable p : mparams T.
Variable g : grid.
Lemma mgodunov2_split dt junk impl a b : mgodunov2 p g dt junk impl a b = mprefix2 p g a b ++ tl (mscheme2 p g dt junk impl a b).
Proof. unfold mgodunov2, mprefix2, mscheme2. rewrite <- app_assoc. reflexivity. Qed.
(** The text of the code, seen as an iteration of the loop model. *)
Lemma as_written2 lowest impl a b clip (m m' : store T) dt : arr_ok a b ->
  mgodunov_as_written2 p g lowest impl a b clip m m' dt ->
  exists d, mhd_dt2 p g lowest a m d /\ dt = clip d /\ mhd_step2 p g impl a b dt m m'.
Proof.
  intros Ha (m1 & d & junk & H1 & H2 & H3 & H4). exists d. split; [|split; auto].
  - exists b, m1. split; [|split; [|auto]]; clear - Ha; destruct Ha as [[-> ->]|[-> ->]]; unfold aU, aU2; lia.
  - exists junk. rewrite mgodunov2_split. apply run_kernels_app. eauto.
Qed.
End W.

Section R.
Open Scope R_scope.
Variable p : mparams R.
Variable g : grid.
Variable lowest : R.

(** Inverse crossing time of a cell by the fast waves of a primitive state. *)
Definition mhd_rate2 (q : ms R) : R :=
  (Rabs (mU q) + fast_speed (gamma0 (mh p)) q (mA q)) / dx (mh p)
  + (Rabs (mV q) + fast_speed (gamma0 (mh p)) q (mB q)) / dy (mh p).

Lemma mrate2_pos u nA nB nC : mhd_params_ok p -> 0 < dx (mh p) -> 0 < dy (mh p) ->
  0 < mhd_rate2 (constoprim_mhd p u nA nB nC) /\
  mhd_rate2 (constoprim_mhd p u nA nB nC) =
   find_speed_info_dir p CX (constoprim_mhd p u nA nB nC) / dx (mh p) + find_speed_info_dir p CY (constoprim_mhd p u nA nB nC) / dy (mh p).
Proof.
  intros (H1 & H2 & H3 & H4) Hx Hy. destruct (constoprim_floors p u nA nB nC H2 H3) as (D1 & D2 & _). set (q := constoprim_mhd _ _ _ _ _) in *.
  assert (Hgp : 0 < gamma0 (mh p) * mP q) by (apply Rmult_lt_0_compat; lra).
  split.
  - unfold mhd_rate2. pose proof (fast_pos p CX q D1 Hgp) as F1. pose proof (fast_pos p CY q D1 Hgp) as F2.
    rewrite fast_speed_spec in F1, F2 by auto. cbn [bcomp] in F1, F2. pose proof (Rabs_pos (mU q)). pose proof (Rabs_pos (mV q)).
    apply Rplus_lt_0_compat; apply Rdiv_lt_0_compat; lra.
  - unfold mhd_rate2, find_speed_info_dir. rewrite !fast_speed_spec by auto. cbn [bcomp add absv RArith].
    f_equal; f_equal; lra.
Qed.

Theorem mdt_cfl2 (m : store R) a dt : mhd_params_ok p -> 0 < dx (mh p) -> 0 < dy (mh p) -> 0 < cfl (mh p) -> lowest <= 0 ->
  mhd_grid2 g -> mhd_dt2 p g lowest a m dt ->
  let rate i j := mhd_rate2 (prim2 p (mfill2 g m a) i j) in
  0 < dt /\ (forall i j, inside2 g i j -> dt * rate i j <= cfl (mh p)) /\
  (exists i j, inside2 g i j /\ dt * rate i j = cfl (mh p)).
Proof.
  intros Hp Hdx Hdy Hcfl Hlow Hg (b & m1 & Ha & Hab & Hk & r & Hr & ->) rate. cbn [div RArith].
  pose proof Hg as (G1 & G2 & G3 & G4).
  assert (Hao : arr_ok a b) by (clear - Ha Hab; unfold arr_ok, aU, aU2 in *; lia).
  assert (Q : forall i j, inside2 g i j -> m2 m1 aQ i j = prim2 p (mfill2 g m a) i j).
  { assert (Hk3 : run_kernels (mgodunov2 p g 0 (fun _ _ => ms_zero) 3 a b) m m1).
    { rewrite mgodunov2_split. unfold mscheme2. cbn [tl Z.eqb Pos.eqb]. rewrite app_nil_r. exact Hk. }
    destruct (mgodunov2_fill p g _ _ 3 a b m m1 Hao Hg Hk3) as (s2 & K & B1 & _ & _).
    unfold mscheme2 in K. cbn [Z.eqb Pos.eqb] in K. apply rk_inv in K. destruct K as (s3 & K & E). apply rk_nil_inv in E. subst s3.
    destruct (mconvert2_spec p g a b s2 m1 Hao K) as [C1 _].
    intros i j Hi. unfold inside2 in Hi. unfold isize, jsize, imax, imin, jmax, jmin in C1. rewrite C1 by lia.
    unfold prim2. rewrite !(m2_fill g m s2 a a) by (intros; apply B1; unfold isize, jsize, imax, imin, jmax, jmin; lia). reflexivity. }
  pose (f := fun c : Z * Z * Z => let '(i, j, _) := c in if interior2 g i j then Some (rate i j) else None).
  assert (Pos : forall i j, 0 < rate i j) by (intros i j; apply (mrate2_pos _ _ _ _ Hp Hdx Hdy)).
  destruct (reduces_max lowest (mdt_body2 p g m1) f) with (items := cells2 g) (r := r) as [M1 M2]; auto.
  - intros [[i j] k] acc. unfold mdt_body2, f. cbv zeta. destruct (interior2 g i j) eqn:E; auto. cbn [maxv RArith]. f_equal.
    apply interior2_inside in E. change (MS _ _ _ _ _ _ _ _) with (m2 m1 aQ i j). rewrite Q by auto. unfold rate, prim2.
    symmetry. apply mrate2_pos; auto.
  - assert (Hin : inside2 g 3 3) by (unfold inside2; lia). destruct (cells2_in g 3 3 Hin ltac:(lia)) as [C1 C2].
    exists (3, 3, 0)%Z, (rate 3%Z 3%Z). split; auto. unfold f. rewrite C2. split; auto. pose proof (Pos 3%Z 3%Z). lra.
  - destruct M2 as (c & Hc & Hf). destruct (cells2_k g c Hc) as (i0 & j0 & ->). unfold f in Hf.
    destruct (interior2 g i0 j0) eqn:E; [|discriminate]. injection Hf as Hf.
    pose proof (Pos i0 j0) as P0. rewrite Hf in P0.
    assert (P : 0 < cfl (mh p) / r) by (apply Rdiv_lt_0_compat; auto). split; auto. split.
    + intros i j Hi. destruct (cells2_in g i j Hi ltac:(lia)) as [C1 C2].
      assert (L : rate i j <= r) by (apply (M1 (i, j, 0%Z)); auto; unfold f; rewrite C2; auto).
      replace (cfl (mh p)) with (cfl (mh p) / r * r) at 2 by (field; lra). apply Rmult_le_compat_l; lra.
    + exists i0, j0. split; [apply interior2_inside; auto|]. rewrite Hf. field. lra.
Qed.

(** Whole runs. *)
Variable impl : Z.
Variable c : lconf R.
Theorem mdiv_run2 (s s' : sim R R) i j : variant_ok2 p impl -> mhd_grid2 g -> all_periodic g -> mslope_ok p -> mriemann_ok p ->
  (0 <= m_iteration s)%Z -> inside2 g i j -> run c (mhd_dt2 p g lowest) (mhd_step2 p g impl) s s' ->
  div2 (mh p) (mfill2 g (mem s') (current (m_iteration s'))) i j = div2 (mh p) (mfill2 g (mem s) (current (m_iteration s))) i j.
Proof.
  intros Hi Hg Hp Hs Hr H0 Hin Hrun. refine (run_keeps 0%Z c _ _ (fun m a => div2 (mh p) (mfill2 g m a) i j) s s' _ H0 Hrun).
  intros a b d m m' Ha (junk & Hk). eapply div_periodic2; eauto.
Qed.
Theorem mdiv_interior_run2 (s s' : sim R R) i j : variant_ok2 p impl -> mhd_grid2 g ->
  (0 <= m_iteration s)%Z -> inside2 g i j -> inside2 g (i + 1) j -> inside2 g i (j + 1) ->
  run c (mhd_dt2 p g lowest) (mhd_step2 p g impl) s s' ->
  div2 (mh p) (m2 (mem s') (current (m_iteration s'))) i j = div2 (mh p) (m2 (mem s) (current (m_iteration s))) i j.
Proof.
  intros Hi Hg H0 I1 I2 I3 Hrun. refine (run_keeps 0%Z c _ _ (fun m a => div2 (mh p) (m2 m a) i j) s s' _ H0 Hrun).
  intros a b d m m' Ha (junk & Hk). eapply div_interior2; eauto.
Qed.
Theorem mconserve_run2 (s s' : sim R R) v : variant_ok2 p impl -> mhd_grid2 g -> all_periodic g -> mslope_ok p -> mriemann_ok p ->
  (0 <= m_iteration s)%Z -> cell_centred2 v -> run c (mhd_dt2 p g lowest) (mhd_step2 p g impl) s s' ->
  total2 g (mem s') (current (m_iteration s')) v = total2 g (mem s) (current (m_iteration s)) v.
Proof.
  intros Hi Hg Hp Hs Hr H0 Hv Hrun. refine (run_keeps 0%Z c _ _ (fun m a => total2 g m a v) s s' _ H0 Hrun).
  intros a b d m m' Ha (junk & Hk). eapply mconserve2; eauto.
Qed.

(** Uniform states. *)
Lemma along_open_m (dir n q v : Z) lo hi (x : R) : lo <> Reflecting -> hi <> Reflecting ->
  along (A:=RArith) true dir lo hi n q v x = x.
Proof.
  intros H1 H2. unfold along, reflected. destruct (is_ghost n q); auto.
  assert (E : match (if (q <? 0)%Z then Some lo else if (n <=? q)%Z then Some hi else None) with
    | Some Reflecting => true | _ => false end = false)
    by (destruct (q <? 0)%Z, (n <=? q)%Z, lo, hi; try reflexivity; congruence).
  rewrite E. cbn. lra.
Qed.

Lemma mstep2_const dt junk (K : ms R) i j : slope12 p = true -> mriemann_ok p ->
  mstep2 p dt junk (fun _ _ => K) i j = K.
Proof.
  intros Hs Hr. unfold mstep2. cbv zeta.
  set (Q := prim2 p (fun _ _ => K)).
  destruct (flux2f_shift p dt junk Hs Hr Q (fun _ _ => K) 1 0 i j) as (S1 & _ & S3).
  destruct (flux2f_shift p dt junk Hs Hr Q (fun _ _ => K) 0 1 i j) as (_ & S2 & S4).
  rewrite Z.add_0_r in *. rewrite S1, S2, S3, S4.
  change (fun i j : Z => Q (i + 1)%Z (j + 0)%Z) with Q. change (fun i j : Z => Q (i + 0)%Z (j + 1)%Z) with Q.
  generalize (fluxX2f p dt junk Q (fun _ _ => K) i j) (fluxY2f p dt junk Q (fun _ _ => K) i j) (emf2f p dt junk Q (fun _ _ => K) i j).
  intros fx fy e. destruct K, fx, fy. unfold new2, upd_flux, with_A, with_B, mswapY. cbn. f_equal; ring.
Qed.

Theorem muniform2 dt junk aIn aOut (s s' : store R) (K : Z -> R) :
  (impl = 0 \/ impl = 1 \/ impl = 2)%Z -> arr_ok aIn aOut -> mhd_grid2 g -> mslope_ok p -> mriemann_ok p ->
  (forall f, In f [FACE_XMIN; FACE_XMAX; FACE_YMIN; FACE_YMAX] -> kind_of_code (bc g f) <> Reflecting) ->
  (forall i j v, inside2 g i j -> (0 <= v < 8)%Z -> s (Loc aIn i j 0 v) = K v) ->
  run_kernels (mgodunov2 p g dt junk impl aIn aOut) s s' ->
  forall i j v, inside2 g i j -> (0 <= v < 8)%Z -> s' (Loc aOut i j 0 v) = K v.
Proof.
  intros Hi Ha Hg Hs Hr Hb Hc Hk i j v Hin Hv. pose proof Hg as (G1 & G2 & G3 & G4).
  assert (Hv2 : variant_ok2 p impl) by (unfold variant_ok2; intuition).
  destruct (mgodunov2_spec p g dt junk impl aIn aOut s s' Hv2 Ha Hg Hk) as (K1 & _).
  assert (F : forall i j v, (0 <= i < nx g + 2 * gw g)%Z -> (0 <= j < ny g + 2 * gw g)%Z -> (0 <= v < 8)%Z ->
    filled2d true g (fun i j v => s (Loc aIn i j 0 v)) i j v = K v).
  { clear i j v Hin Hv. intros i j v H1 H2 H3. unfold filled2d. cbv zeta.
    rewrite !along_open_m by (apply Hb; cbn; auto). apply Hc; auto. unfold inside2.
    pose proof (image_range (kx0 g) (kx1 g) (nx g) (gw g) (i - gw g)).
    pose proof (image_range (ky0 g) (ky1 g) (ny g) (gw g) (j - gw g)). lia. }
  set (C := MS (K ID) (K IP) (K IU) (K IV) (K IW) (K IA) (K IB) (K IC)).
  change (s' (Loc aOut i j 0 v)) with (s' (Loc aOut i j 0 v)).
  rewrite (mst_get s' aOut i j 0 v Hv). fold (m2 s' aOut i j). rewrite K1 by auto.
  rewrite (mstep2_ext p dt junk (mfill2 g s aIn) (fun _ _ => C)).
  - rewrite mstep2_const by (auto; apply mslope_ok_12; auto).
    assert (V : (v = 0 \/ v = 1 \/ v = 2 \/ v = 3 \/ v = 4 \/ v = 5 \/ v = 6 \/ v = 7)%Z) by lia.
    destruct V as [->|[->|[->|[->|[->|[->|[->| ->]]]]]]]; reflexivity.
  - intros i' j' H1 H2. unfold inside2 in Hin. unfold mfill2. rewrite !F by (unfold ID, IP, IU, IV, IW, IA, IB, IC; lia). reflexivity.
Qed.
End R.
