(** 3D MHD: the time step, whole runs, uniform states. *)
From Coq Require Import ZArith List Bool Lia Reals Lra Permutation.
From Verif Require Import Arith Par ParProofs GridModel BoundaryModel BoundarySpec BoundaryProofs
  HydroState HydroKernels CellKernels HydroExec HydroSpec HydroProofs2 HydroStep2 HydroProofs3 HydroSums HydroUniform ReduceModel DtProofs
  LoopModel LoopProofs LoopHydro
  MhdState MhdRiemann MhdPoint MhdKernels2 MhdSpec MhdExec MhdConserve2 MhdPhysics MhdFlux MhdRun2
  MhdSpec3 MhdPoint3 MhdKernels3 MhdField3 MhdProofs3 MhdStep3 MhdConserve3 MhdLoop3.
Import ListNotations.
Open Scope Z_scope.

Section W.
Context {T : Type} {AT : Arith T}.
Variable p : mparams T.
Variable g : grid.
Lemma mgodunov3_split dt junk impl a b : mgodunov3 p g dt junk impl a b = mprefix3 p g a b ++ tl (mscheme3 p g dt junk impl a b).
Proof. unfold mgodunov3, mprefix3, mscheme3. rewrite <- app_assoc. reflexivity. Qed.
(** The text of the code, seen as an iteration of the loop model. *)
Lemma as_written3 lowest impl a b clip (m m' : store T) dt : arr_ok a b ->
  mgodunov_as_written3 p g lowest impl a b clip m m' dt ->
  exists d, mhd_dt3 p g lowest a m d /\ dt = clip d /\ mhd_step3 p g impl a b dt m m'.
Proof.
  intros Ha (m1 & d & junk & H1 & H2 & H3 & H4). exists d. split; [|split; auto].
  - exists b, m1. split; [|split; [|auto]]; clear - Ha; destruct Ha as [[-> ->]|[-> ->]]; unfold aU, aU2; lia.
  - exists junk. rewrite mgodunov3_split. apply run_kernels_app. eauto.
Qed.
End W.

Section R.
Open Scope R_scope.
Variable p : mparams R.
Variable g : grid.
Variable lowest : R.

(** Inverse crossing time of a cell by the fast waves of a primitive state. *)
Definition mhd_rate3 (q : ms R) : R :=
  (Rabs (mU q) + fast_speed (gamma0 (mh p)) q (mA q)) / dx (mh p)
  + (Rabs (mV q) + fast_speed (gamma0 (mh p)) q (mB q)) / dy (mh p)
  + (Rabs (mW q) + fast_speed (gamma0 (mh p)) q (mC q)) / dz (mh p).

Lemma mrate3_pos u nA nB nC : mhd_params_ok p -> 0 < dx (mh p) -> 0 < dy (mh p) -> 0 < dz (mh p) ->
  let q := constoprim_mhd p u nA nB nC in
  0 < mhd_rate3 q /\
  mhd_rate3 q =
   find_speed_info_dir p CX q / dx (mh p) + find_speed_info_dir p CY q / dy (mh p) + find_speed_info_dir p CZ q / dz (mh p).
Proof.
  intros (H1 & H2 & H3 & H4) Hx Hy Hz q. destruct (constoprim_floors p u nA nB nC H2 H3) as (D1 & D2 & _). fold q in D1, D2.
  assert (Hgp : 0 < gamma0 (mh p) * mP q) by (apply Rmult_lt_0_compat; lra).
  split.
  - unfold mhd_rate3. pose proof (fast_pos p CX q D1 Hgp) as F1. pose proof (fast_pos p CY q D1 Hgp) as F2. pose proof (fast_pos p CZ q D1 Hgp) as F3.
    rewrite fast_speed_spec in F1, F2, F3 by auto. cbn [bcomp] in F1, F2, F3.
    pose proof (Rabs_pos (mU q)). pose proof (Rabs_pos (mV q)). pose proof (Rabs_pos (mW q)).
    repeat apply Rplus_lt_0_compat; apply Rdiv_lt_0_compat; lra.
  - unfold mhd_rate3, find_speed_info_dir. rewrite !fast_speed_spec by auto. cbn [bcomp add absv RArith].
    rewrite !(Rplus_comm (Rabs _)). reflexivity.
Qed.

Theorem mdt_cfl3 (m : store R) a dt : mhd_params_ok p -> 0 < dx (mh p) -> 0 < dy (mh p) -> 0 < dz (mh p) -> 0 < cfl (mh p) -> lowest <= 0 ->
  mhd_grid3 g -> mhd_dt3 p g lowest a m dt ->
  let rate i j k := mhd_rate3 (prim3 p (mfil g m a) (i, j, k)) in
  0 < dt /\ (forall i j k, inside3 g i j k -> dt * rate i j k <= cfl (mh p)) /\
  (exists i j k, inside3 g i j k /\ dt * rate i j k = cfl (mh p)).
Proof.
  intros Hp Hdx Hdy Hdz Hcfl Hlow Hg (b & m1 & Ha & Hab & Hk & r & Hr & ->) rate. cbn [div RArith].
  pose proof Hg as ((G1 & G2 & G3 & G4) & G5).
  assert (Hao : arr_ok a b) by (clear - Ha Hab; unfold arr_ok, aU, aU2 in *; lia).
  assert (Q : forall c, rng3 g (gw g) (gw g) c = true -> m3 m1 aQ c = prim3 p (mfil g m a) c).
  { assert (Hk3 : run_kernels (mgodunov3 p g 0 (fun _ _ => ms_zero) 3 a b) m m1).
    { rewrite mgodunov3_split. unfold mscheme3. cbn [tl Z.eqb Pos.eqb]. rewrite app_nil_r. exact Hk. }
    destruct (mgodunov3_fill p g _ _ 3 a b m m1 Hao Hg Hk3) as (s2 & K & B1 & _ & _).
    unfold mscheme3 in K. cbn [Z.eqb Pos.eqb] in K. apply rk_inv in K. destruct K as (s3 & K & E). apply rk_nil_inv in E. subst s3.
    destruct (mconvert3_spec p g a b s2 m1 Hao K) as [C1 _].
    intros c Hc. rewrite C1.
    - apply prim3_ext. intros c' Hn. apply m3_fill. intros v Hv. apply B1; auto.
      eapply rng_weaken; [| |eapply near_rng; eauto]; lia.
    - eapply rng_weaken; [| |exact Hc]; lia. }
  pose (f := fun c : cell => if rng3 g (gw g) (gw g) c then Some (mhd_rate3 (prim3 p (mfil g m a) c)) else None).
  assert (Pos : forall c, 0 < mhd_rate3 (prim3 p (mfil g m a) c)) by (intros c; apply (mrate3_pos _ _ _ _ Hp Hdx Hdy Hdz)).
  assert (Cin : forall c, rng3 g (gw g) (gw g) c = true -> In c (cells3 g)).
  { intros [[i j] k] Hc. apply rng3_spec in Hc. unfold cx, cy, cz in Hc; cbn [fst snd] in Hc. apply in3; lia. }
  destruct (reduces_max lowest (mdt_body3 p g m1) f) with (items := cells3 g) (r := r) as [M1 M2]; auto.
  - intros c acc. unfold mdt_body3, f. destruct (rng3 g (gw g) (gw g) c) eqn:E; auto. cbn [maxv RArith]. f_equal.
    change (MS _ _ _ _ _ _ _ _) with (m3 m1 aQ c). rewrite Q by auto. unfold prim3. cbv zeta.
    symmetry. apply mrate3_pos; auto.
  - assert (Hin : rng3 g (gw g) (gw g) (3, 3, 3)%Z = true) by (apply inside_rng; unfold inside3; lia).
    exists (3, 3, 3)%Z, (rate 3%Z 3%Z 3%Z). split; [apply Cin, Hin|]. unfold f. rewrite Hin. split; auto.
    pose proof (Pos (3, 3, 3)%Z). unfold rate. lra.
  - destruct M2 as ([[i0 j0] k0] & Hc & Hf). unfold f in Hf.
    destruct (rng3 g (gw g) (gw g) (i0, j0, k0)) eqn:E; [|discriminate]. injection Hf as Hf.
    pose proof (Pos (i0, j0, k0)) as P0. rewrite Hf in P0.
    assert (P : 0 < cfl (mh p) / r) by (apply Rdiv_lt_0_compat; auto). split; auto. split.
    + intros i j k Hi. apply inside_rng in Hi.
      assert (L : rate i j k <= r) by (apply (M1 (i, j, k)); auto; unfold f; rewrite Hi; auto).
      replace (cfl (mh p)) with (cfl (mh p) / r * r) at 2 by (field; lra). apply Rmult_le_compat_l; lra.
    + exists i0, j0, k0. split; [apply inside_rng; auto|]. unfold rate. rewrite Hf. field. lra.
Qed.

(** Whole runs. *)
Variable impl : Z.
Variable c : lconf R.
Theorem mdiv_run3 (s s' : sim R R) i j k : variant_ok3 p impl -> mhd_grid3 g -> all_periodic g -> mriemann_ok p -> no_rotation p ->
  (0 <= m_iteration s)%Z -> inside3 g i j k -> run c (mhd_dt3 p g lowest) (mhd_step3 p g impl) s s' ->
  div3 (mh p) (mfill3 g (mem s') (current (m_iteration s'))) i j k = div3 (mh p) (mfill3 g (mem s) (current (m_iteration s))) i j k.
Proof.
  intros Hi Hg Hp Hr Hn H0 Hin Hrun. refine (run_keeps 0%Z c _ _ (fun m a => div3 (mh p) (mfill3 g m a) i j k) s s' _ H0 Hrun).
  intros a b d m m' Ha (junk & Hk). eapply div_periodic3; eauto.
Qed.
Theorem mdiv_interior_run3 (s s' : sim R R) i j k : variant_ok3 p impl -> mhd_grid3 g ->
  (0 <= m_iteration s)%Z -> inside3 g i j k -> inside3 g (i + 1) j k -> inside3 g i (j + 1) k -> inside3 g i j (k + 1) ->
  run c (mhd_dt3 p g lowest) (mhd_step3 p g impl) s s' ->
  div3 (mh p) (mst (mem s') (current (m_iteration s'))) i j k = div3 (mh p) (mst (mem s) (current (m_iteration s))) i j k.
Proof.
  intros Hi Hg H0 I1 I2 I3 I4 Hrun. refine (run_keeps 0%Z c _ _ (fun m a => div3 (mh p) (mst m a) i j k) s s' _ H0 Hrun).
  intros a b d m m' Ha (junk & Hk). eapply div_interior3; eauto.
Qed.
Theorem mconserve_run3 (s s' : sim R R) v : variant_ok3 p impl -> mhd_grid3 g -> all_periodic g -> mriemann_ok p -> no_rotation p ->
  (0 <= m_iteration s)%Z -> cell_centred3 v -> run c (mhd_dt3 p g lowest) (mhd_step3 p g impl) s s' ->
  total3 g (mem s') (current (m_iteration s')) v = total3 g (mem s) (current (m_iteration s)) v.
Proof.
  intros Hi Hg Hp Hr Hn H0 Hv Hrun. refine (run_keeps 0%Z c _ _ (fun m a => total3 g m a v) s s' _ H0 Hrun).
  intros a b d m m' Ha (junk & Hk). eapply mconserve3; eauto.
Qed.

(** Uniform states. *)
Lemma upd_same (u f : ms R) s : upd_flux3 (@sub R RArith) (upd_flux3 (@add R RArith) u f s) f s = u.
Proof. clear. destruct u. unfold upd_flux3. cbn. f_equal; ring. Qed.
Lemma induct_same dt (u : ms R) x y z : induct p dt u z z z y y y x x x = u.
Proof. destruct u. unfold induct, with_A, with_B, with_C. cbn. f_equal; ring. Qed.
Lemma vstep3_const dt junk (K : ms R) x : mriemann_ok p -> no_rotation p ->
  vstep3 p g dt junk impl (fun _ => K) x = K.
Proof.
  intros Hr Hn. unfold vstep3.
  set (F := flux_of _ _ _ _ _ _ _). set (E := emff_of _ _ _ _ _ _).
  assert (HF : forall d, F d (move d 1 x) = F d x).
  { intros d. unfold F. rewrite flux_of_shift by auto. reflexivity. }
  assert (HE : forall e d, E e (move d 1 x) = E e x).
  { intros e d. unfold E. rewrite emff_of_shift by auto. reflexivity. }
  clearbody F E. unfold new3, accf, indf. rewrite !HF, !HE.
  rewrite !upd_same. apply induct_same.
Qed.

Theorem muniform3 dt junk aIn aOut (s s' : store R) (K : Z -> R) :
  variant_ok3 p impl -> arr_ok aIn aOut -> mhd_grid3 g -> mriemann_ok p -> no_rotation p ->
  (forall f, In f [FACE_XMIN; FACE_XMAX; FACE_YMIN; FACE_YMAX; FACE_ZMIN; FACE_ZMAX] -> kind_of_code (bc g f) <> Reflecting) ->
  (forall i j k v, inside3 g i j k -> (0 <= v < 8)%Z -> s (Loc aIn i j k v) = K v) ->
  run_kernels (mgodunov3 p g dt junk impl aIn aOut) s s' ->
  forall i j k v, inside3 g i j k -> (0 <= v < 8)%Z -> s' (Loc aOut i j k v) = K v.
Proof.
  intros Hv2 Ha Hg Hr Hn Hb Hc Hk i j k v Hin Hv. pose proof Hg as ((G1 & G2 & G3 & G4) & G5).
  destruct (mgodunov3_spec p g dt junk impl aIn aOut s s' Hv2 Ha Hg Hk) as (K1 & _).
  assert (F : forall i j k v, (0 <= i < nx g + 2 * gw g)%Z -> (0 <= j < ny g + 2 * gw g)%Z -> (0 <= k < nz g + 2 * gw g)%Z -> (0 <= v < 8)%Z ->
    filled3d true g (fun i j k v => s (Loc aIn i j k v)) i j k v = K v).
  { clear i j k v Hin Hv. intros i j k v H1 H2 H2' H3. unfold filled3d. cbv zeta.
    rewrite !along_open_m by (apply Hb; cbn; auto 10). apply Hc; auto. unfold inside3.
    pose proof (image_range (kx0 g) (kx1 g) (nx g) (gw g) (i - gw g)).
    pose proof (image_range (ky0 g) (ky1 g) (ny g) (gw g) (j - gw g)).
    pose proof (image_range (kz0 g) (kz1 g) (nz g) (gw g) (k - gw g)). lia. }
  set (C := MS (K ID) (K IP) (K IU) (K IV) (K IW) (K IA) (K IB) (K IC)).
  rewrite (mst_get s' aOut i j k v Hv), K1 by auto.
  rewrite (vstep3_ext p g dt junk impl (mfil g s aIn) (fun _ => C)).
  - rewrite vstep3_const by auto.
    assert (V : (v = 0 \/ v = 1 \/ v = 2 \/ v = 3 \/ v = 4 \/ v = 5 \/ v = 6 \/ v = 7)%Z) by lia.
    destruct V as [->|[->|[->|[->|[->|[->|[->| ->]]]]]]]; reflexivity.
  - intros [[i' j'] k'] Hnr. unfold inside3 in Hin. pos3. unfold mfil, mfill3, cx, cy, cz; cbn [fst snd].
    rewrite !F by (unfold ID, IP, IU, IV, IW, IA, IB, IC; lia). reflexivity.
Qed.
End R.
