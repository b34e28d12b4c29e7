(** 2D MHD step in exact arithmetic: independence of uninitialised memory, magnetic
    divergence, conservation. *)
From Coq Require Import ZArith List Bool Lia Reals Lra.
From Verif Require Import Arith Par ParProofs GridModel BoundaryModel BoundarySpec BoundaryProofs
  HydroState HydroKernels CellKernels HydroExec HydroSpec HydroProofs2 HydroStep2 HydroSums HydroConserve
  MhdState MhdRiemann MhdPoint MhdKernels2 MhdSpec MhdExec MhdField2 MhdProofs2 Atomic MhdAtomic2 MhdStep2 MhdLow2.
Import ListNotations.
Open Scope Z_scope.

Section J.
Context {T : Type} {AT : Arith T}.
Variable p : mparams T.
Variable dt : T.

Lemma mslope_ok_12 : mslope_ok p -> slope12 p = true.
Proof. unfold mslope_ok, slope12. intros [-> | ->]; [reflexivity|apply orb_true_r]. Qed.

Lemma slope_junk q qp qm j1 j2 : slope12 p = true -> slope_mhd p q qp qm j1 = slope_mhd p q qp qm j2.
Proof. intros H. unfold slope_mhd. rewrite H. reflexivity. Qed.
Lemma riemann_junk ql qr j1 j2 : mriemann_ok p -> riemann_mhd p ql qr j1 = riemann_mhd p ql qr j2.
Proof. intros H. unfold riemann_mhd. destruct H as [<-|[<-|[<-|[]]]]; reflexivity. Qed.

Section Two.
Variables junk junk' : Z * Z * Z -> Z -> ms T.
Hypothesis Hs : slope12 p = true.
Lemma trace2f_junk Q U i j : trace2f p dt junk Q U i j = trace2f p dt junk' Q U i j.
Proof.
  rewrite !trace2f_core. rewrite (slope_junk _ _ _ _ (junk' (i, j, 0) 0) Hs).
  rewrite (slope_junk (Q i j) (Q i (j + 1)) (Q i (j - 1)) (junk (i, j, 0) 1) (junk' (i, j, 0) 1) Hs). reflexivity.
Qed.
Lemma emf2f_junk Q U i j : emf2f p dt junk Q U i j = emf2f p dt junk' Q U i j.
Proof. unfold emf2f. rewrite !(trace2f_junk Q U). reflexivity. Qed.
Hypothesis Hr : mriemann_ok p.
Lemma fluxX2f_junk Q U i j : fluxX2f p dt junk Q U i j = fluxX2f p dt junk' Q U i j.
Proof. unfold fluxX2f. rewrite !(trace2f_junk Q U). apply riemann_junk, Hr. Qed.
Lemma fluxY2f_junk Q U i j : fluxY2f p dt junk Q U i j = fluxY2f p dt junk' Q U i j.
Proof. unfold fluxY2f. rewrite !(trace2f_junk Q U). apply riemann_junk, Hr. Qed.
Lemma mstep2_junk U i j : mstep2 p dt junk U i j = mstep2 p dt junk' U i j.
Proof. unfold mstep2. cbv zeta. rewrite !(fluxX2f_junk (prim2 p U) U), !(fluxY2f_junk (prim2 p U) U), !(emf2f_junk (prim2 p U) U). reflexivity. Qed.
End Two.

(** Shifts. *)
Section Shift.
Variable junk : Z * Z * Z -> Z -> ms T.
Hypothesis Hs : slope12 p = true.
Hypothesis Hr : mriemann_ok p.
Lemma prim2_shift (U : Z -> Z -> ms T) a b i j : prim2 p U (i + a) (j + b) = prim2 p (fun i j => U (i + a) (j + b)) i j.
Proof. clear junk Hs Hr dt.
  unfold prim2. replace (i + a + 1) with (i + 1 + a) by lia. replace (j + b + 1) with (j + 1 + b) by lia. reflexivity.
Qed.
Lemma trace2f_shift Q U a b i j :
  trace2f p dt junk Q U (i + a) (j + b) = trace2f p dt junk (fun i j => Q (i + a) (j + b)) (fun i j => U (i + a) (j + b)) i j.
Proof.
  rewrite (trace2f_junk junk (fun c v => junk (fst (fst c) + a, snd (fst c) + b, snd c) v) Hs (fun i j => Q (i + a) (j + b)) (fun i j => U (i + a) (j + b)) i j).
  unfold trace2f at 2. cbn [fst snd].
  rewrite (trace2_ext2 p dt (fun di dj => Q (i + di + a) (j + dj + b)) (fun di dj => Q (i + a + di) (j + b + dj))
    (fun di dj => bfs (U (i + di + a) (j + dj + b))) (fun di dj => bfs (U (i + a + di) (j + b + dj)))).
  - reflexivity.
  - intros d e _ _. f_equal; lia.
  - intros d e _ _. f_equal. f_equal; lia.
Qed.
Lemma flux2f_shift Q U a b i j :
  fluxX2f p dt junk Q U (i + a) (j + b) = fluxX2f p dt junk (fun i j => Q (i + a) (j + b)) (fun i j => U (i + a) (j + b)) i j /\
  fluxY2f p dt junk Q U (i + a) (j + b) = fluxY2f p dt junk (fun i j => Q (i + a) (j + b)) (fun i j => U (i + a) (j + b)) i j /\
  emf2f p dt junk Q U (i + a) (j + b) = emf2f p dt junk (fun i j => Q (i + a) (j + b)) (fun i j => U (i + a) (j + b)) i j.
Proof.
  unfold fluxX2f, fluxY2f, emf2f.
  replace (i + a - 1) with (i - 1 + a) by lia. replace (j + b - 1) with (j - 1 + b) by lia.
  rewrite !(trace2f_shift Q U). split; [apply riemann_junk, Hr|split; [apply riemann_junk, Hr|reflexivity]].
Qed.
End Shift.
End J.

Section D2.
Variable p : mparams R.
Variable g : grid.
Variable dt : R.
Variable junk : Z * Z * Z -> Z -> ms R.
Local Notation Dx := (dtdx (mh p) dt).
Local Notation Dy := (dtdy (mh p) dt).

(** Every variant of the step is the step function. *)
Lemma mgodunov2_spec impl aIn aOut (s s' : store R) : variant_ok2 p impl -> arr_ok aIn aOut -> mhd_grid2 g ->
  run_kernels (mgodunov2 p g dt junk impl aIn aOut) s s' ->
  (forall i j, inside2 g i j -> m2 s' aOut i j = mstep2 p dt junk (mfill2 g s aIn) i j) /\
  (forall i j v, 0 <= i < isize g -> 0 <= j < jsize g -> 0 <= v < 8 ->
     s' (Loc aIn i j 0 v) = filled2d true g (fun i j v => s (Loc aIn i j 0 v)) i j v) /\
  (forall l, ~ mscratch2 aOut l -> la l <> aIn -> s' l = s l).
Proof.
  intros Hi Ha Hg Hk. pose proof Hg as (G1 & _). apply (mgodunov2_gen p g dt junk impl); auto.
  destruct Hi as [->|[->| (-> & Hs & Hr)]].
  - intros s0 s1 H01. destruct (mscheme2_0 p g dt junk aIn aOut s0 s1 Ha ltac:(lia) H01) as (A1 & _ & A3). auto.
  - apply mscheme2_1; auto. lia.
  - apply mscheme2_2; auto; [lia|apply mslope_ok_12; auto].
Qed.

Local Open Scope R_scope.

(** Divergence. *)
Lemma mstep2_A U i j : mA (mstep2 p dt junk U i j) = mA (U i j) +
  (emf2f p dt junk (prim2 p U) U i (j + 1) - emf2f p dt junk (prim2 p U) U i j) * Dy.
Proof. reflexivity. Qed.
Lemma mstep2_B U i j : mB (mstep2 p dt junk U i j) = mB (U i j) -
  (emf2f p dt junk (prim2 p U) U (i + 1) j - emf2f p dt junk (prim2 p U) U i j) * Dx.
Proof. reflexivity. Qed.

Lemma div2_step U V i j : V i j = mstep2 p dt junk U i j ->
  mA (V (i + 1)%Z j) = mA (mstep2 p dt junk U (i + 1) j) -> mB (V i (j + 1)%Z) = mB (mstep2 p dt junk U i (j + 1)) ->
  div2 (mh p) V i j = div2 (mh p) U i j.
Proof.
  intros E1 E2 E3. unfold div2. rewrite E1, E2, E3, !mstep2_A, !mstep2_B. cbn [add sub div RArith]. unfold dtdx, dtdy. cbn [div RArith].
  unfold Rdiv. ring.
Qed.

Lemma mfill2_inside (s : store R) a i j : inside2 g i j -> mfill2 g s a i j = m2 s a i j.
Proof. clear. intros [H1 H2]. unfold mfill2. rewrite !filled2d_interior by auto. reflexivity. Qed.

Lemma along_periodic_m dir n q v x : along (A:=RArith) true dir Periodic Periodic n q v x = x.
Proof.
  unfold along, reflected. destruct (is_ghost n q); auto.
  assert (E : match (if (q <? 0)%Z then Some Periodic else if (n <=? q)%Z then Some Periodic else None) with
    | Some Reflecting => true | _ => false end = false) by (destruct (q <? 0)%Z, (n <=? q)%Z; reflexivity).
  rewrite E. cbn. lra.
Qed.
Lemma mfill2_px (s : store R) a i j : all_periodic g -> (- nx g <= i - gw g < nx g)%Z ->
  mfill2 g s a (i + nx g) j = mfill2 g s a i j.
Proof. clear.
  intros Hp Hi. destruct (periodic_kinds g Hp) as (E1 & E2 & E3 & E4 & _).
  unfold mfill2, filled2d. cbv zeta. rewrite E1, E2, E3, E4, !along_periodic_m.
  replace (i + nx g - gw g)%Z with (i - gw g + nx g)%Z by lia. rewrite image_periodic by auto. reflexivity.
Qed.
Lemma mfill2_py (s : store R) a i j : all_periodic g -> (- ny g <= j - gw g < ny g)%Z ->
  mfill2 g s a i (j + ny g) = mfill2 g s a i j.
Proof. clear.
  intros Hp Hi. destruct (periodic_kinds g Hp) as (E1 & E2 & E3 & E4 & _).
  unfold mfill2, filled2d. cbv zeta. rewrite E1, E2, E3, E4, !along_periodic_m.
  replace (j + ny g - gw g)%Z with (j - gw g + ny g)%Z by lia. rewrite image_periodic by auto. reflexivity.
Qed.

(** Fluxes and electromotive forces on opposite sides of a periodic box agree. *)
Lemma periodic2 (s : store R) a : mhd_grid2 g -> all_periodic g -> mslope_ok p -> mriemann_ok p ->
  let U := mfill2 g s a in let Q := prim2 p U in
  (forall i j, (gw g <= i <= gw g + nx g)%Z -> (gw g <= j <= gw g + ny g)%Z ->
     (i = gw g ->
     fluxX2f p dt junk Q U (gw g + nx g) j = fluxX2f p dt junk Q U (gw g) j /\
     emf2f p dt junk Q U (gw g + nx g) j = emf2f p dt junk Q U (gw g) j) /\
     (j = gw g ->
     fluxY2f p dt junk Q U i (gw g + ny g) = fluxY2f p dt junk Q U i (gw g) /\
     emf2f p dt junk Q U i (gw g + ny g) = emf2f p dt junk Q U i (gw g))).
Proof.
  intros (G1 & G2 & G3 & G4) Hp Hs Hr U Q i j Hi Hj. apply mslope_ok_12 in Hs. split.
  - intros _. destruct (flux2f_shift p dt junk Hs Hr Q U (nx g) 0 (gw g) j) as (S1 & _ & S3).
    rewrite Z.add_0_r in S1, S3. rewrite S1, S3.
    destruct (flux2f_ext p dt junk (fun i j => Q (i + nx g) (j + 0))%Z Q (fun i j => U (i + nx g) (j + 0))%Z U (gw g) j) as (X1 & _ & X3); auto.
    + intros a' b' Ha Hb. unfold Q. rewrite prim2_shift.
      unfold prim2. rewrite !Z.add_0_r. unfold U. rewrite !mfill2_px by (auto; lia). reflexivity.
    + intros a' b' Ha Hb. rewrite !Z.add_0_r. unfold U. rewrite !mfill2_px by (auto; lia). reflexivity.
  - intros _. destruct (flux2f_shift p dt junk Hs Hr Q U 0 (ny g) i (gw g)) as (_ & S1 & S3).
    rewrite Z.add_0_r in S1, S3. rewrite S1, S3.
    destruct (flux2f_ext p dt junk (fun i j => Q (i + 0) (j + ny g))%Z Q (fun i j => U (i + 0) (j + ny g))%Z U i (gw g)) as (_ & X1 & X3); auto.
    + intros a' b' Ha Hb. unfold Q. rewrite prim2_shift.
      unfold prim2. rewrite !Z.add_0_r. unfold U. rewrite !mfill2_py by (auto; lia). reflexivity.
    + intros a' b' Ha Hb. rewrite !Z.add_0_r. unfold U. rewrite !mfill2_py by (auto; lia). reflexivity.
Qed.

Theorem div_interior2 impl aIn aOut (s s' : store R) i j :
  variant_ok2 p impl -> arr_ok aIn aOut -> mhd_grid2 g ->
  run_kernels (mgodunov2 p g dt junk impl aIn aOut) s s' ->
  inside2 g i j -> inside2 g (i + 1) j -> inside2 g i (j + 1) ->
  div2 (mh p) (m2 s' aOut) i j = div2 (mh p) (m2 s aIn) i j.
Proof.
  intros Hi Ha Hg Hk I1 I2 I3.
  destruct (mgodunov2_spec impl aIn aOut s s' Hi Ha Hg Hk) as (K & _).
  transitivity (div2 (mh p) (mfill2 g s aIn) i j).
  - apply div2_step; [apply K; auto|rewrite K; auto|rewrite K; auto].
  - unfold div2. rewrite !mfill2_inside by auto. reflexivity.
Qed.

Theorem div_periodic2 impl aIn aOut (s s' : store R) i j :
  variant_ok2 p impl -> arr_ok aIn aOut -> mhd_grid2 g -> all_periodic g -> mslope_ok p -> mriemann_ok p ->
  run_kernels (mgodunov2 p g dt junk impl aIn aOut) s s' -> inside2 g i j ->
  div2 (mh p) (mfill2 g s' aOut) i j = div2 (mh p) (mfill2 g s aIn) i j.
Proof.
  intros Hi Ha Hg Hp Hs Hr Hk I1. pose proof Hg as (G1 & G2 & G3 & G4).
  destruct (mgodunov2_spec impl aIn aOut s s' Hi Ha Hg Hk) as (K & _).
  destruct I1 as [Ix Iy]. pose proof (periodic2 s aIn Hg Hp Hs Hr) as P. cbv zeta in P.
  apply div2_step.
  - rewrite mfill2_inside by (split; auto). apply K; split; auto.
  - destruct (Z.eq_dec (i + 1) (gw g + nx g)) as [E|N].
    + rewrite E. replace (gw g + nx g)%Z with (gw g + nx g)%Z by lia. rewrite mfill2_px by (auto; lia).
      rewrite mfill2_inside, K by (split; lia). rewrite !mstep2_A.
      rewrite (mfill2_px s aIn (gw g) j Hp) by lia.
      rewrite (proj2 (proj1 (P (gw g) j ltac:(lia) ltac:(lia)) eq_refl)), (proj2 (proj1 (P (gw g) (j + 1)%Z ltac:(lia) ltac:(lia)) eq_refl)).
      reflexivity.
    + rewrite mfill2_inside, K by (split; lia). reflexivity.
  - destruct (Z.eq_dec (j + 1) (gw g + ny g)) as [E|N].
    + rewrite E. rewrite mfill2_py by (auto; lia).
      rewrite mfill2_inside, K by (split; lia). rewrite !mstep2_B.
      rewrite (mfill2_py s aIn i (gw g) Hp) by lia.
      rewrite (proj2 (proj2 (P i (gw g) ltac:(lia) ltac:(lia)) eq_refl)), (proj2 (proj2 (P (i + 1)%Z (gw g) ltac:(lia) ltac:(lia)) eq_refl)).
      reflexivity.
    + rewrite mfill2_inside, K by (split; lia). reflexivity.
Qed.

(** Conservation. *)
Definition mnet2 (U : Z -> Z -> ms R) (v : Z) : R :=
  sumZ (gw g) (gw g + ny g) (fun j => (mget (fluxX2f p dt junk (prim2 p U) U (gw g) j) v
                                    - mget (fluxX2f p dt junk (prim2 p U) U (gw g + nx g) j) v) * Dx)
  + sumZ (gw g) (gw g + nx g) (fun i => (mget (mswapY (fluxY2f p dt junk (prim2 p U) U i (gw g))) v
                                    - mget (mswapY (fluxY2f p dt junk (prim2 p U) U i (gw g + ny g))) v) * Dy).

Lemma mstep2_get U i j v : cell_centred2 v ->
  mget (mstep2 p dt junk U i j) v = mget (U i j) v
   + (mget (fluxX2f p dt junk (prim2 p U) U i j) v * Dx - mget (fluxX2f p dt junk (prim2 p U) U (i + 1) j) v * Dx)
   + (mget (mswapY (fluxY2f p dt junk (prim2 p U) U i j)) v * Dy - mget (mswapY (fluxY2f p dt junk (prim2 p U) U i (j + 1))) v * Dy).
Proof.
  intros Hv. unfold mstep2. cbv zeta.
  generalize (fluxX2f p dt junk (prim2 p U) U i j) (fluxX2f p dt junk (prim2 p U) U (i + 1) j)
   (fluxY2f p dt junk (prim2 p U) U i j) (fluxY2f p dt junk (prim2 p U) U i (j + 1))
   (emf2f p dt junk (prim2 p U) U i j) (emf2f p dt junk (prim2 p U) U (i + 1) j) (emf2f p dt junk (prim2 p U) U i (j + 1)) (U i j).
  intros. unfold cell_centred2 in Hv.
  assert (C : (v = 0 \/ v = 1 \/ v = 2 \/ v = 3 \/ v = 4 \/ v = 7)%Z) by lia.
  destruct C as [->|[->|[->|[->|[->| ->]]]]]; cbn; lra.
Qed.

Theorem mbalance2 impl aIn aOut (s s' : store R) v :
  variant_ok2 p impl -> arr_ok aIn aOut -> mhd_grid2 g -> cell_centred2 v ->
  run_kernels (mgodunov2 p g dt junk impl aIn aOut) s s' ->
  total2 g s' aOut v = total2 g s aIn v + mnet2 (mfill2 g s aIn) v.
Proof.
  intros Hi Ha Hg Hv Hk. pose proof Hg as (G1 & G2 & G3 & G4).
  destruct (mgodunov2_spec impl aIn aOut s s' Hi Ha Hg Hk) as (K & _).
  assert (Hv8 : (0 <= v < 8)%Z) by (clear - Hv; unfold cell_centred2 in Hv; lia).
  unfold total2 at 1.
  set (U := mfill2 g s aIn) in *. set (X := fluxX2f p dt junk (prim2 p U) U).
  set (Y := fun i j => mswapY (fluxY2f p dt junk (prim2 p U) U i j)).
  rewrite (sumZ_ext _ _ _ (fun i => sumZ (gw g) (gw g + ny g) (fun j => mget (U i j) v)
      + sumZ (gw g) (gw g + ny g) (fun j => mget (X i j) v * Dx - mget (X (i + 1)%Z j) v * Dx)
      + sumZ (gw g) (gw g + ny g) (fun j => mget (Y i j) v * Dy - mget (Y i (j + 1)%Z) v * Dy))).
  2:{ intros i Hi'. rewrite <- !sumZ_add. apply sumZ_ext. intros j Hj'.
      rewrite (m2_val s' _ _ _ _ Hv8), K, mstep2_get by (auto; split; lia). unfold X, Y. lra. }
  rewrite !sumZ_add.
  replace (sumZ (gw g) (gw g + nx g) (fun i => sumZ (gw g) (gw g + ny g) (fun j => mget (U i j) v))) with (total2 g s aIn v).
  2:{ unfold total2. apply sumZ_ext. intros i Hi'. apply sumZ_ext. intros j Hj'. unfold U.
      rewrite mfill2_inside by (split; lia). apply m2_val, Hv8. }
  rewrite (sumZ_swap _ _ _ _ (fun i j => mget (X i j) v * Dx - mget (X (i + 1)%Z j) v * Dx)).
  unfold mnet2. fold X. rewrite Rplus_assoc. f_equal. f_equal.
  - apply sumZ_ext. intros j Hj. rewrite (sumZ_tele _ _ (fun i => mget (X i j) v * Dx)) by lia. unfold X. lra.
  - apply sumZ_ext. intros i Hi'. rewrite (sumZ_tele _ _ (fun j => mget (Y i j) v * Dy)) by lia. unfold Y. lra.
Qed.

Theorem mconserve2 impl aIn aOut (s s' : store R) v :
  variant_ok2 p impl -> arr_ok aIn aOut -> mhd_grid2 g -> all_periodic g -> mslope_ok p -> mriemann_ok p -> cell_centred2 v ->
  run_kernels (mgodunov2 p g dt junk impl aIn aOut) s s' ->
  total2 g s' aOut v = total2 g s aIn v.
Proof.
  intros Hi Ha Hg Hp Hs Hr Hv Hk. rewrite (mbalance2 impl aIn aOut s s' v) by auto.
  pose proof (periodic2 s aIn Hg Hp Hs Hr) as P. cbv zeta in P. pose proof Hg as (G1 & G2 & G3 & G4).
  unfold mnet2. rewrite (sumZ_zero (gw g) (gw g + ny g)), (sumZ_zero (gw g) (gw g + nx g)); [lra| |].
  - intros i Hi'. rewrite (proj1 (proj2 (P i (gw g) ltac:(lia) ltac:(lia)) eq_refl)). lra.
  - intros j Hj'. rewrite (proj1 (proj1 (P (gw g) j ltac:(lia) ltac:(lia)) eq_refl)). lra.
Qed.
End D2.
