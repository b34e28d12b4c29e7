(** The flux arrays kept by implementation version 0 are the fluxes that the
    update uses, so the balance can be read off the final memory. *)
From Coq Require Import ZArith List Bool Reals Lia Lra.
From Verif Require Import Arith Par ParProofs GridModel BoundaryModel BoundarySpec BoundaryProofs
  HydroState RiemannModel HydroPoint HydroKernels CellKernels HydroField HydroExec HydroSpec HydroProofs2 HydroStep2
  HydroProofs3 HydroStep3 HydroSums HydroConserve.
Import ListNotations.
Open Scope Z_scope.

(** ** The flux arrays of version 0 hold the face fluxes *)
Section FluxArrays.
Context {T : Type} {A : Arith T}.
Variable p : hparams T.
Variable g : grid.
Variable dt : T.
Variable junk : Z * Z * Z -> Z -> hs T.

Lemma flux_arrays2 aIn aOut (s s' : store T) :
  arr_ok aIn aOut -> hydro_grid2 g -> slope_ok p -> riemann_ok2 p ->
  run_kernels (godunov2 p g dt false junk 0 aIn aOut) s s' ->
  forall i j, faces2 g i j = true ->
  st2 s' aFx i j = w0 (fluxX2 p dt false (fun i j => snd (computePrimitives2 p (fst2 g s aIn i j))) (gr2 s) i j) /\
  st2 s' aFy i j = w0 (fluxY2 p dt false (fun i j => snd (computePrimitives2 p (fst2 g s aIn i j))) (gr2 s) i j).
Proof.
  intros Ha Hg Hs Hr Hk i j Hf. pose proof Hg as (G1 & G2 & G3 & G4).
  unfold godunov2, scheme2 in Hk. cbn [Z.eqb] in Hk. apply run_kernels_app in Hk. destruct Hk as (s1 & Hb & Hk).
  apply rk_inv in Hk. destruct Hk as (s2 & Hc & Hk).
  apply rk_inv in Hk. destruct Hk as (s3 & Hq & Hk). cbn [app] in Hk.
  apply rk_inv in Hk. destruct Hk as (s4 & Hfl & Hk).
  apply rk_inv in Hk. destruct Hk as (s5 & Hu & Hk). apply rk_nil_inv in Hk. subst s5.
  assert (Hok : grid_ok2d g) by (clear - G1 G2 G3 G4; unfold grid_ok2d; lia).
  destruct (fill2_spec false g aIn s s1 Hok Hb) as [B1 B2].
  assert (Hne : aOut <> aIn /\ aIn <> aQ /\ aOut <> aFx /\ aOut <> aFy) by (clear - Ha; arrays; lia).
  destruct Hne as (N1 & N2 & N3 & N4).
  destruct (deep_copy_spec g (cells2 g) aOut aIn s1 s2 (NoDup_cells2 g) N1 Hc) as [D1 D2].
  destruct (convert2_spec p g aIn s2 s3 N2 Hq) as [C1 C2].
  assert (Hg1 : 0 < gw g) by lia.
  destruct (fluxes2_spec p g dt false junk s3 s4 (slope_ok_spec p Hs) (riemann_ok2_spec p Hr) Hfl Hg1) as [F1 F2].
  destruct (update2_spec g aOut s4 s' N3 N4 Hg1 Hu) as (U1 & U2 & U3).
  rewrite (st2_frame s4 s' aFx), (st2_frame s4 s' aFy) by (intros l Hl; apply U3; congruence).
  destruct (F1 i j Hf) as [-> ->].
  assert (SI : forall i j, 0 <= i < isize g -> 0 <= j < jsize g -> st2 s2 aIn i j = fst2 g s aIn i j).
  { intros i' j' Hi Hj. unfold st2, fst2. rewrite !D2 by (cbn [la]; intros [H _]; congruence).
    rewrite !B1 by (clear - Hi Hj G2; unfold isize, jsize, imax, imin, jmax, jmin, ID, IP, IU, IV in *; lia). reflexivity. }
  assert (SG : forall i j d, gr2 s3 i j d = gr2 s i j d).
  { intros i' j' d. unfold gr2. rewrite C2, D2, B2; auto; unfold alloc2d; cbn [la]; try discriminate;
    intros [H _]; clear - H Ha; arrays; lia. }
  apply faces2_spec in Hf.
  split; f_equal.
  - rewrite (fluxX2_ext p dt false (st2 s3 aQ) (fun i j => snd (computePrimitives2 p (fst2 g s aIn i j))) (gr2 s3) (gr2 s)); auto.
    intros i' j' Hn. unfold near in Hn. rewrite C1, SI by lia. reflexivity.
  - rewrite (fluxY2_ext p dt false (st2 s3 aQ) (fun i j => snd (computePrimitives2 p (fst2 g s aIn i j))) (gr2 s3) (gr2 s)); auto.
    intros i' j' Hn. unfold near in Hn. rewrite C1, SI by lia. reflexivity.
Qed.

Lemma flux_arrays3 aIn aOut (s s' : store T) :
  arr_ok aIn aOut -> hydro_grid3 g -> slope_ok p -> riemann_ok3 p ->
  run_kernels (godunov3 p g dt false junk 0 aIn aOut) s s' ->
  forall i j k, faces3 g i j k = true ->
  let Q := fun i j k => snd (computePrimitives3 p (fst3 g s aIn i j k)) in
  st3 s' aFx i j k = fluxX3 p dt false Q (gr3 s) i j k /\
  st3 s' aFy i j k = fluxY3 p dt false Q (gr3 s) i j k /\
  st3 s' aFz i j k = fluxZ3 p dt false Q (gr3 s) i j k.
Proof.
  intros Ha Hg Hs Hr Hk i j k Hf Q. pose proof Hg as (G1 & G2 & G3 & G4 & G5).
  unfold godunov3, scheme3 in Hk. cbn [Z.eqb] in Hk. apply run_kernels_app in Hk. destruct Hk as (s1 & Hb & Hk).
  apply rk_inv in Hk. destruct Hk as (s2 & Hc & Hk).
  apply rk_inv in Hk. destruct Hk as (s3 & Hq & Hk). cbn [app] in Hk.
  apply rk_inv in Hk. destruct Hk as (s4 & Hfl & Hk).
  apply rk_inv in Hk. destruct Hk as (s5 & Hu & Hk). apply rk_nil_inv in Hk. subst s5.
  assert (Hok : grid_ok3d g) by (clear - G1 G2 G3 G4 G5; unfold grid_ok3d, grid_ok2d; lia).
  destruct (fill3_spec false g aIn s s1 Hok Hb) as [B1 B2].
  assert (Hne : aOut <> aIn /\ aIn <> aQ /\ aOut <> aFx /\ aOut <> aFy /\ aOut <> aFz) by (clear - Ha; arrays; lia).
  destruct Hne as (N1 & N2 & N3 & N4 & N5).
  destruct (deep_copy_spec g (cells3 g) aOut aIn s1 s2 (NoDup_cells3 g) N1 Hc) as [D1 D2].
  destruct (convert3_spec p g aIn s2 s3 N2 Hq) as [C1 C2].
  assert (Hg1 : 0 < gw g) by lia.
  destruct (fluxes3_spec p g dt false junk s3 s4 (slope_ok_spec p Hs) (riemann_ok3_spec p Hr) Hfl Hg1) as [F1 F2].
  destruct (update3_spec g aOut s4 s' N3 N4 N5 Hg1 Hu) as (U1 & U2 & U3).
  rewrite (st3_frame s4 s' aFx), (st3_frame s4 s' aFy), (st3_frame s4 s' aFz) by (intros l Hl; apply U3; congruence).
  destruct (F1 i j k Hf) as (-> & -> & ->).
  assert (SI : forall i j k, 0 <= i < isize g -> 0 <= j < jsize g -> 0 <= k < ksize g -> st3 s2 aIn i j k = fst3 g s aIn i j k).
  { intros i' j' k' Hi Hj Hk. unfold st3, fst3. rewrite !D2 by (cbn [la]; intros [H _]; congruence).
    rewrite !B1 by (clear - Hi Hj Hk G2; unfold isize, jsize, ksize, imax, imin, jmax, jmin, kmin, kmax, ID, IP, IU, IV, IW in *; lia).
    reflexivity. }
  assert (SG : forall i j k d, gr3 s3 i j k d = gr3 s i j k d).
  { intros i' j' k' d. unfold gr3. rewrite C2, D2, B2; auto; unfold alloc3d; cbn [la]; try discriminate;
    intros [H _]; clear - H Ha; arrays; lia. }
  apply faces3_spec in Hf.
  assert (HQ : forall i' j' k', near3 i j k 2 i' j' k' -> i' <= i + 1 -> j' <= j + 1 -> k' <= k + 1 -> st3 s3 aQ i' j' k' = Q i' j' k').
  { intros i' j' k' Hn L1 L2 L3. unfold near3 in Hn. unfold Q. rewrite C1, SI by lia. reflexivity. }
  split; [|split].
  - rewrite (fluxX3_ext p dt false (st3 s3 aQ) Q (gr3 s3) (gr3 s)); auto.
    intros i' j' k' Hn. apply HQ; unfold near3 in *; lia.
  - rewrite (fluxY3_ext p dt false (st3 s3 aQ) Q (gr3 s3) (gr3 s)); auto.
    intros i' j' k' Hn. apply HQ; unfold near3 in *; lia.
  - change (fluxZ3 p dt false) with (zfx p dt false 0).
    rewrite (zfx_ext p dt false 0 (st3 s3 aQ) Q (gr3 s3) (gr3 s)); auto.
    intros i' j' k' Hn. apply HQ; unfold near3 in *; lia.
Qed.
End FluxArrays.

Section Net.
Open Scope R_scope.
Variable p : hparams R.
Variable g : grid.
Variable dt : R.

Theorem flux_balance2 junk aIn aOut (s s' : store R) v :
  arr_ok aIn aOut -> hydro_grid2 g -> slope_ok p -> riemann_ok2 p -> (0 <= v < 4)%Z ->
  run_kernels (godunov2 p g dt false junk 0 aIn aOut) s s' ->
  total2 g s' aOut v = total2 g s aIn v
    + sumZ (gw g) (gw g + ny g) (fun j => s' (Loc aFx (gw g) j 0 v) - s' (Loc aFx (gw g + nx g) j 0 v))
    + sumZ (gw g) (gw g + nx g) (fun i => s' (Loc aFy i (gw g) 0 v) - s' (Loc aFy i (gw g + ny g) 0 v)).
Proof.
  intros Ha Hg Hs Hr Hv Hk.
  rewrite (balance2 p g dt junk 0 aIn aOut s s' v) by auto. rewrite Rplus_assoc. f_equal. unfold net2.
  pose proof Hg as (G1 & G2 & G3 & G4).
  assert (H := flux_arrays2 p g dt junk aIn aOut s s' Ha Hg Hs Hr Hk).
  assert (F : forall i j, faces2 g i j = true ->
    s' (Loc aFx i j 0 v) = comp (fluxX2 p dt false (prim2 p (fst2 g s aIn)) (gr2 s) i j) v /\
    s' (Loc aFy i j 0 v) = comp (fluxY2 p dt false (prim2 p (fst2 g s aIn)) (gr2 s) i j) v).
  { intros i j Hf. destruct (H i j Hf) as [E1 E2]. rewrite <- !comp_st2 by auto. rewrite E1, E2, !comp_w0 by auto. split; reflexivity. }
  f_equal; apply sumZ_ext; intros x Hx; f_equal; symmetry; apply F; apply faces2_spec;
    unfold isize, jsize, imax, imin, jmax, jmin; lia.
Qed.
Theorem flux_balance3 junk aIn aOut (s s' : store R) v :
  arr_ok aIn aOut -> hydro_grid3 g -> slope_ok p -> riemann_ok3 p -> (0 <= v < 5)%Z ->
  run_kernels (godunov3 p g dt false junk 0 aIn aOut) s s' ->
  total3 g s' aOut v = total3 g s aIn v
    + (sumZ (gw g) (gw g + ny g) (fun j => sumZ (gw g) (gw g + nz g) (fun k =>
         s' (Loc aFx (gw g) j k v) - s' (Loc aFx (gw g + nx g) j k v)))
    + sumZ (gw g) (gw g + nx g) (fun i => sumZ (gw g) (gw g + nz g) (fun k =>
         s' (Loc aFy i (gw g) k v) - s' (Loc aFy i (gw g + ny g) k v)))
    + sumZ (gw g) (gw g + nx g) (fun i => sumZ (gw g) (gw g + ny g) (fun j =>
         s' (Loc aFz i j (gw g) v) - s' (Loc aFz i j (gw g + nz g) v)))).
Proof.
  intros Ha Hg Hs Hr Hv Hk.
  rewrite (balance3 p g dt junk 0 aIn aOut s s' v) by auto. f_equal. unfold net3.
  pose proof Hg as (G1 & G2 & G3 & G4 & G5).
  assert (H := flux_arrays3 p g dt junk aIn aOut s s' Ha Hg Hs Hr Hk).
  assert (F : forall i j k, faces3 g i j k = true ->
    s' (Loc aFx i j k v) = comp (fluxX3 p dt false (prim3 p (fst3 g s aIn)) (gr3 s) i j k) v /\
    s' (Loc aFy i j k v) = comp (fluxY3 p dt false (prim3 p (fst3 g s aIn)) (gr3 s) i j k) v /\
    s' (Loc aFz i j k v) = comp (zfx p dt false 0 (prim3 p (fst3 g s aIn)) (gr3 s) i j k) v).
  { intros i j k Hf. destruct (H i j k Hf) as (E1 & E2 & E3). rewrite <- !comp_st3 by auto. rewrite E1, E2, E3. repeat split; reflexivity. }
  f_equal; [f_equal|]; apply sumZ_ext; intros x Hx; apply sumZ_ext; intros y Hy; f_equal; symmetry; apply F; apply faces3_spec;
    unfold isize, jsize, ksize, imax, imin, jmax, jmin, kmax, kmin; lia.
Qed.
End Net.
