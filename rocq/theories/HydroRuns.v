(** Axis exchange, reflection and walls for whole steps. *)
From Coq Require Import ZArith List Bool Reals Lia Lra.
From Verif Require Import Arith Par ParProofs GridModel BoundaryModel BoundarySpec BoundaryProofs
  HydroState RiemannModel HydroPoint HydroKernels HydroField HydroExec HydroSpec HydroStep2 HydroStep3 HydroSums
  HydroConserve Physics PointProofs RiemannProofs RiemannSelect RiemannMirror SymmetrySpec HydroSymmetry HydroReflect.
Import ListNotations.
Open Scope Z_scope.

(** ** The boundary fill as a product of signs *)
Definition sg (dir : Z) (lo hi : bckind) (n p v : Z) : R :=
  if is_ghost n p && (reflected lo hi n p && flips false dir v) then (-1)%R else 1%R.
Lemma along_sg dir lo hi n p v (x : R) : along false dir lo hi n p v x = (x * sg dir lo hi n p v)%R.
Proof.
  unfold along, sg. destruct (is_ghost n p); cbn [andb]; [|cbn; lra].
  destruct (reflected lo hi n p && flips false dir v); cbn; lra.
Qed.
Lemma image_in lo hi n w p : w <= n -> - w <= p < n + w -> 0 < n -> 0 <= image lo hi n p < n.
Proof.
  intros H1 H2 H3. unfold image. destruct (Z.ltb_spec p 0), (Z.leb_spec n p); destruct lo, hi; lia.
Qed.
Lemma flips_xy d v : 0 <= v < 5 -> flips false d (var_xy v) = flips false (dir_xy d) v \/ ~ (0 <= d < 3).
Proof.
  intros H. destruct (Z_lt_dec d 0); [right; lia|]. destruct (Z_lt_dec d 3); [|right; lia]. left.
  assert (Hd : d = 0 \/ d = 1 \/ d = 2) by lia. apply v5 in H.
  destruct Hd as [->|[->| ->]], H as [->|[->|[->|[->| ->]]]]; reflexivity.
Qed.
Lemma flips_xz d v : 0 <= v < 5 -> flips false d (var_xz v) = flips false (dir_xz d) v \/ ~ (0 <= d < 3).
Proof.
  intros H. destruct (Z_lt_dec d 0); [right; lia|]. destruct (Z_lt_dec d 3); [|right; lia]. left.
  assert (Hd : d = 0 \/ d = 1 \/ d = 2) by lia. apply v5 in H.
  destruct Hd as [->|[->| ->]], H as [->|[->|[->|[->| ->]]]]; reflexivity.
Qed.
Lemma sg_xy d lo hi n p v : 0 <= v < 5 -> 0 <= d < 3 -> sg d lo hi n p (var_xy v) = sg (dir_xy d) lo hi n p v.
Proof. intros H Hd. unfold sg. destruct (flips_xy d v H) as [->|E]; [reflexivity|lia]. Qed.
Lemma sg_xz d lo hi n p v : 0 <= v < 5 -> 0 <= d < 3 -> sg d lo hi n p (var_xz v) = sg (dir_xz d) lo hi n p v.
Proof. intros H Hd. unfold sg. destruct (flips_xz d v H) as [->|E]; [reflexivity|lia]. Qed.

Lemma comp_swapUV (q : hs R) v : 0 <= v < 5 -> comp (swapUV q) v = comp q (var_xy v).
Proof. intros H. apply v5 in H. destruct H as [->|[->|[->|[->| ->]]]]; reflexivity. Qed.
Lemma comp_swapUW (q : hs R) v : 0 <= v < 5 -> comp (swapUW q) v = comp q (var_xz v).
Proof. intros H. apply v5 in H. destruct H as [->|[->|[->|[->| ->]]]]; reflexivity. Qed.
Lemma comp_mirror (q : hs R) v : 0 <= v < 5 -> comp (mirror q) v = sign_mx v 2 (comp q v).
Proof. intros H. apply v5 in H. destruct H as [->|[->|[->|[->| ->]]]]; reflexivity. Qed.
Lemma comp_ext (q q' : hs R) : (forall v, 0 <= v < 5 -> comp q v = comp q' v) -> q = q'.
Proof.
  intros H. destruct q, q'. pose proof (H ID) as H0. pose proof (H IP) as H1. pose proof (H IU) as H2.
  pose proof (H IV) as H3. pose proof (H IW) as H4. cbn in *.
  rewrite H0, H1, H2, H3, H4; unfold ID, IP, IU, IV, IW; try lia. reflexivity.
Qed.
Lemma comp_ext4 (q q' : hs R) : hW q = hW q' -> (forall v, 0 <= v < 4 -> comp q v = comp q' v) -> q = q'.
Proof.
  intros Hw H. apply comp_ext. intros v Hv. destruct (Z.eq_dec v 4) as [->|N]; [exact Hw|apply H; lia].
Qed.
Lemma var_xy_range v : 0 <= v < 4 -> 0 <= var_xy v < 4.
Proof. intros H. apply v4 in H. destruct H as [->|[->|[->| ->]]]; vm_compute; intuition congruence. Qed.
Lemma var_xy_inv v : var_xy (var_xy v) = v.
Proof.
  unfold var_xy. destruct (Z.eqb_spec v 2); [subst; reflexivity|]. destruct (Z.eqb_spec v 3); [subst; reflexivity|].
  destruct (Z.eqb_spec v 2); [lia|]. destruct (Z.eqb_spec v 3); [lia|reflexivity].
Qed.

Lemma step2_ext2 dt ge (q : hparams R) (U U' : Z -> Z -> hs R) G G' i j :
  (forall i' j', near i j 2 i' j' -> U i' j' = U' i' j') ->
  (forall i' j' d, 0 <= d < 2 -> G i' j' d = G' i' j' d) ->
  step2 q dt ge U G i j = step2 q dt ge U' G' i j.
Proof.
  intros HU HG. rewrite (step2_ext q dt ge U U' G G) by auto. clear HU.
  unfold step2, fluxX2, fluxY2, face2. cbv zeta. rewrite !(HG _ _ IX), !(HG _ _ IY) by (unfold IX, IY; lia). reflexivity.
Qed.

Lemma zfx_std dt ge (q : hparams R) impl U G i j k : impl = 0 \/ ge = false ->
  step3 q dt ge (zfx q dt ge impl) U G i j k = step3 q dt ge (fluxZ3 q dt ge) U G i j k.
Proof.
  intros [->|E]; [reflexivity|]. rewrite E. unfold zfx. destruct (impl =? 0); reflexivity.
Qed.
Lemma step3_ext3 dt ge (q : hparams R) (U U' : Z -> Z -> Z -> hs R) G G' i j k :
  (forall i' j' k', near3 i j k 2 i' j' k' -> U i' j' k' = U' i' j' k') ->
  (forall i' j' k' d, 0 <= d < 3 -> G i' j' k' d = G' i' j' k' d) ->
  step3 q dt ge (fluxZ3 q dt ge) U G i j k = step3 q dt ge (fluxZ3 q dt ge) U' G' i j k.
Proof.
  intros HU HG. pose proof (step3_ext q dt ge 0 U U' G G i j k) as E. unfold zfx in E. cbn [Z.eqb] in E.
  rewrite E by auto. clear HU E.
  unfold step3, fluxX3, fluxY3, fluxZ3, face3. cbv zeta.
  rewrite !(HG _ _ _ IX), !(HG _ _ _ IY), !(HG _ _ _ IZ) by (unfold IX, IY, IZ; lia). reflexivity.
Qed.
Lemma step3_nog dt (q : hparams R) U G G' i j k :
  step3 q dt false (fluxZ3 q dt false) U G i j k = step3 q dt false (fluxZ3 q dt false) U G' i j k.
Proof. reflexivity. Qed.

(** ** 2D: exchange of the axes *)
Section Run2.
Variable p : hparams R.
Variable g : grid.
Variable dt : R.
Variable ge : bool.
Hypothesis Hg : hydro_grid2 g.

Lemma fst2_xy a (s t : store R) i j : exchanged_xy2 g a s t -> 0 <= i < isize g -> 0 <= j < jsize g ->
  fst2 (grid_xy g) t a j i = swapUV (fst2 g s a i j).
Proof.
  intros He Hi Hj. destruct Hg as (G1 & G2 & G3 & G4). apply comp_ext4; [reflexivity|]. intros v Hv.
  rewrite comp_swapUV by lia. rewrite !comp_fst2 by (try apply var_xy_range; auto).
  unfold filled2d. cbv zeta. rewrite !along_sg, !sg_xy by lia.
  unfold kx0, kx1, ky0, ky1. cbn [grid_xy bc face_xy nx ny gw].
  change (dir_xy 0) with 1. change (dir_xy 1) with 0.
  fold (kx0 g) (kx1 g) (ky0 g) (ky1 g).
  pose proof (image_in (kx0 g) (kx1 g) (nx g) (gw g) (i - gw g)).
  pose proof (image_in (ky0 g) (ky1 g) (ny g) (gw g) (j - gw g)).
  unfold isize, jsize, imax, imin, jmax, jmin in *.
  rewrite He by (auto; unfold inside2; lia). ring.
Qed.

Lemma gr2_xy (s t : store R) i j d : gravity_xy2 s t -> 0 <= d < 2 -> gr2 t j i d = trG (gr2 s) j i d.
Proof. intros H Hd. unfold gr2, trG. apply H; auto. Qed.

Theorem exchange2 junk junk' impl impl' aIn aOut (s s' t t' : store R) :
  impl = 0 \/ impl = 1 -> impl' = 0 \/ impl' = 1 ->
  arr_ok aIn aOut -> slope_ok p -> riemann_ok2 p ->
  run_kernels (godunov2 p g dt ge junk impl aIn aOut) s s' ->
  run_kernels (godunov2 (par_xy p) (grid_xy g) dt ge junk' impl' aIn aOut) t t' ->
  exchanged_xy2 g aIn s t -> (ge = true -> gravity_xy2 s t) ->
  exchanged_xy2 g aOut s' t'.
Proof.
  intros Hi Hi' Ha Hs Hr Hk Hk' He HG i j v Hin Hv.
  assert (Hg' : hydro_grid2 (grid_xy g)) by (unfold hydro_grid2 in *; cbn; lia).
  destruct (godunov2_spec p g dt ge junk impl aIn aOut s s' Hi Ha Hg (slope_ok_spec p Hs) (riemann_ok2_spec p Hr) Hk) as (K1 & _).
  destruct (godunov2_spec (par_xy p) (grid_xy g) dt ge junk' impl' aIn aOut t t' Hi' Ha Hg'
     (slope_ok_spec p Hs) (riemann_ok2_spec p Hr) Hk') as (K2 & _).
  rewrite <- (comp_st2 t'), <- (comp_st2 s') by (try apply var_xy_range; auto).
  rewrite K1, K2 by (unfold inside2 in *; cbn; lia). rewrite <- comp_swapUV by lia. f_equal.
  rewrite <- step2_xy.
  assert (E : forall i' j', near j i 2 i' j' -> fst2 (grid_xy g) t aIn i' j' = trQ (fst2 g s aIn) i' j').
  { intros i' j' Hn. unfold trQ. apply fst2_xy; auto; clear - Hn Hin Hg; unfold near, inside2, hydro_grid2 in *;
      unfold isize, jsize, imax, imin, jmax, jmin; lia. }
  destruct ge.
  - apply step2_ext2; auto. intros. apply gr2_xy; auto.
  - rewrite (step2_ext _ dt false (fst2 (grid_xy g) t aIn) (trQ (fst2 g s aIn)) (gr2 t) (gr2 t)) by auto. reflexivity.
Qed.

(** ** 2D: reflection along x *)
Lemma image_rev lo hi n q : 0 < n -> image hi lo n (n - 1 - q) = n - 1 - image lo hi n q.
Proof.
  intros Hn. unfold image. destruct (Z.ltb_spec q 0), (Z.leb_spec n q), (Z.ltb_spec (n - 1 - q) 0), (Z.leb_spec n (n - 1 - q));
    destruct lo, hi; lia.
Qed.
Lemma ghost_rev n q : is_ghost n (n - 1 - q) = is_ghost n q.
Proof.
  unfold is_ghost. destruct (Z.ltb_spec q 0), (Z.leb_spec n q), (Z.ltb_spec (n - 1 - q) 0), (Z.leb_spec n (n - 1 - q)); try lia; reflexivity.
Qed.
Lemma refl_rev lo hi n q : 0 < n -> reflected hi lo n (n - 1 - q) = reflected lo hi n q.
Proof.
  intros Hn. unfold reflected. destruct (Z.ltb_spec q 0), (Z.leb_spec n q), (Z.ltb_spec (n - 1 - q) 0), (Z.leb_spec n (n - 1 - q)); try lia; reflexivity.
Qed.
Lemma sg_rev d lo hi n q v : 0 < n -> sg d hi lo n (n - 1 - q) v = sg d lo hi n q v.
Proof. intros Hn. unfold sg. rewrite ghost_rev, refl_rev by auto. reflexivity. Qed.
Lemma sign_mul v w x y : sign_mx v w (x * y)%R = (sign_mx v w x * y)%R.
Proof. unfold sign_mx. destruct (v =? w); ring. Qed.

Lemma fst2_mx a (s t : store R) i j : reflected2 g a s t -> 0 <= i < isize g -> 0 <= j < jsize g ->
  fst2 (grid_mx g) t a (mir g i) j = mirror (fst2 g s a i j).
Proof.
  intros He Hi Hj. destruct Hg as (G1 & G2 & G3 & G4). apply comp_ext4; [reflexivity|]. intros v Hv.
  rewrite comp_mirror by lia. rewrite !comp_fst2 by auto.
  unfold filled2d. cbv zeta. rewrite !along_sg.
  unfold kx0, kx1, ky0, ky1. cbn [grid_mx bc flipx nx ny gw].
  fold (kx0 g) (kx1 g) (ky0 g) (ky1 g).
  replace (mir g i - gw g) with (nx g - 1 - (i - gw g)) by (unfold mir; lia).
  rewrite image_rev, sg_rev by lia. rewrite !sign_mul.
  replace (gw g + (nx g - 1 - image (kx0 g) (kx1 g) (nx g) (i - gw g)))
    with (mir g (gw g + image (kx0 g) (kx1 g) (nx g) (i - gw g))) by (unfold mir; lia).
  pose proof (image_in (kx0 g) (kx1 g) (nx g) (gw g) (i - gw g)).
  pose proof (image_in (ky0 g) (ky1 g) (ny g) (gw g) (j - gw g)).
  unfold isize, jsize, imax, imin, jmax, jmin in *.
  rewrite He by (auto; unfold inside2; lia). reflexivity.
Qed.

Theorem reflect2 junk junk' impl impl' aIn aOut (s s' t t' : store R) :
  impl = 0 \/ impl = 1 -> impl' = 0 \/ impl' = 1 ->
  arr_ok aIn aOut -> slope_ok p -> params_ok p -> symmetric_solver2 p ->
  run_kernels (godunov2 p g dt ge junk impl aIn aOut) s s' ->
  run_kernels (godunov2 p (grid_mx g) dt ge junk' impl' aIn aOut) t t' ->
  reflected2 g aIn s t -> (ge = true -> gravity_mx2 g s t) ->
  reflected2 g aOut s' t'.
Proof.
  intros Hi Hi' Ha Hs Hp Hsym Hk Hk' He HG i j v Hin Hv.
  assert (Hr : riemann_ok2 p) by (unfold riemann_ok2; cbn; destruct Hsym as [->|[->| ->]]; auto).
  assert (Hr' : In (riemann_type p) [RIEMANN_HLL; RIEMANN_HLLC; RIEMANN_LLF]) by (cbn; destruct Hsym as [->|[->| ->]]; auto).
  assert (Hg' : hydro_grid2 (grid_mx g)) by (unfold hydro_grid2 in *; cbn; lia).
  destruct (godunov2_spec p g dt ge junk impl aIn aOut s s' Hi Ha Hg (slope_ok_spec p Hs) (riemann_ok2_spec p Hr) Hk) as (K1 & _).
  destruct (godunov2_spec p (grid_mx g) dt ge junk' impl' aIn aOut t t' Hi' Ha Hg'
     (slope_ok_spec p Hs) (riemann_ok2_spec p Hr) Hk') as (K2 & _).
  rewrite <- (comp_st2 t'), <- (comp_st2 s') by auto.
  rewrite K1, K2 by (unfold inside2, mir in *; cbn [grid_mx nx ny nz gw]; lia). rewrite <- comp_mirror by lia. f_equal.
  replace i with ((2 * gw g + nx g - 1) - mir g i) at 2 by (unfold mir; lia).
  rewrite <- (step2_refl p dt ge (2 * gw g + nx g - 1)) by auto.
  assert (E : forall i' j', near (mir g i) j 2 i' j' -> fst2 (grid_mx g) t aIn i' j' = rQ (2 * gw g + nx g - 1) (fst2 g s aIn) i' j').
  { intros i' j' Hn. unfold rQ. fold (mir g i').
    replace i' with (mir g (mir g i')) at 1 by (unfold mir; lia).
    apply fst2_mx; auto; clear - Hn Hin Hg; unfold near, inside2, hydro_grid2, mir in *;
      unfold isize, jsize, imax, imin, jmax, jmin; lia. }
  destruct ge.
  - apply step2_ext2; auto. intros i' j' d Hd. unfold gr2, rG. fold (mir g i').
    specialize (HG eq_refl (mir g i') j' d Hd). replace (mir g (mir g i')) with i' in HG by (unfold mir; lia).
    rewrite HG. unfold sign_mx, IX. reflexivity.
  - rewrite (step2_ext _ dt false (fst2 (grid_mx g) t aIn) (rQ (2 * gw g + nx g - 1) (fst2 g s aIn)) (gr2 t) (gr2 t)) by auto. reflexivity.
Qed.
End Run2.

(** ** 3D *)
Section Run3.
Variable p : hparams R.
Variable g : grid.
Variable dt : R.
Variable ge : bool.
Hypothesis Hg : hydro_grid3 g.

Lemma var5 v : 0 <= v < 5 -> 0 <= var_xy v < 5 /\ 0 <= var_xz v < 5.
Proof. intros H. apply v5 in H. destruct H as [->|[->|[->|[->| ->]]]]; vm_compute; intuition congruence. Qed.

Lemma fst3_xy a (s t : store R) i j k : exchanged_xy3 g a s t -> 0 <= i < isize g -> 0 <= j < jsize g -> 0 <= k < ksize g ->
  fst3 (grid_xy g) t a j i k = swapUV (fst3 g s a i j k).
Proof.
  intros He Hi Hj Hk. destruct Hg as (G1 & G2 & G3 & G4 & G5). apply comp_ext. intros v Hv.
  rewrite comp_swapUV by lia. rewrite !comp_fst3 by (try apply var5; auto).
  unfold filled3d. cbv zeta. rewrite !along_sg, !sg_xy by lia.
  unfold kx0, kx1, ky0, ky1, kz0, kz1. cbn [grid_xy bc face_xy nx ny nz gw].
  change (dir_xy 0) with 1. change (dir_xy 1) with 0. change (dir_xy 2) with 2.
  fold (kx0 g) (kx1 g) (ky0 g) (ky1 g) (kz0 g) (kz1 g).
  pose proof (image_in (kx0 g) (kx1 g) (nx g) (gw g) (i - gw g)).
  pose proof (image_in (ky0 g) (ky1 g) (ny g) (gw g) (j - gw g)).
  pose proof (image_in (kz0 g) (kz1 g) (nz g) (gw g) (k - gw g)).
  unfold isize, jsize, ksize, imax, imin, jmax, jmin, kmax, kmin in *.
  rewrite He by (auto; unfold inside3; lia). ring.
Qed.
Lemma fst3_xz a (s t : store R) i j k : exchanged_xz3 g a s t -> 0 <= i < isize g -> 0 <= j < jsize g -> 0 <= k < ksize g ->
  fst3 (grid_xz g) t a k j i = swapUW (fst3 g s a i j k).
Proof.
  intros He Hi Hj Hk. destruct Hg as (G1 & G2 & G3 & G4 & G5). apply comp_ext. intros v Hv.
  rewrite comp_swapUW by lia. rewrite !comp_fst3 by (try apply var5; auto).
  unfold filled3d. cbv zeta. rewrite !along_sg, !sg_xz by lia.
  unfold kx0, kx1, ky0, ky1, kz0, kz1. cbn [grid_xz bc face_xz nx ny nz gw].
  change (dir_xz 0) with 2. change (dir_xz 1) with 1. change (dir_xz 2) with 0.
  fold (kx0 g) (kx1 g) (ky0 g) (ky1 g) (kz0 g) (kz1 g).
  pose proof (image_in (kx0 g) (kx1 g) (nx g) (gw g) (i - gw g)).
  pose proof (image_in (ky0 g) (ky1 g) (ny g) (gw g) (j - gw g)).
  pose proof (image_in (kz0 g) (kz1 g) (nz g) (gw g) (k - gw g)).
  unfold isize, jsize, ksize, imax, imin, jmax, jmin, kmax, kmin in *.
  rewrite He by (auto; unfold inside3; lia). ring.
Qed.
Lemma fst3_mx a (s t : store R) i j k : reflected3 g a s t -> 0 <= i < isize g -> 0 <= j < jsize g -> 0 <= k < ksize g ->
  fst3 (grid_mx g) t a (mir g i) j k = mirror (fst3 g s a i j k).
Proof.
  intros He Hi Hj Hk. destruct Hg as (G1 & G2 & G3 & G4 & G5). apply comp_ext. intros v Hv.
  rewrite comp_mirror by lia. rewrite !comp_fst3 by auto.
  unfold filled3d. cbv zeta. rewrite !along_sg.
  unfold kx0, kx1, ky0, ky1, kz0, kz1. cbn [grid_mx bc flipx nx ny nz gw].
  fold (kx0 g) (kx1 g) (ky0 g) (ky1 g) (kz0 g) (kz1 g).
  replace (mir g i - gw g) with (nx g - 1 - (i - gw g)) by (unfold mir; lia).
  rewrite image_rev, sg_rev by lia. rewrite !sign_mul.
  replace (gw g + (nx g - 1 - image (kx0 g) (kx1 g) (nx g) (i - gw g)))
    with (mir g (gw g + image (kx0 g) (kx1 g) (nx g) (i - gw g))) by (unfold mir; lia).
  pose proof (image_in (kx0 g) (kx1 g) (nx g) (gw g) (i - gw g)).
  pose proof (image_in (ky0 g) (ky1 g) (ny g) (gw g) (j - gw g)).
  pose proof (image_in (kz0 g) (kz1 g) (nz g) (gw g) (k - gw g)).
  unfold isize, jsize, ksize, imax, imin, jmax, jmin, kmax, kmin in *.
  rewrite He by (auto; unfold inside3; lia). reflexivity.
Qed.

Theorem exchange3 junk junk' impl impl' aIn aOut (s s' t t' : store R) :
  impl = 0 \/ impl = 1 -> impl' = 0 \/ impl' = 1 -> (impl = 0 /\ impl' = 0) \/ ge = false ->
  arr_ok aIn aOut -> slope_ok p -> riemann_ok3 p ->
  run_kernels (godunov3 p g dt ge junk impl aIn aOut) s s' ->
  run_kernels (godunov3 (par_xy p) (grid_xy g) dt ge junk' impl' aIn aOut) t t' ->
  exchanged_xy3 g aIn s t -> (ge = true -> gravity_xy3 s t) ->
  exchanged_xy3 g aOut s' t'.
Proof.
  intros Hi Hi' Hge Ha Hs Hr Hk Hk' He HG i j k v Hin Hv.
  assert (Hg' : hydro_grid3 (grid_xy g)) by (unfold hydro_grid3 in *; cbn; lia).
  destruct (godunov3_spec p g dt ge junk impl aIn aOut s s' Hi Ha Hg (slope_ok_spec p Hs) (riemann_ok3_spec p Hr) Hk) as (K1 & _).
  destruct (godunov3_spec (par_xy p) (grid_xy g) dt ge junk' impl' aIn aOut t t' Hi' Ha Hg'
     (slope_ok_spec p Hs) (riemann_ok3_spec p Hr) Hk') as (K2 & _).
  rewrite <- (comp_st3 t'), <- (comp_st3 s') by (try apply var5; auto).
  rewrite K1, K2 by (unfold inside3 in *; cbn; lia). rewrite <- comp_swapUV by lia. f_equal.
  rewrite !zfx_std by (clear - Hge; intuition). rewrite <- step3_xy.
  assert (E : forall i' j' k', near3 j i k 2 i' j' k' -> fst3 (grid_xy g) t aIn i' j' k' = trQ3 (fst3 g s aIn) i' j' k').
  { intros i' j' k' Hn. unfold trQ3. apply fst3_xy; auto; clear - Hn Hin Hg; unfold near3, inside3, hydro_grid3 in *;
      unfold isize, jsize, ksize, imax, imin, jmax, jmin, kmax, kmin; lia. }
  destruct ge.
  - apply step3_ext3; auto. intros i' j' k' d Hd. unfold gr3, trG3. apply HG; auto.
  - rewrite (step3_nog _ _ _ (gr3 t) (trG3 (gr3 s))). apply step3_ext3; auto.
Qed.

Theorem exchange3z junk junk' impl impl' aIn aOut (s s' t t' : store R) :
  impl = 0 \/ impl = 1 -> impl' = 0 \/ impl' = 1 -> (impl = 0 /\ impl' = 0) \/ ge = false ->
  arr_ok aIn aOut -> slope_ok p -> riemann_ok3 p ->
  run_kernels (godunov3 p g dt ge junk impl aIn aOut) s s' ->
  run_kernels (godunov3 (par_xz p) (grid_xz g) dt ge junk' impl' aIn aOut) t t' ->
  exchanged_xz3 g aIn s t -> (ge = true -> gravity_xz3 s t) ->
  exchanged_xz3 g aOut s' t'.
Proof.
  intros Hi Hi' Hge Ha Hs Hr Hk Hk' He HG i j k v Hin Hv.
  assert (Hg' : hydro_grid3 (grid_xz g)) by (unfold hydro_grid3 in *; cbn; lia).
  destruct (godunov3_spec p g dt ge junk impl aIn aOut s s' Hi Ha Hg (slope_ok_spec p Hs) (riemann_ok3_spec p Hr) Hk) as (K1 & _).
  destruct (godunov3_spec (par_xz p) (grid_xz g) dt ge junk' impl' aIn aOut t t' Hi' Ha Hg'
     (slope_ok_spec p Hs) (riemann_ok3_spec p Hr) Hk') as (K2 & _).
  rewrite <- (comp_st3 t'), <- (comp_st3 s') by (try apply var5; auto).
  rewrite K1, K2 by (unfold inside3 in *; cbn; lia). rewrite <- comp_swapUW by lia. f_equal.
  rewrite !zfx_std by (clear - Hge; intuition). rewrite <- step3_xz.
  assert (E : forall i' j' k', near3 k j i 2 i' j' k' -> fst3 (grid_xz g) t aIn i' j' k' = trQz (fst3 g s aIn) i' j' k').
  { intros i' j' k' Hn. unfold trQz. apply fst3_xz; auto; clear - Hn Hin Hg; unfold near3, inside3, hydro_grid3 in *;
      unfold isize, jsize, ksize, imax, imin, jmax, jmin, kmax, kmin; lia. }
  destruct ge.
  - apply step3_ext3; auto. intros i' j' k' d Hd. unfold gr3, trGz. apply HG; auto.
  - rewrite (step3_nog _ _ _ (gr3 t) (trGz (gr3 s))). apply step3_ext3; auto.
Qed.

Theorem reflect3 junk junk' impl impl' aIn aOut (s s' t t' : store R) :
  impl = 0 \/ impl = 1 -> impl' = 0 \/ impl' = 1 -> (impl = 0 /\ impl' = 0) \/ ge = false ->
  arr_ok aIn aOut -> slope_ok p -> params_ok p -> symmetric_solver3 p ->
  run_kernels (godunov3 p g dt ge junk impl aIn aOut) s s' ->
  run_kernels (godunov3 p (grid_mx g) dt ge junk' impl' aIn aOut) t t' ->
  reflected3 g aIn s t -> (ge = true -> gravity_mx3 g s t) ->
  reflected3 g aOut s' t'.
Proof.
  intros Hi Hi' Hge Ha Hs Hp Hsym Hk Hk' He HG i j k v Hin Hv.
  assert (Hr : riemann_ok3 p) by (unfold riemann_ok3; cbn; destruct Hsym as [->| ->]; auto).
  assert (Hr' : In (riemann_type p) [RIEMANN_HLLC; RIEMANN_LLF]) by (cbn; destruct Hsym as [->| ->]; auto).
  assert (Hg' : hydro_grid3 (grid_mx g)) by (unfold hydro_grid3 in *; cbn; lia).
  destruct (godunov3_spec p g dt ge junk impl aIn aOut s s' Hi Ha Hg (slope_ok_spec p Hs) (riemann_ok3_spec p Hr) Hk) as (K1 & _).
  destruct (godunov3_spec p (grid_mx g) dt ge junk' impl' aIn aOut t t' Hi' Ha Hg'
     (slope_ok_spec p Hs) (riemann_ok3_spec p Hr) Hk') as (K2 & _).
  rewrite <- (comp_st3 t'), <- (comp_st3 s') by auto.
  rewrite K1, K2 by (unfold inside3, mir in *; cbn [grid_mx nx ny nz gw]; lia). rewrite <- comp_mirror by lia. f_equal.
  rewrite !zfx_std by (clear - Hge; intuition).
  replace i with ((2 * gw g + nx g - 1) - mir g i) at 2 by (unfold mir; lia).
  rewrite <- (step3_refl p dt ge (2 * gw g + nx g - 1)) by auto.
  assert (E : forall i' j' k', near3 (mir g i) j k 2 i' j' k' ->
     fst3 (grid_mx g) t aIn i' j' k' = rQ3 (2 * gw g + nx g - 1) (fst3 g s aIn) i' j' k').
  { intros i' j' k' Hn. unfold rQ3. fold (mir g i').
    replace i' with (mir g (mir g i')) at 1 by (unfold mir; lia).
    apply fst3_mx; auto; clear - Hn Hin Hg; unfold near3, inside3, hydro_grid3, mir in *;
      unfold isize, jsize, ksize, imax, imin, jmax, jmin, kmax, kmin; lia. }
  destruct ge.
  - apply step3_ext3; auto. intros i' j' k' d Hd. unfold gr3, rG3. fold (mir g i').
    specialize (HG eq_refl (mir g i') j' k' d Hd). replace (mir g (mir g i')) with i' in HG by (unfold mir; lia).
    rewrite HG. unfold sign_mx, IX. reflexivity.
  - rewrite (step3_nog _ _ _ (gr3 t) (rG3 (2 * gw g + nx g - 1) (gr3 s))). apply step3_ext3; auto.
Qed.
End Run3.

(** ** Walls *)
Definition tangential (v : Z) : Prop := v = 0 \/ v = 1 \/ v = 3 \/ v = 4.
Lemma self_mirror_comp (f : hs R) v : f = mirror_flux f -> tangential v -> comp f v = 0%R.
Proof. intros H T. apply self_mirror in H. destruct H as (A & B & C & D). destruct T as [->|[->|[->| ->]]]; assumption. Qed.

Lemma wallX2 p dt Q G i0 j v : params_ok p -> In (riemann_type p) [RIEMANN_HLL; RIEMANN_HLLC; RIEMANN_LLF] ->
  (forall i' j', i0 - 2 <= i' <= i0 + 1 -> Q i' j' = mirror (Q (2 * i0 - 1 - i') j')) -> tangential v ->
  comp (fluxX2 p dt false Q G i0 j) v = 0%R.
Proof.
  intros Hp Hr HQ Hv. apply self_mirror_comp; auto.
  replace i0 with (2 * i0 - 1 - i0 + 1) at 2 by lia.
  rewrite <- (fluxX2_refl p dt false (2 * i0 - 1)) by auto.
  transitivity (fluxX2 p dt false (rQ (2 * i0 - 1) Q) G i0 j); [|reflexivity].
  apply fluxX2_ext; auto. intros i' j' Hn. unfold rQ. apply HQ. unfold near in Hn. lia.
Qed.
Lemma wallX3 p dt Q G i0 j k v : params_ok p -> In (riemann_type p) [RIEMANN_HLLC; RIEMANN_LLF] ->
  (forall i' j' k', i0 - 2 <= i' <= i0 + 1 -> Q i' j' k' = mirror (Q (2 * i0 - 1 - i') j' k')) -> tangential v ->
  comp (fluxX3 p dt false Q G i0 j k) v = 0%R.
Proof.
  intros Hp Hr HQ Hv. apply self_mirror_comp; auto.
  replace i0 with (2 * i0 - 1 - i0 + 1) at 2 by lia.
  rewrite <- (fluxX3_refl p dt false (2 * i0 - 1)) by auto.
  transitivity (fluxX3 p dt false (rQ3 (2 * i0 - 1) Q) G i0 j k); [|reflexivity].
  apply fluxX3_ext; auto. intros i' j' k' Hn. unfold rQ3. apply HQ. unfold near3 in Hn. lia.
Qed.

Lemma wallY2 p dt Q G i j0 v : params_ok p -> In (riemann_type p) [RIEMANN_HLL; RIEMANN_HLLC; RIEMANN_LLF] ->
  (forall i' j', j0 - 2 <= j' <= j0 + 1 -> swapUV (Q i' j') = mirror (swapUV (Q i' (2 * j0 - 1 - j')))) ->
  v = 0 \/ v = 1 \/ v = 2 \/ v = 4 ->
  comp (fluxY2 p dt false Q G i j0) v = 0%R.
Proof.
  intros Hp Hr HQ Hv. rewrite <- (swapUV_inv (fluxY2 _ _ _ _ _ _ _)), <- fluxX2_xy, comp_swapUV by lia.
  apply wallX2; auto.
  - intros i' j' Hn. unfold trQ. apply HQ. lia.
  - unfold tangential. destruct Hv as [->|[->|[->| ->]]]; cbn; auto.
Qed.
Lemma wallY3 p dt Q G i j0 k v : params_ok p -> In (riemann_type p) [RIEMANN_HLLC; RIEMANN_LLF] ->
  (forall i' j' k', j0 - 2 <= j' <= j0 + 1 -> swapUV (Q i' j' k') = mirror (swapUV (Q i' (2 * j0 - 1 - j') k'))) ->
  v = 0 \/ v = 1 \/ v = 2 \/ v = 4 ->
  comp (fluxY3 p dt false Q G i j0 k) v = 0%R.
Proof.
  intros Hp Hr HQ Hv. rewrite <- (swapUV_inv (fluxY3 _ _ _ _ _ _ _ _)), <- fluxX3_xy, comp_swapUV by lia.
  apply wallX3; auto.
  - intros i' j' k' Hn. unfold trQ3. apply HQ. lia.
  - unfold tangential. destruct Hv as [->|[->|[->| ->]]]; cbn; auto.
Qed.
Lemma wallZ3 p dt Q G i j k0 v : params_ok p -> In (riemann_type p) [RIEMANN_HLLC; RIEMANN_LLF] ->
  (forall i' j' k', k0 - 2 <= k' <= k0 + 1 -> swapUW (Q i' j' k') = mirror (swapUW (Q i' j' (2 * k0 - 1 - k')))) ->
  v = 0 \/ v = 1 \/ v = 2 \/ v = 3 ->
  comp (fluxZ3 p dt false Q G i j k0) v = 0%R.
Proof.
  intros Hp Hr HQ Hv. rewrite <- (swapUW_inv (fluxZ3 _ _ _ _ _ _ _ _)), <- fluxX3_xz, comp_swapUW by lia.
  apply wallX3; auto.
  - intros i' j' k' Hn. unfold trQz. apply HQ. lia.
  - unfold tangential. destruct Hv as [->|[->|[->| ->]]]; cbn; auto.
Qed.

(** The filled state is symmetric about a reflecting face. *)
Lemma image_wall_lo hi n w q : w <= n -> - w <= q < w -> image Reflecting hi n (- 1 - q) = image Reflecting hi n q.
Proof.
  intros H1 H2. unfold image.
  destruct (Z.ltb_spec q 0), (Z.leb_spec n q), (Z.ltb_spec (-1 - q) 0), (Z.leb_spec n (-1 - q)); lia.
Qed.
Lemma sg_wall_lo d hi n w q v : w <= n -> - w <= q < w ->
  sg d Reflecting hi n (- 1 - q) v = (if flips false d v then - sg d Reflecting hi n q v else sg d Reflecting hi n q v)%R.
Proof.
  intros H1 H2. unfold sg, is_ghost, reflected.
  destruct (Z.ltb_spec q 0), (Z.leb_spec n q), (Z.ltb_spec (-1 - q) 0), (Z.leb_spec n (-1 - q)); try lia;
    cbn [orb andb]; destruct (flips false d v); try lra; destruct hi; cbn; try lra.
Qed.
Lemma image_wall_hi lo n w q : w <= n -> n - w <= q < n + w -> image lo Reflecting n (2 * n - 1 - q) = image lo Reflecting n q.
Proof.
  intros H1 H2. unfold image.
  destruct (Z.ltb_spec q 0), (Z.leb_spec n q), (Z.ltb_spec (2 * n - 1 - q) 0), (Z.leb_spec n (2 * n - 1 - q)); lia.
Qed.
Lemma sg_wall_hi d lo n w q v : w <= n -> n - w <= q < n + w ->
  sg d lo Reflecting n (2 * n - 1 - q) v = (if flips false d v then - sg d lo Reflecting n q v else sg d lo Reflecting n q v)%R.
Proof.
  intros H1 H2. unfold sg, is_ghost, reflected.
  destruct (Z.ltb_spec q 0), (Z.leb_spec n q), (Z.ltb_spec (2 * n - 1 - q) 0), (Z.leb_spec n (2 * n - 1 - q)); try lia;
    cbn [orb andb]; destruct (flips false d v); try lra; destruct lo; cbn; try lra.
Qed.

Ltac vcase Hv := first [apply v4 in Hv; destruct Hv as [->|[->|[->| ->]]] | apply v5 in Hv; destruct Hv as [->|[->|[->|[->| ->]]]]].

Section Walls2.
Variable g : grid.
Hypothesis Hg : hydro_grid2 g.
Lemma wall2_x0 (s : store R) a i j : kx0 g = Reflecting -> gw g - 2 <= i <= gw g + 1 ->
  fst2 g s a i j = mirror (fst2 g s a (2 * gw g - 1 - i) j).
Proof.
  intros E Hi. destruct Hg as (G1 & G2 & G3 & G4). apply comp_ext4; [reflexivity|]. intros v Hv.
  rewrite comp_mirror by lia. rewrite !comp_fst2 by auto. unfold filled2d. cbv zeta. rewrite !along_sg, E.
  replace (2 * gw g - 1 - i - gw g) with (- 1 - (i - gw g)) by lia.
  rewrite (image_wall_lo _ _ 2), (sg_wall_lo _ _ _ 2) by lia.
  vcase Hv; unfold sign_mx; cbn [Z.eqb Pos.eqb flips ID IP IU IV Z.add Pos.add orb andb]; ring.
Qed.
Lemma wall2_x1 (s : store R) a i j : kx1 g = Reflecting -> gw g + nx g - 2 <= i <= gw g + nx g + 1 ->
  fst2 g s a i j = mirror (fst2 g s a (2 * (gw g + nx g) - 1 - i) j).
Proof.
  intros E Hi. destruct Hg as (G1 & G2 & G3 & G4). apply comp_ext4; [reflexivity|]. intros v Hv.
  rewrite comp_mirror by lia. rewrite !comp_fst2 by auto. unfold filled2d. cbv zeta. rewrite !along_sg, E.
  replace (2 * (gw g + nx g) - 1 - i - gw g) with (2 * nx g - 1 - (i - gw g)) by lia.
  rewrite (image_wall_hi _ _ 2), (sg_wall_hi _ _ _ 2) by lia.
  vcase Hv; unfold sign_mx; cbn [Z.eqb Pos.eqb flips ID IP IU IV Z.add Pos.add orb andb]; ring.
Qed.
Lemma wall2_y0 (s : store R) a i j : ky0 g = Reflecting -> gw g - 2 <= j <= gw g + 1 ->
  swapUV (fst2 g s a i j) = mirror (swapUV (fst2 g s a i (2 * gw g - 1 - j))).
Proof.
  intros E Hi. destruct Hg as (G1 & G2 & G3 & G4). apply comp_ext4; [reflexivity|]. intros v Hv.
  rewrite comp_mirror, !comp_swapUV by lia. rewrite !comp_fst2 by (apply var_xy_range; auto).
  unfold filled2d. cbv zeta. rewrite !along_sg, E.
  replace (2 * gw g - 1 - j - gw g) with (- 1 - (j - gw g)) by lia.
  rewrite (image_wall_lo _ _ 2), (sg_wall_lo _ _ _ 2) by lia.
  vcase Hv; unfold sign_mx; cbn [var_xy Z.eqb Pos.eqb flips ID IP IU IV Z.add Pos.add Pos.succ orb andb]; ring.
Qed.
Lemma wall2_y1 (s : store R) a i j : ky1 g = Reflecting -> gw g + ny g - 2 <= j <= gw g + ny g + 1 ->
  swapUV (fst2 g s a i j) = mirror (swapUV (fst2 g s a i (2 * (gw g + ny g) - 1 - j))).
Proof.
  intros E Hi. destruct Hg as (G1 & G2 & G3 & G4). apply comp_ext4; [reflexivity|]. intros v Hv.
  rewrite comp_mirror, !comp_swapUV by lia. rewrite !comp_fst2 by (apply var_xy_range; auto).
  unfold filled2d. cbv zeta. rewrite !along_sg, E.
  replace (2 * (gw g + ny g) - 1 - j - gw g) with (2 * ny g - 1 - (j - gw g)) by lia.
  rewrite (image_wall_hi _ _ 2), (sg_wall_hi _ _ _ 2) by lia.
  vcase Hv; unfold sign_mx; cbn [var_xy Z.eqb Pos.eqb flips ID IP IU IV Z.add Pos.add Pos.succ orb andb]; ring.
Qed.

Lemma fst2_perx (s : store R) a i j : periodic_dir (kx0 g) (kx1 g) -> - nx g <= i - gw g < nx g ->
  fst2 g s a (i + nx g) j = fst2 g s a i j.
Proof.
  intros [E1 E2] Hi. unfold fst2, filled2d. cbv zeta. rewrite E1, E2, !along_periodic.
  replace (i + nx g - gw g)%Z with (i - gw g + nx g)%Z by lia. rewrite image_periodic by auto. reflexivity.
Qed.
Lemma fst2_pery (s : store R) a i j : periodic_dir (ky0 g) (ky1 g) -> - ny g <= j - gw g < ny g ->
  fst2 g s a i (j + ny g) = fst2 g s a i j.
Proof.
  intros [E1 E2] Hi. unfold fst2, filled2d. cbv zeta. rewrite E1, E2, !along_periodic.
  replace (j + ny g - gw g)%Z with (j - gw g + ny g)%Z by lia. rewrite image_periodic by auto. reflexivity.
Qed.

Variable p : hparams R.
Variable dt : R.
Lemma prim_sym p' (q r : hs R) : q = mirror r -> snd (computePrimitives2 p' q) = mirror (snd (computePrimitives2 p' r)).
Proof. intros ->. apply prim2_refl. Qed.

Lemma net2_closed (s : store R) a G v :
  params_ok p -> In (riemann_type p) [RIEMANN_HLL; RIEMANN_HLLC; RIEMANN_LLF] ->
  closed_dir (kx0 g) (kx1 g) -> closed_dir (ky0 g) (ky1 g) ->
  v = 0 \/ v = 1 \/ (v = 2 /\ periodic_dir (kx0 g) (kx1 g)) \/ (v = 3 /\ periodic_dir (ky0 g) (ky1 g)) ->
  net2 p g dt (fst2 g s a) G v = 0%R.
Proof.
  intros Hp Hr Hx Hy Hv. pose proof Hg as (G1 & G2 & G3 & G4). unfold net2.
  rewrite (sumZ_zero (gw g) (gw g + ny g)), (sumZ_zero (gw g) (gw g + nx g)); [lra| |].
  - intros i Hi. destruct Hy as [Hy|[Hy0 Hy1]].
    + pose proof (fluxY2_shift p dt false (prim2 p (fst2 g s a)) G 0 (ny g) i (gw g)) as E.
      rewrite Z.add_0_r in E. rewrite E.
      rewrite (fluxY2_ext p dt false (prim2 p (fst2 g s a)) (fun i j => prim2 p (fst2 g s a) (i + 0) (j + ny g)) G G).
      * unfold fluxY2, face2, pred2. lra.
      * intros i' j' H. unfold near in H. rewrite Z.add_0_r. unfold prim2. rewrite fst2_pery; auto. lia.
      * reflexivity.
      * reflexivity.
    + assert (Hv' : v = 0 \/ v = 1 \/ v = 2 \/ v = 4).
      { destruct Hv as [->|[->|[[-> _]|[_ [E _]]]]]; auto. congruence. }
      assert (S : forall j0, (forall i' j', j0 - 2 <= j' <= j0 + 1 -> swapUV (fst2 g s a i' j') = mirror (swapUV (fst2 g s a i' (2 * j0 - 1 - j')))) ->
        comp (fluxY2 p dt false (prim2 p (fst2 g s a)) G i j0) v = 0%R).
      { intros j0 H. apply wallY2; auto. intros i' j' Hn. specialize (H i' j' Hn). unfold prim2.
        apply (f_equal (fun q => snd (computePrimitives2 (par_xy p) q))) in H. rewrite prim2_refl, !prim2_xy in H.
        exact H. }
      rewrite (S (gw g)), (S (gw g + ny g)); [lra| |]; intros i' j' Hn; [apply wall2_y1|apply wall2_y0]; auto.
  - intros j Hj. destruct Hx as [Hx|[Hx0 Hx1]].
    + pose proof (fluxX2_shift p dt false (prim2 p (fst2 g s a)) G (nx g) 0 (gw g) j) as E.
      rewrite Z.add_0_r in E. rewrite E.
      rewrite (fluxX2_ext p dt false (prim2 p (fst2 g s a)) (fun i j => prim2 p (fst2 g s a) (i + nx g) (j + 0)) G G).
      * unfold fluxX2, face2, pred2. lra.
      * intros i' j' H. unfold near in H. rewrite Z.add_0_r. unfold prim2. rewrite fst2_perx; auto. lia.
      * reflexivity.
      * reflexivity.
    + assert (Hv' : tangential v).
      { unfold tangential. destruct Hv as [->|[->|[[-> [E _]]|[-> _]]]]; auto. congruence. }
      assert (S : forall i0, (forall i' j', i0 - 2 <= i' <= i0 + 1 -> fst2 g s a i' j' = mirror (fst2 g s a (2 * i0 - 1 - i') j')) ->
        comp (fluxX2 p dt false (prim2 p (fst2 g s a)) G i0 j) v = 0%R).
      { intros i0 H. apply wallX2; auto. intros i' j' Hn. unfold prim2. apply prim_sym, H, Hn. }
      rewrite (S (gw g)), (S (gw g + nx g)); [lra| |]; intros i' j' Hn; [apply wall2_x1|apply wall2_x0]; auto.
Qed.
End Walls2.

Theorem closed2 p g dt junk impl aIn aOut (s s' : store R) v :
  impl = 0 \/ impl = 1 -> arr_ok aIn aOut -> hydro_grid2 g -> slope_ok p -> params_ok p -> symmetric_solver2 p ->
  closed_dir (kx0 g) (kx1 g) -> closed_dir (ky0 g) (ky1 g) ->
  v = 0 \/ v = 1 \/ (v = 2 /\ periodic_dir (kx0 g) (kx1 g)) \/ (v = 3 /\ periodic_dir (ky0 g) (ky1 g)) ->
  run_kernels (godunov2 p g dt false junk impl aIn aOut) s s' ->
  total2 g s' aOut v = total2 g s aIn v.
Proof.
  intros Hi Ha Hg Hs Hp Hsym Hx Hy Hv Hk.
  assert (Hr : riemann_ok2 p) by (unfold riemann_ok2; cbn; destruct Hsym as [->|[->| ->]]; auto).
  assert (Hr' : In (riemann_type p) [RIEMANN_HLL; RIEMANN_HLLC; RIEMANN_LLF]) by (cbn; destruct Hsym as [->|[->| ->]]; auto).
  rewrite (balance2 p g dt junk impl aIn aOut s s' v); auto.
  - rewrite net2_closed; auto. lra.
  - destruct Hv as [->|[->|[[-> _]|[-> _]]]]; lia.
Qed.

Section Walls3.
Variable g : grid.
Hypothesis Hg : hydro_grid3 g.
Ltac w3 := unfold sign_mx; cbn [var_xy var_xz Z.eqb Pos.eqb flips ID IP IU IV IW Z.add Pos.add Pos.succ orb andb]; ring.
Lemma wall3_x0 (s : store R) a i j k : kx0 g = Reflecting -> gw g - 2 <= i <= gw g + 1 ->
  fst3 g s a i j k = mirror (fst3 g s a (2 * gw g - 1 - i) j k).
Proof.
  intros E Hi. destruct Hg as (G1 & G2 & G3 & G4 & G5). apply comp_ext. intros v Hv.
  rewrite comp_mirror by lia. rewrite !comp_fst3 by auto. unfold filled3d. cbv zeta. rewrite !along_sg, E.
  replace (2 * gw g - 1 - i - gw g) with (- 1 - (i - gw g)) by lia.
  rewrite (image_wall_lo _ _ 2), (sg_wall_lo _ _ _ 2) by lia. vcase Hv; w3.
Qed.
Lemma wall3_x1 (s : store R) a i j k : kx1 g = Reflecting -> gw g + nx g - 2 <= i <= gw g + nx g + 1 ->
  fst3 g s a i j k = mirror (fst3 g s a (2 * (gw g + nx g) - 1 - i) j k).
Proof.
  intros E Hi. destruct Hg as (G1 & G2 & G3 & G4 & G5). apply comp_ext. intros v Hv.
  rewrite comp_mirror by lia. rewrite !comp_fst3 by auto. unfold filled3d. cbv zeta. rewrite !along_sg, E.
  replace (2 * (gw g + nx g) - 1 - i - gw g) with (2 * nx g - 1 - (i - gw g)) by lia.
  rewrite (image_wall_hi _ _ 2), (sg_wall_hi _ _ _ 2) by lia. vcase Hv; w3.
Qed.
Lemma wall3_y0 (s : store R) a i j k : ky0 g = Reflecting -> gw g - 2 <= j <= gw g + 1 ->
  swapUV (fst3 g s a i j k) = mirror (swapUV (fst3 g s a i (2 * gw g - 1 - j) k)).
Proof.
  intros E Hi. destruct Hg as (G1 & G2 & G3 & G4 & G5). apply comp_ext. intros v Hv.
  rewrite comp_mirror, !comp_swapUV by lia. rewrite !comp_fst3 by (apply var5; auto).
  unfold filled3d. cbv zeta. rewrite !along_sg, E.
  replace (2 * gw g - 1 - j - gw g) with (- 1 - (j - gw g)) by lia.
  rewrite (image_wall_lo _ _ 2), (sg_wall_lo _ _ _ 2) by lia. vcase Hv; w3.
Qed.
Lemma wall3_y1 (s : store R) a i j k : ky1 g = Reflecting -> gw g + ny g - 2 <= j <= gw g + ny g + 1 ->
  swapUV (fst3 g s a i j k) = mirror (swapUV (fst3 g s a i (2 * (gw g + ny g) - 1 - j) k)).
Proof.
  intros E Hi. destruct Hg as (G1 & G2 & G3 & G4 & G5). apply comp_ext. intros v Hv.
  rewrite comp_mirror, !comp_swapUV by lia. rewrite !comp_fst3 by (apply var5; auto).
  unfold filled3d. cbv zeta. rewrite !along_sg, E.
  replace (2 * (gw g + ny g) - 1 - j - gw g) with (2 * ny g - 1 - (j - gw g)) by lia.
  rewrite (image_wall_hi _ _ 2), (sg_wall_hi _ _ _ 2) by lia. vcase Hv; w3.
Qed.
Lemma wall3_z0 (s : store R) a i j k : kz0 g = Reflecting -> gw g - 2 <= k <= gw g + 1 ->
  swapUW (fst3 g s a i j k) = mirror (swapUW (fst3 g s a i j (2 * gw g - 1 - k))).
Proof.
  intros E Hi. destruct Hg as (G1 & G2 & G3 & G4 & G5). apply comp_ext. intros v Hv.
  rewrite comp_mirror, !comp_swapUW by lia. rewrite !comp_fst3 by (apply var5; auto).
  unfold filled3d. cbv zeta. rewrite !along_sg, E.
  replace (2 * gw g - 1 - k - gw g) with (- 1 - (k - gw g)) by lia.
  rewrite (image_wall_lo _ _ 2), (sg_wall_lo _ _ _ 2) by lia. vcase Hv; w3.
Qed.
Lemma wall3_z1 (s : store R) a i j k : kz1 g = Reflecting -> gw g + nz g - 2 <= k <= gw g + nz g + 1 ->
  swapUW (fst3 g s a i j k) = mirror (swapUW (fst3 g s a i j (2 * (gw g + nz g) - 1 - k))).
Proof.
  intros E Hi. destruct Hg as (G1 & G2 & G3 & G4 & G5). apply comp_ext. intros v Hv.
  rewrite comp_mirror, !comp_swapUW by lia. rewrite !comp_fst3 by (apply var5; auto).
  unfold filled3d. cbv zeta. rewrite !along_sg, E.
  replace (2 * (gw g + nz g) - 1 - k - gw g) with (2 * nz g - 1 - (k - gw g)) by lia.
  rewrite (image_wall_hi _ _ 2), (sg_wall_hi _ _ _ 2) by lia. vcase Hv; w3.
Qed.
Lemma fst3_per (s : store R) a i j k :
  (periodic_dir (kx0 g) (kx1 g) -> - nx g <= i - gw g < nx g -> fst3 g s a (i + nx g) j k = fst3 g s a i j k) /\
  (periodic_dir (ky0 g) (ky1 g) -> - ny g <= j - gw g < ny g -> fst3 g s a i (j + ny g) k = fst3 g s a i j k) /\
  (periodic_dir (kz0 g) (kz1 g) -> - nz g <= k - gw g < nz g -> fst3 g s a i j (k + nz g) = fst3 g s a i j k).
Proof.
  unfold fst3, filled3d. cbv zeta. split; [|split]; intros [E1 E2] H; rewrite E1, E2, !along_periodic.
  - replace (i + nx g - gw g)%Z with (i - gw g + nx g)%Z by lia. rewrite image_periodic by auto. reflexivity.
  - replace (j + ny g - gw g)%Z with (j - gw g + ny g)%Z by lia. rewrite image_periodic by auto. reflexivity.
  - replace (k + nz g - gw g)%Z with (k - gw g + nz g)%Z by lia. rewrite image_periodic by auto. reflexivity.
Qed.

Variable p : hparams R.
Variable dt : R.
Lemma net3_closed impl (s : store R) a G v :
  params_ok p -> In (riemann_type p) [RIEMANN_HLLC; RIEMANN_LLF] ->
  closed_dir (kx0 g) (kx1 g) -> closed_dir (ky0 g) (ky1 g) -> closed_dir (kz0 g) (kz1 g) ->
  v = 0 \/ v = 1 \/ (v = 2 /\ periodic_dir (kx0 g) (kx1 g)) \/ (v = 3 /\ periodic_dir (ky0 g) (ky1 g))
    \/ (v = 4 /\ periodic_dir (kz0 g) (kz1 g)) ->
  net3 p g dt impl (fst3 g s a) G v = 0%R.
Proof.
  intros Hp Hr Hx Hy Hz Hv. pose proof Hg as (G1 & G2 & G3 & G4 & G5). unfold net3. set (Q := prim3 p (fst3 g s a)).
  assert (Z1 : forall j k, (comp (fluxX3 p dt false Q G (gw g) j k) v - comp (fluxX3 p dt false Q G (gw g + nx g) j k) v = 0)%R).
  { intros j k. destruct Hx as [Hx|[Hx0 Hx1]].
    - pose proof (fluxX3_shift p dt false Q G (nx g) 0 0 (gw g) j k) as E.
      rewrite !Z.add_0_r in E. rewrite E.
      rewrite (fluxX3_ext p dt false Q (fun i j k => Q (i + nx g) (j + 0) (k + 0))%Z G G).
      + unfold fluxX3, face3, pred3. lra.
      + intros i' j' k' H. unfold near3 in H. rewrite !Z.add_0_r. unfold Q, prim3.
        rewrite (proj1 (fst3_per s a i' j' k')); auto. lia.
      + reflexivity.
      + reflexivity.
    - assert (Hv' : tangential v).
      { unfold tangential. destruct Hv as [->|[->|[[-> [E _]]|[[-> _]|[-> _]]]]]; auto. congruence. }
      assert (S : forall i0, (forall i' j' k', i0 - 2 <= i' <= i0 + 1 -> fst3 g s a i' j' k' = mirror (fst3 g s a (2 * i0 - 1 - i') j' k')) ->
        comp (fluxX3 p dt false Q G i0 j k) v = 0%R).
      { intros i0 H. apply wallX3; auto. intros i' j' k' Hn. unfold Q, prim3. rewrite H by auto. apply prim3_refl. }
      rewrite (S (gw g)), (S (gw g + nx g)); [lra| |]; intros i' j' k' Hn; [apply wall3_x1|apply wall3_x0]; auto. }
  assert (Z2 : forall i k, (comp (fluxY3 p dt false Q G i (gw g) k) v - comp (fluxY3 p dt false Q G i (gw g + ny g) k) v = 0)%R).
  { intros i k. destruct Hy as [Hy|[Hy0 Hy1]].
    - pose proof (fluxY3_shift p dt false Q G 0 (ny g) 0 i (gw g) k) as E.
      rewrite !Z.add_0_r in E. rewrite E.
      rewrite (fluxY3_ext p dt false Q (fun i j k => Q (i + 0) (j + ny g) (k + 0))%Z G G).
      + unfold fluxY3, face3, pred3. lra.
      + intros i' j' k' H. unfold near3 in H. rewrite !Z.add_0_r. unfold Q, prim3.
        rewrite (proj1 (proj2 (fst3_per s a i' j' k'))); auto. lia.
      + reflexivity.
      + reflexivity.
    - assert (Hv' : v = 0 \/ v = 1 \/ v = 2 \/ v = 4).
      { destruct Hv as [->|[->|[[-> _]|[[_ [E _]]|[-> _]]]]]; auto. congruence. }
      assert (S : forall j0, (forall i' j' k', j0 - 2 <= j' <= j0 + 1 -> swapUV (fst3 g s a i' j' k') = mirror (swapUV (fst3 g s a i' (2 * j0 - 1 - j') k'))) ->
        comp (fluxY3 p dt false Q G i j0 k) v = 0%R).
      { intros j0 H. apply wallY3; auto. intros i' j' k' Hn. specialize (H i' j' k' Hn). unfold Q, prim3.
        apply (f_equal (fun q => snd (computePrimitives3 (par_xy p) q))) in H. rewrite prim3_refl, !prim3_xy in H.
        exact H. }
      rewrite (S (gw g)), (S (gw g + ny g)); [lra| |]; intros i' j' k' Hn; [apply wall3_y1|apply wall3_y0]; auto. }
  assert (Z3 : forall i j, (comp (zfx p dt false impl Q G i j (gw g)) v - comp (zfx p dt false impl Q G i j (gw g + nz g)) v = 0)%R).
  { intros i j. destruct Hz as [Hz|[Hz0 Hz1]].
    - pose proof (zfx_shift p dt false impl Q G 0 0 (nz g) i j (gw g)) as E.
      rewrite !Z.add_0_r in E. rewrite E.
      rewrite (zfx_ext p dt false impl Q (fun i j k => Q (i + 0) (j + 0) (k + nz g))%Z G G).
      + unfold zfx, fluxZ3, fluxZ3', face3, pred3. destruct (impl =? 0)%Z; lra.
      + intros i' j' k' H. unfold near3 in H. rewrite !Z.add_0_r. unfold Q, prim3.
        rewrite (proj2 (proj2 (fst3_per s a i' j' k'))); auto. lia.
      + reflexivity.
      + reflexivity.
    - assert (Hv' : v = 0 \/ v = 1 \/ v = 2 \/ v = 3).
      { destruct Hv as [->|[->|[[-> _]|[[-> _]|[_ [E _]]]]]]; auto. congruence. }
      assert (EZ : forall k, zfx p dt false impl Q G i j k = fluxZ3 p dt false Q G i j k).
      { intros k. unfold zfx. destruct (impl =? 0); reflexivity. }
      rewrite !EZ.
      assert (S : forall k0, (forall i' j' k', k0 - 2 <= k' <= k0 + 1 -> swapUW (fst3 g s a i' j' k') = mirror (swapUW (fst3 g s a i' j' (2 * k0 - 1 - k')))) ->
        comp (fluxZ3 p dt false Q G i j k0) v = 0%R).
      { intros k0 H. apply wallZ3; auto. intros i' j' k' Hn. specialize (H i' j' k' Hn). unfold Q, prim3.
        apply (f_equal (fun q => snd (computePrimitives3 (par_xz p) q))) in H. rewrite prim3_refl, !prim3_xz in H.
        exact H. }
      rewrite (S (gw g)), (S (gw g + nz g)); [lra| |]; intros i' j' k' Hn; [apply wall3_z1|apply wall3_z0]; auto. }
  rewrite (sumZ_zero (gw g) (gw g + ny g)), (sumZ_zero (gw g) (gw g + nx g)), (sumZ_zero (gw g) (gw g + nx g)); [lra| | |].
  - intros i _. apply sumZ_zero. intros j _. apply Z3.
  - intros i _. apply sumZ_zero. intros k _. apply Z2.
  - intros j _. apply sumZ_zero. intros k _. apply Z1.
Qed.
End Walls3.

Theorem closed3 p g dt junk impl aIn aOut (s s' : store R) v :
  impl = 0 \/ impl = 1 -> arr_ok aIn aOut -> hydro_grid3 g -> slope_ok p -> params_ok p -> symmetric_solver3 p ->
  closed_dir (kx0 g) (kx1 g) -> closed_dir (ky0 g) (ky1 g) -> closed_dir (kz0 g) (kz1 g) ->
  v = 0 \/ v = 1 \/ (v = 2 /\ periodic_dir (kx0 g) (kx1 g)) \/ (v = 3 /\ periodic_dir (ky0 g) (ky1 g))
    \/ (v = 4 /\ periodic_dir (kz0 g) (kz1 g)) ->
  run_kernels (godunov3 p g dt false junk impl aIn aOut) s s' ->
  total3 g s' aOut v = total3 g s aIn v.
Proof.
  intros Hi Ha Hg Hs Hp Hsym Hx Hy Hz Hv Hk.
  assert (Hr : riemann_ok3 p) by (unfold riemann_ok3; cbn; destruct Hsym as [->| ->]; auto).
  assert (Hr' : In (riemann_type p) [RIEMANN_HLLC; RIEMANN_LLF]) by (cbn; destruct Hsym as [->| ->]; auto).
  rewrite (balance3 p g dt junk impl aIn aOut s s' v); auto.
  - rewrite net3_closed; auto. lra.
  - destruct Hv as [->|[->|[[-> _]|[[-> _]|[-> _]]]]]; lia.
Qed.
