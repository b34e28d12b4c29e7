(** Implementation versions, locality, independence of uninitialised data. *)
From Coq Require Import ZArith List Bool Lia.
From Verif Require Import Arith Par ParProofs GridModel BoundaryModel BoundarySpec BoundaryProofs
  HydroState RiemannModel HydroPoint HydroKernels CellKernels HydroField HydroExec HydroSpec HydroProofs2 HydroStep2
  HydroProofs3 HydroStep3 HydroConserve.
Import ListNotations.
Open Scope Z_scope.

Section V.
Context {T : Type} {A : Arith T}.
Variable p : hparams T.
Variable g : grid.
Variable dt : T.

(** The array cell (i, j, v) of the two state arrays after a step, as a function
    of the memory before. *)
Definition after2 ge (s : store T) aIn i j v : T :=
  if interior2 g i j then comp (step2 p dt ge (fst2 g s aIn) (gr2 s) i j) v
  else filled2d false g (fun i j v => s (Loc aIn i j 0 v)) i j v.
Definition after3 ge impl (s : store T) aIn i j k v : T :=
  if interior3 g i j k then comp (step3 p dt ge (zfx p dt ge impl) (fst3 g s aIn) (gr3 s) i j k) v
  else filled3d false g (fun i j k v => s (Loc aIn i j k v)) i j k v.

Lemma after2_spec ge junk impl aIn aOut (s s' : store T) :
  impl = 0 \/ impl = 1 -> arr_ok aIn aOut -> hydro_grid2 g -> slope_ok p -> riemann_ok2 p ->
  run_kernels (godunov2 p g dt ge junk impl aIn aOut) s s' ->
  forall i j v, 0 <= i < isize g -> 0 <= j < jsize g -> 0 <= v < 4 ->
  s' (Loc aOut i j 0 v) = after2 ge s aIn i j v /\
  s' (Loc aIn i j 0 v) = filled2d false g (fun i j v => s (Loc aIn i j 0 v)) i j v.
Proof.
  intros Hi Ha Hg Hs Hr Hk i j v H1 H2 H3.
  destruct (godunov2_spec p g dt ge junk impl aIn aOut s s' Hi Ha Hg (slope_ok_spec p Hs) (riemann_ok2_spec p Hr) Hk)
    as (K1 & K2 & K3 & K4).
  split; [|apply K3; auto]. unfold after2. destruct (interior2 g i j) eqn:E.
  - rewrite <- K1 by (apply interior2_inside; auto). symmetry. apply comp_st2. exact H3.
  - apply K2; auto. intros H. apply interior2_inside in H. congruence.
Qed.
Lemma after3_spec ge junk impl aIn aOut (s s' : store T) :
  impl = 0 \/ impl = 1 -> arr_ok aIn aOut -> hydro_grid3 g -> slope_ok p -> riemann_ok3 p ->
  run_kernels (godunov3 p g dt ge junk impl aIn aOut) s s' ->
  forall i j k v, 0 <= i < isize g -> 0 <= j < jsize g -> 0 <= k < ksize g -> 0 <= v < 5 ->
  s' (Loc aOut i j k v) = after3 ge impl s aIn i j k v /\
  s' (Loc aIn i j k v) = filled3d false g (fun i j k v => s (Loc aIn i j k v)) i j k v.
Proof.
  intros Hi Ha Hg Hs Hr Hk i j k v H1 H2 H2' H3.
  destruct (godunov3_spec p g dt ge junk impl aIn aOut s s' Hi Ha Hg (slope_ok_spec p Hs) (riemann_ok3_spec p Hr) Hk)
    as (K1 & K2 & K3 & K4).
  split; [|apply K3; auto]. unfold after3. destruct (interior3 g i j k) eqn:E.
  - rewrite <- K1 by (apply interior3_inside; auto). symmetry. apply comp_st3. exact H3.
  - apply K2; auto. intros H. apply interior3_inside in H. congruence.
Qed.

(** Versions 0 and 1, whatever is in the uninitialised variables. *)
Theorem versions_agree2 ge junk junk' impl impl' aIn aOut (s s1 s2 : store T) :
  impl = 0 \/ impl = 1 -> impl' = 0 \/ impl' = 1 ->
  arr_ok aIn aOut -> hydro_grid2 g -> slope_ok p -> riemann_ok2 p ->
  run_kernels (godunov2 p g dt ge junk impl aIn aOut) s s1 ->
  run_kernels (godunov2 p g dt ge junk' impl' aIn aOut) s s2 ->
  forall a i j v, a = aIn \/ a = aOut -> 0 <= i < nx g + 2 * gw g -> 0 <= j < ny g + 2 * gw g -> 0 <= v < 4 ->
  s1 (Loc a i j 0 v) = s2 (Loc a i j 0 v).
Proof.
  intros Hi Hi' Ha Hg Hs Hr K1 K2 a i j v Hav H1 H2 H3.
  assert (B1 : 0 <= i < isize g) by (unfold isize, imax, imin; lia).
  assert (B2 : 0 <= j < jsize g) by (unfold jsize, jmax, jmin; lia).
  destruct (after2_spec ge junk impl aIn aOut s s1 Hi Ha Hg Hs Hr K1 i j v B1 B2 H3) as [E1 E2].
  destruct (after2_spec ge junk' impl' aIn aOut s s2 Hi' Ha Hg Hs Hr K2 i j v B1 B2 H3) as [E3 E4].
  destruct Hav as [->| ->]; congruence.
Qed.

Lemma step3_nograv U G i j k : step3 p dt false (zfx p dt false 0) U G i j k = step3 p dt false (zfx p dt false 1) U G i j k.
Proof. reflexivity. Qed.

Theorem versions_agree3 junk junk' impl impl' aIn aOut (s s1 s2 : store T) :
  impl = 0 \/ impl = 1 -> impl' = 0 \/ impl' = 1 ->
  arr_ok aIn aOut -> hydro_grid3 g -> slope_ok p -> riemann_ok3 p ->
  run_kernels (godunov3 p g dt false junk impl aIn aOut) s s1 ->
  run_kernels (godunov3 p g dt false junk' impl' aIn aOut) s s2 ->
  forall a i j k v, a = aIn \/ a = aOut -> 0 <= i < nx g + 2 * gw g -> 0 <= j < ny g + 2 * gw g ->
  0 <= k < nz g + 2 * gw g -> 0 <= v < 5 -> s1 (Loc a i j k v) = s2 (Loc a i j k v).
Proof.
  intros Hi Hi' Ha Hg Hs Hr K1 K2 a i j k v Hav H1 H2 H2' H3.
  assert (B1 : 0 <= i < isize g) by (unfold isize, imax, imin; lia).
  assert (B2 : 0 <= j < jsize g) by (unfold jsize, jmax, jmin; lia).
  assert (B3 : 0 <= k < ksize g) by (unfold ksize, kmax, kmin; lia).
  destruct (after3_spec false junk impl aIn aOut s s1 Hi Ha Hg Hs Hr K1 i j k v B1 B2 B3 H3) as [E1 E2].
  destruct (after3_spec false junk' impl' aIn aOut s s2 Hi' Ha Hg Hs Hr K2 i j k v B1 B2 B3 H3) as [E3 E4].
  assert (E : after3 false impl s aIn i j k v = after3 false impl' s aIn i j k v).
  { destruct Hi as [->| ->], Hi' as [->| ->]; reflexivity. }
  destruct Hav as [->| ->]; congruence.
Qed.

(** Same version, gravity allowed. *)
Theorem junk_irrelevant3 ge junk junk' impl aIn aOut (s s1 s2 : store T) :
  impl = 0 \/ impl = 1 ->
  arr_ok aIn aOut -> hydro_grid3 g -> slope_ok p -> riemann_ok3 p ->
  run_kernels (godunov3 p g dt ge junk impl aIn aOut) s s1 ->
  run_kernels (godunov3 p g dt ge junk' impl aIn aOut) s s2 ->
  forall a i j k v, a = aIn \/ a = aOut -> 0 <= i < nx g + 2 * gw g -> 0 <= j < ny g + 2 * gw g ->
  0 <= k < nz g + 2 * gw g -> 0 <= v < 5 -> s1 (Loc a i j k v) = s2 (Loc a i j k v).
Proof.
  intros Hi Ha Hg Hs Hr K1 K2 a i j k v Hav H1 H2 H2' H3.
  assert (B1 : 0 <= i < isize g) by (unfold isize, imax, imin; lia).
  assert (B2 : 0 <= j < jsize g) by (unfold jsize, jmax, jmin; lia).
  assert (B3 : 0 <= k < ksize g) by (unfold ksize, kmax, kmin; lia).
  destruct (after3_spec ge junk impl aIn aOut s s1 Hi Ha Hg Hs Hr K1 i j k v B1 B2 B3 H3) as [E1 E2].
  destruct (after3_spec ge junk' impl aIn aOut s s2 Hi Ha Hg Hs Hr K2 i j k v B1 B2 B3 H3) as [E3 E4].
  destruct Hav as [->| ->]; congruence.
Qed.

(** Version 2 only copies. *)
Theorem version2_copies2 ge junk aIn aOut (s s' : store T) :
  arr_ok aIn aOut -> hydro_grid2 g ->
  run_kernels (godunov2 p g dt ge junk 2 aIn aOut) s s' ->
  forall i j v, inside2 g i j -> 0 <= v < 4 -> s' (Loc aOut i j 0 v) = s (Loc aIn i j 0 v).
Proof.
  intros Ha Hg Hk i j v Hi Hv. pose proof Hg as (G1 & G2 & G3 & G4). unfold godunov2, scheme2 in Hk.
  cbn [Z.eqb Pos.eqb] in Hk. apply run_kernels_app in Hk. destruct Hk as (s1 & Hb & Hk).
  apply rk_inv in Hk. destruct Hk as (s2 & Hc & Hk).
  apply rk_inv in Hk. destruct Hk as (s3 & Hq & Hk). apply rk_nil_inv in Hk. subst s3.
  assert (Hok : grid_ok2d g) by (clear - G1 G2 G3 G4; unfold grid_ok2d; lia).
  destruct (fill2_spec false g aIn s s1 Hok Hb) as [B1 B2].
  assert (Hne : aOut <> aIn /\ aIn <> aQ /\ aOut <> aQ) by (clear - Ha; arrays; lia). destruct Hne as (N1 & N2 & N3).
  destruct (deep_copy_spec g (cells2 g) aOut aIn s1 s2 (NoDup_cells2 g) N1 Hc) as [D1 D2].
  destruct (convert2_spec p g aIn s2 s' N2 Hq) as [C1 C2].
  unfold inside2 in Hi. rewrite C2 by auto. rewrite D1.
  - rewrite B1 by lia. apply filled2d_interior; lia.
  - apply in2; unfold isize, imax, imin, jsize, jmax, jmin; lia.
  - lia.
Qed.
Theorem version2_copies3 ge junk aIn aOut (s s' : store T) :
  arr_ok aIn aOut -> hydro_grid3 g ->
  run_kernels (godunov3 p g dt ge junk 2 aIn aOut) s s' ->
  forall i j k v, inside3 g i j k -> 0 <= v < 5 -> s' (Loc aOut i j k v) = s (Loc aIn i j k v).
Proof.
  intros Ha Hg Hk i j k v Hi Hv. pose proof Hg as (G1 & G2 & G3 & G4 & G5). unfold godunov3, scheme3 in Hk.
  cbn [Z.eqb Pos.eqb] in Hk. apply run_kernels_app in Hk. destruct Hk as (s1 & Hb & Hk).
  apply rk_inv in Hk. destruct Hk as (s2 & Hc & Hk).
  apply rk_inv in Hk. destruct Hk as (s3 & Hq & Hk). apply rk_nil_inv in Hk. subst s3.
  assert (Hok : grid_ok3d g) by (clear - G1 G2 G3 G4 G5; unfold grid_ok3d, grid_ok2d; lia).
  destruct (fill3_spec false g aIn s s1 Hok Hb) as [B1 B2].
  assert (Hne : aOut <> aIn /\ aIn <> aQ /\ aOut <> aQ) by (clear - Ha; arrays; lia). destruct Hne as (N1 & N2 & N3).
  destruct (deep_copy_spec g (cells3 g) aOut aIn s1 s2 (NoDup_cells3 g) N1 Hc) as [D1 D2].
  destruct (convert3_spec p g aIn s2 s' N2 Hq) as [C1 C2].
  unfold inside3 in Hi. rewrite C2 by auto. rewrite D1.
  - rewrite B1 by lia. apply filled3d_interior; lia.
  - apply in3; unfold isize, imax, imin, jsize, jmax, jmin, ksize, kmax, kmin; lia.
  - lia.
Qed.

(** Locality. *)
Theorem local2 ge junk junk' impl impl' aIn aOut (s t s' t' : store T) i j :
  impl = 0 \/ impl = 1 -> impl' = 0 \/ impl' = 1 ->
  arr_ok aIn aOut -> hydro_grid2 g -> slope_ok p -> riemann_ok2 p ->
  run_kernels (godunov2 p g dt ge junk impl aIn aOut) s s' ->
  run_kernels (godunov2 p g dt ge junk' impl' aIn aOut) t t' ->
  inside2 g i j ->
  (forall i' j' v, Z.abs (i' - i) + Z.abs (j' - j) <= 2 -> 0 <= v < 4 ->
     filled2d false g (fun i j v => s (Loc aIn i j 0 v)) i' j' v
     = filled2d false g (fun i j v => t (Loc aIn i j 0 v)) i' j' v) ->
  (forall i' j' d, ge = true -> Z.abs (i' - i) + Z.abs (j' - j) <= 1 -> s (Loc aG i' j' 0 d) = t (Loc aG i' j' 0 d)) ->
  forall v, 0 <= v < 4 -> s' (Loc aOut i j 0 v) = t' (Loc aOut i j 0 v).
Proof.
  intros Hi Hi' Ha Hg Hs Hr K1 K2 Hin HU HG v Hv.
  destruct (godunov2_spec p g dt ge junk impl aIn aOut s s' Hi Ha Hg (slope_ok_spec p Hs) (riemann_ok2_spec p Hr) K1)
    as (E1 & _).
  destruct (godunov2_spec p g dt ge junk' impl' aIn aOut t t' Hi' Ha Hg (slope_ok_spec p Hs) (riemann_ok2_spec p Hr) K2)
    as (E2 & _).
  rewrite <- !comp_st2 by auto. rewrite E1, E2 by auto. f_equal.
  assert (EU : forall i' j', near i j 2 i' j' -> fst2 g s aIn i' j' = fst2 g t aIn i' j').
  { intros i' j' Hn. unfold fst2. rewrite !(HU i' j') by (unfold near in Hn; unfold ID, IP, IU, IV; lia). reflexivity. }
  destruct ge.
  - apply step2_ext; auto. intros i' j' d Hn. apply HG; auto.
  - rewrite <- (step2_ext p dt false (fst2 g s aIn) (fst2 g t aIn) (gr2 t) (gr2 t) i j); auto.
Qed.
Theorem local3 ge junk junk' impl aIn aOut (s t s' t' : store T) i j k :
  impl = 0 \/ impl = 1 ->
  arr_ok aIn aOut -> hydro_grid3 g -> slope_ok p -> riemann_ok3 p ->
  run_kernels (godunov3 p g dt ge junk impl aIn aOut) s s' ->
  run_kernels (godunov3 p g dt ge junk' impl aIn aOut) t t' ->
  inside3 g i j k ->
  (forall i' j' k' v, Z.abs (i' - i) + Z.abs (j' - j) + Z.abs (k' - k) <= 2 -> 0 <= v < 5 ->
     filled3d false g (fun i j k v => s (Loc aIn i j k v)) i' j' k' v
     = filled3d false g (fun i j k v => t (Loc aIn i j k v)) i' j' k' v) ->
  (forall i' j' k' d, ge = true -> Z.abs (i' - i) + Z.abs (j' - j) + Z.abs (k' - k) <= 1 ->
     s (Loc aG i' j' k' d) = t (Loc aG i' j' k' d)) ->
  forall v, 0 <= v < 5 -> s' (Loc aOut i j k v) = t' (Loc aOut i j k v).
Proof.
  intros Hi Ha Hg Hs Hr K1 K2 Hin HU HG v Hv.
  destruct (godunov3_spec p g dt ge junk impl aIn aOut s s' Hi Ha Hg (slope_ok_spec p Hs) (riemann_ok3_spec p Hr) K1)
    as (E1 & _).
  destruct (godunov3_spec p g dt ge junk' impl aIn aOut t t' Hi Ha Hg (slope_ok_spec p Hs) (riemann_ok3_spec p Hr) K2)
    as (E2 & _).
  rewrite <- !comp_st3 by auto. rewrite E1, E2 by auto. f_equal.
  assert (EU : forall i' j' k', near3 i j k 2 i' j' k' -> fst3 g s aIn i' j' k' = fst3 g t aIn i' j' k').
  { intros i' j' k' Hn. unfold fst3. rewrite !(HU i' j' k') by (unfold near3 in Hn; unfold ID, IP, IU, IV, IW; lia). reflexivity. }
  destruct ge.
  - apply step3_ext; auto. intros i' j' k' d Hn. apply HG; auto.
  - rewrite <- (step3_ext p dt false impl (fst3 g s aIn) (fst3 g t aIn) (gr3 t) (gr3 t) i j k); auto.
    unfold step3, zfx. destruct (impl =? 0); reflexivity.
Qed.

Theorem local2_interior ge junk junk' impl impl' aIn aOut (s t s' t' : store T) i j :
  impl = 0 \/ impl = 1 -> impl' = 0 \/ impl' = 1 ->
  arr_ok aIn aOut -> hydro_grid2 g -> slope_ok p -> riemann_ok2 p ->
  run_kernels (godunov2 p g dt ge junk impl aIn aOut) s s' ->
  run_kernels (godunov2 p g dt ge junk' impl' aIn aOut) t t' ->
  (forall i' j', Z.abs (i' - i) + Z.abs (j' - j) <= 2 -> inside2 g i' j') ->
  (forall i' j' v, Z.abs (i' - i) + Z.abs (j' - j) <= 2 -> 0 <= v < 4 -> s (Loc aIn i' j' 0 v) = t (Loc aIn i' j' 0 v)) ->
  (forall i' j' d, ge = true -> Z.abs (i' - i) + Z.abs (j' - j) <= 1 -> s (Loc aG i' j' 0 d) = t (Loc aG i' j' 0 d)) ->
  forall v, 0 <= v < 4 -> s' (Loc aOut i j 0 v) = t' (Loc aOut i j 0 v).
Proof.
  intros Hi Hi' Ha Hg Hs Hr K1 K2 Hin HU HG. apply (local2 ge junk junk' impl impl' aIn aOut s t s' t' i j Hi Hi' Ha Hg Hs Hr K1 K2); auto.
  - apply Hin. lia.
  - intros i' j' v Hd Hv. destruct (Hin i' j' Hd) as [B1 B2].
    rewrite !filled2d_interior by auto. apply HU; auto.
Qed.
Theorem local3_interior ge junk junk' impl aIn aOut (s t s' t' : store T) i j k :
  impl = 0 \/ impl = 1 ->
  arr_ok aIn aOut -> hydro_grid3 g -> slope_ok p -> riemann_ok3 p ->
  run_kernels (godunov3 p g dt ge junk impl aIn aOut) s s' ->
  run_kernels (godunov3 p g dt ge junk' impl aIn aOut) t t' ->
  (forall i' j' k', Z.abs (i' - i) + Z.abs (j' - j) + Z.abs (k' - k) <= 2 -> inside3 g i' j' k') ->
  (forall i' j' k' v, Z.abs (i' - i) + Z.abs (j' - j) + Z.abs (k' - k) <= 2 -> 0 <= v < 5 ->
     s (Loc aIn i' j' k' v) = t (Loc aIn i' j' k' v)) ->
  (forall i' j' k' d, ge = true -> Z.abs (i' - i) + Z.abs (j' - j) + Z.abs (k' - k) <= 1 ->
     s (Loc aG i' j' k' d) = t (Loc aG i' j' k' d)) ->
  forall v, 0 <= v < 5 -> s' (Loc aOut i j k v) = t' (Loc aOut i j k v).
Proof.
  intros Hi Ha Hg Hs Hr K1 K2 Hin HU HG. apply (local3 ge junk junk' impl aIn aOut s t s' t' i j k Hi Ha Hg Hs Hr K1 K2); auto.
  - apply Hin. lia.
  - intros i' j' k' v Hd Hv. destruct (Hin i' j' k' Hd) as (B1 & B2 & B3).
    rewrite !filled3d_interior by auto. apply HU; auto.
Qed.
End V.
