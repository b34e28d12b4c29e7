(** A uniform flow is left unchanged by the step. *)
From Coq Require Import ZArith List Bool Reals Lia Lra.
From Verif Require Import Arith Par ParProofs GridModel BoundaryModel BoundarySpec BoundaryProofs
  HydroState RiemannModel HydroPoint HydroKernels HydroField HydroExec HydroSpec HydroProofs2 HydroStep2
  HydroProofs3 HydroStep3 HydroConserve.
Import ListNotations.
Open Scope Z_scope.

Lemma along_open (dir n q v : Z) lo hi (x : R) : lo <> Reflecting -> hi <> Reflecting ->
  along (A:=RArith) false dir lo hi n q v x = x.
Proof.
  intros H1 H2. unfold along, reflected. destruct (is_ghost n q); auto.
  assert (E : match (if q <? 0 then Some lo else if n <=? q then Some hi else None) with
    | Some Reflecting => true | _ => false end = false)
    by (destruct (q <? 0), (n <=? q), lo, hi; try reflexivity; congruence).
  rewrite E. cbn. lra.
Qed.

Lemma image_range lo hi n w q : w <= n -> 0 < n -> - w <= q < n + w -> 0 <= image lo hi n q < n.
Proof.
  intros H H0 H1. unfold image.
  destruct (Z.ltb_spec q 0); [destruct lo; lia|]. destruct (Z.leb_spec n q); [destruct hi; lia|lia].
Qed.

Section U.
Open Scope R_scope.
Variable p : hparams R.
Variable g : grid.
Variable dt : R.

Lemma step2_const (K : hs R) G i j v : (0 <= v < 4)%Z ->
  comp (step2 p dt false (fun _ _ => K) G i j) v = comp K v.
Proof.
  intros Hv. rewrite step2_comp by auto.
  unfold fluxX2, fluxY2, face2, slopes2, pred2, prim2. lra.
Qed.
Lemma step3_const impl (K : hs R) G i j k v :
  comp (step3 p dt false (zfx p dt false impl) (fun _ _ _ => K) G i j k) v = comp K v.
Proof.
  rewrite step3_comp. unfold zfx. destruct (impl =? 0)%Z;
  unfold fluxX3, fluxY3, fluxZ3, fluxZ3', face3, tr3, slopes3, pred3, prim3; lra.
Qed.

Theorem uniform2 junk impl aIn aOut (s s' : store R) (c : Z -> R) :
  (impl = 0 \/ impl = 1)%Z -> arr_ok aIn aOut -> hydro_grid2 g -> slope_ok p -> riemann_ok2 p ->
  (forall f, In f [FACE_XMIN; FACE_XMAX; FACE_YMIN; FACE_YMAX] -> kind_of_code (bc g f) <> Reflecting) ->
  (forall i j v, inside2 g i j -> (0 <= v < 4)%Z -> s (Loc aIn i j 0 v) = c v) ->
  run_kernels (godunov2 p g dt false junk impl aIn aOut) s s' ->
  forall a i j v, (a = aIn \/ a = aOut) -> (0 <= i < nx g + 2 * gw g)%Z -> (0 <= j < ny g + 2 * gw g)%Z -> (0 <= v < 4)%Z ->
  s' (Loc a i j 0 v) = c v.
Proof.
  intros Hi Ha Hg Hs Hr Hb Hc Hk. pose proof Hg as (G1 & G2 & G3 & G4).
  destruct (godunov2_spec p g dt false junk impl aIn aOut s s' Hi Ha Hg (slope_ok_spec p Hs) (riemann_ok2_spec p Hr) Hk)
    as (K1 & K2 & K3 & K4).
  assert (F : forall i j v, (0 <= i < nx g + 2 * gw g)%Z -> (0 <= j < ny g + 2 * gw g)%Z -> (0 <= v < 4)%Z ->
    filled2d false g (fun i j v => s (Loc aIn i j 0 v)) i j v = c v).
  { intros i j v H1 H2 H3. unfold filled2d. cbv zeta.
    rewrite !along_open by (apply Hb; cbn; auto). apply Hc; auto. unfold inside2.
    pose proof (image_range (kx0 g) (kx1 g) (nx g) (gw g) (i - gw g)).
    pose proof (image_range (ky0 g) (ky1 g) (ny g) (gw g) (j - gw g)). lia. }
  assert (HO : forall i j v, (0 <= i < nx g + 2 * gw g)%Z -> (0 <= j < ny g + 2 * gw g)%Z -> (0 <= v < 4)%Z -> s' (Loc aOut i j 0 v) = c v).
  { intros i j v H1 H2 H3. destruct (inside2_dec g i j) as [Hin|Hin].
    - rewrite <- comp_st2 by auto. rewrite K1 by auto.
      set (K := HS (c ID) (c IP) (c IU) (c IV) 0%R).
      rewrite (step2_ext p dt false (fst2 g s aIn) (fun _ _ => K) (gr2 s) (gr2 s)).
      + rewrite step2_const by auto. destruct (v4 v H3) as [-> | [-> | [-> | ->]]]; reflexivity.
      + intros i' j' Hn. unfold near in Hn. unfold inside2 in Hin. unfold fst2. rewrite !F by (unfold ID, IP, IU, IV; lia).
        reflexivity.
      + reflexivity.
    - rewrite K2 by (unfold isize, jsize, imax, imin, jmax, jmin; auto; lia). apply F; auto. }
  intros a i j v [-> | ->] H1 H2 H3; [|auto].
  rewrite K3 by (unfold isize, jsize, imax, imin, jmax, jmin; auto; lia). apply F; auto.
Qed.

Theorem uniform3 junk impl aIn aOut (s s' : store R) (c : Z -> R) :
  (impl = 0 \/ impl = 1)%Z -> arr_ok aIn aOut -> hydro_grid3 g -> slope_ok p -> riemann_ok3 p ->
  (forall f, kind_of_code (bc g f) <> Reflecting) ->
  (forall i j k v, inside3 g i j k -> (0 <= v < 5)%Z -> s (Loc aIn i j k v) = c v) ->
  run_kernels (godunov3 p g dt false junk impl aIn aOut) s s' ->
  forall a i j k v, (a = aIn \/ a = aOut) -> (0 <= i < nx g + 2 * gw g)%Z -> (0 <= j < ny g + 2 * gw g)%Z ->
  (0 <= k < nz g + 2 * gw g)%Z -> (0 <= v < 5)%Z ->
  s' (Loc a i j k v) = c v.
Proof.
  intros Hi Ha Hg Hs Hr Hb Hc Hk. pose proof Hg as (G1 & G2 & G3 & G4 & G5).
  destruct (godunov3_spec p g dt false junk impl aIn aOut s s' Hi Ha Hg (slope_ok_spec p Hs) (riemann_ok3_spec p Hr) Hk)
    as (K1 & K2 & K3 & K4).
  assert (F : forall i j k v, (0 <= i < nx g + 2 * gw g)%Z -> (0 <= j < ny g + 2 * gw g)%Z -> (0 <= k < nz g + 2 * gw g)%Z -> (0 <= v < 5)%Z ->
    filled3d false g (fun i j k v => s (Loc aIn i j k v)) i j k v = c v).
  { intros i j k v H1 H2 H2' H3. unfold filled3d. cbv zeta.
    rewrite !along_open by (apply Hb; cbn; auto). apply Hc; auto. unfold inside3.
    pose proof (image_range (kx0 g) (kx1 g) (nx g) (gw g) (i - gw g)).
    pose proof (image_range (ky0 g) (ky1 g) (ny g) (gw g) (j - gw g)).
    pose proof (image_range (kz0 g) (kz1 g) (nz g) (gw g) (k - gw g)). lia. }
  assert (HO : forall i j k v, (0 <= i < nx g + 2 * gw g)%Z -> (0 <= j < ny g + 2 * gw g)%Z -> (0 <= k < nz g + 2 * gw g)%Z ->
     (0 <= v < 5)%Z -> s' (Loc aOut i j k v) = c v).
  { intros i j k v H1 H2 H2' H3. destruct (inside3_dec g i j k) as [Hin|Hin].
    - rewrite <- comp_st3 by auto. rewrite K1 by auto.
      set (K := HS (c ID) (c IP) (c IU) (c IV) (c IW)).
      rewrite (step3_ext p dt false impl (fst3 g s aIn) (fun _ _ _ => K) (gr3 s) (gr3 s)).
      + rewrite step3_const by auto. destruct (v5 v H3) as [-> | [-> | [-> | [-> | ->]]]]; reflexivity.
      + intros i' j' k' Hn. unfold near3 in Hn. unfold inside3 in Hin. unfold fst3. rewrite !F by (unfold ID, IP, IU, IV, IW; lia).
        reflexivity.
      + reflexivity.
    - rewrite K2 by (unfold isize, jsize, ksize, imax, imin, jmax, jmin, kmax, kmin; auto; lia). apply F; auto. }
  intros a i j k v [-> | ->] H1 H2 H2' H3; [|auto].
  rewrite K3 by (unfold isize, jsize, ksize, imax, imin, jmax, jmin, kmax, kmin; auto; lia). apply F; auto.
Qed.
End U.
