(** Reflection of a hydrodynamics step along x, over the reals, and walls. *)
From Coq Require Import ZArith List Bool Reals Lia Lra Psatz.
From Verif Require Import Arith Par GridModel HydroState RiemannModel HydroPoint HydroKernels HydroField HydroSpec
  Physics PointProofs RiemannProofs RiemannMirror SymmetrySpec HydroSymmetry.
Import ListNotations.
Open Scope R_scope.

Definition negV (q : hs R) : hs R := HS (hD q) (hP q) (hU q) (- hV q) (hW q).
Definition negW (q : hs R) : hs R := HS (hD q) (hP q) (hU q) (hV q) (- hW q).

(** Solvers and reflections of a transverse direction. *)
Lemma approx_negV p d3 ql qr : riemann_approx p d3 (negV ql) (negV qr) = negV (riemann_approx p d3 ql qr).
Proof.
  unfold riemann_approx. cbn [negV hD hP hU hV hW].
  match goal with |- (match ?e with pair _ _ => _ end) = _ => destruct e as [[a b] c] end. unfold cmpflx, negV. cbn [hD hP hU hV hW]. ar.
  destruct (Rlt_dec 0 _); destruct d3; apply HS_eq; try ring; f_equal; ring.
Qed.
Lemma cons_negV p d3 q : cons_of p d3 (negV q) = negV (cons_of p d3 q).
Proof. unfold cons_of, negV. cbn [hD hP hU hV hW]. ar. destruct d3; apply HS_eq; ring. Qed.
Lemma llf_side_negV d3 q u : llf_side d3 (negV q) (negV u) = negV (llf_side d3 q u).
Proof. unfold llf_side, negV. cbn [hD hP hU hV hW]. ar. apply HS_eq; ring. Qed.
Lemma hll_side_negV d3 q u : hll_side d3 (negV q) (negV u) = negV (hll_side d3 q u).
Proof. unfold hll_side, negV. cbn [hD hP hU hV hW]. ar. apply HS_eq; ring. Qed.
Lemma llf_negV p d3 ql qr : riemann_llf p d3 (negV ql) (negV qr) = negV (riemann_llf p d3 ql qr).
Proof.
  unfold riemann_llf. rewrite !cons_negV, !llf_side_negV. cbn [negV hD hP hU].
  set (c := maxv _ (add (absv (hU qr)) _)). unfold comb4, negV. cbn [hD hP hU hV hW]. ar. apply HS_eq; try ring.
Qed.
Lemma hll_negV p d3 ql qr : riemann_hll p d3 (negV ql) (negV qr) = negV (riemann_hll p d3 ql qr).
Proof.
  unfold riemann_hll. rewrite !cons_negV, !hll_side_negV. cbn [negV hD hP hU].
  set (a := minv _ zero). set (b := maxv _ zero). unfold comb4, negV. cbn [hD hP hU hV hW]. ar. unfold Rdiv.
  apply HS_eq; try ring.
Qed.
Lemma ecin_negV d3 r u q : hllc_ecin d3 r u (negV q) = hllc_ecin d3 r u q.
Proof. unfold hllc_ecin, negV. cbn [hV hW]. ar. destruct d3; ring. Qed.
Lemma hllc_negV p d3 ql qr : riemann_hllc p d3 (negV ql) (negV qr) = negV (riemann_hllc p d3 ql qr).
Proof.
  unfold riemann_hllc. rewrite !ecin_negV. cbn [negV hD hP hU].
  match goal with |- (match ?e with pair _ _ => _ end) = _ => destruct e as [[[ro uo] po] eo] end. unfold negV. cbn [hD hP hU hV hW]. ar.
  destruct (Rlt_dec 0 (ro * uo)); apply HS_eq; ring.
Qed.
Lemma riemann2_negV p ql qr j : riemann_hydro2 p (negV ql) (negV qr) (negV j) = negV (riemann_hydro2 p ql qr j).
Proof.
  unfold riemann_hydro2. rewrite approx_negV, llf_negV, hll_negV, hllc_negV.
  repeat match goal with |- context [if ?b then _ else _] => destruct b end; reflexivity.
Qed.
Lemma riemann3_negV p ql qr j : riemann_hydro3 p (negV ql) (negV qr) (negV j) = negV (riemann_hydro3 p ql qr j).
Proof.
  unfold riemann_hydro3. rewrite approx_negV, llf_negV, hllc_negV.
  repeat match goal with |- context [if ?b then _ else _] => destruct b end; reflexivity.
Qed.
Lemma negW_conj q : negW q = swapVW (negV (swapVW q)). Proof. reflexivity. Qed.
Lemma riemann3_negW p ql qr j : riemann_hydro3 p (negW ql) (negW qr) (negW j) = negW (riemann_hydro3 p ql qr j).
Proof. rewrite !negW_conj, riemann3_vw, riemann3_negV, riemann3_vw. reflexivity. Qed.

Lemma negV_zs : negV zs = zs.
Proof. unfold negV, zs, zero_state. cbn [hD hP hU hV hW]. ar. apply HS_eq; ring. Qed.
Lemma negW_zs : negW zs = zs.
Proof. unfold negW, zs, zero_state. cbn [hD hP hU hV hW]. ar. apply HS_eq; ring. Qed.

(** Slopes. *)
Lemma slope1_rev p q a b : slope1 p q b a = - slope1 p q a b.
Proof.
  unfold slope1. ar. set (t := slope_type p).
  replace (/ 2 * (b - a)) with (- (/ 2 * (a - b))) by ring.
  replace (t * (q - a)) with (- (t * (a - q))) by ring.
  replace (t * (b - q)) with (- (t * (q - b))) by ring.
  set (x := t * (q - b)). set (y := t * (a - q)). set (c := / 2 * (a - b)).
  rewrite !Rabs_Ropp. replace (- y * - x) with (x * y) by ring. rewrite (Rmin_comm (Rabs y)).
  set (d := if (if Rle_dec (x * y) 0 then true else false) then 0 else Rmin (Rabs x) (Rabs y)).
  assert (0 <= d).
  { unfold d. destruct Rle_dec; [lra|]. unfold Rmin. destruct Rle_dec; apply Rabs_pos. }
  destruct (Rtotal_order c 0) as [N|[N|N]].
  - destruct (Rle_dec 0 (- c)); [|lra]. destruct (Rle_dec 0 c); [lra|]. ring.
  - rewrite N, Ropp_0, Rabs_R0, Rmin_right by auto. ring.
  - destruct (Rle_dec 0 (- c)); [lra|]. destruct (Rle_dec 0 c); [|lra]. ring.
Qed.
Lemma slope1_opp p q a b : slope1 p (- q) (- a) (- b) = - slope1 p q a b.
Proof.
  rewrite <- slope1_rev. unfold slope1. ar. set (t := slope_type p).
  replace (/ 2 * (- a - - b)) with (/ 2 * (b - a)) by ring.
  replace (t * (- q - - b)) with (t * (b - q)) by ring.
  replace (t * (- a - - q)) with (t * (q - a)) by ring.
  rewrite (Rmult_comm (t * (b - q))), (Rmin_comm (Rabs (t * (b - q)))). reflexivity.
Qed.

Lemma negD_ring (x : R) : - 0 = 0 :> R. Proof. ring. Qed.
Lemma slope_dir2_mirx p q a b : slope_dir2 p (mirror q) (mirror b) (mirror a) = mirror_flux (slope_dir2 p q a b).
Proof.
  unfold slope_dir2, mirror, mirror_flux. cbn [hD hP hU hV hW]. ar.
  rewrite slope1_opp. apply HS_eq; first [apply slope1_rev | rewrite slope1_rev; ring | ring].
Qed.
Lemma slope_dir2_miry p q a b : slope_dir2 p (mirror q) (mirror a) (mirror b) = mirror (slope_dir2 p q a b).
Proof.
  unfold slope_dir2, mirror. cbn [hD hP hU hV hW]. rewrite slope1_opp. reflexivity.
Qed.
Lemma slope_dir3_mirx p q a b : slope_dir3 p (mirror q) (mirror b) (mirror a) = mirror_flux (slope_dir3 p q a b).
Proof.
  unfold slope_dir3, mirror, mirror_flux. cbn [hD hP hU hV hW]. ar.
  rewrite slope1_opp. apply HS_eq; first [apply slope1_rev | rewrite slope1_rev; ring | ring].
Qed.
Lemma slope_dir3_miry p q a b : slope_dir3 p (mirror q) (mirror a) (mirror b) = mirror (slope_dir3 p q a b).
Proof.
  unfold slope_dir3, mirror. cbn [hD hP hU hV hW]. rewrite slope1_opp. reflexivity.
Qed.
Lemma mf_zero : mirror_flux zero_state = zero_state.
Proof. unfold mirror_flux, zero_state. cbn [hD hP hU hV hW]. ar. apply HS_eq; ring. Qed.
Lemma mi_zero : mirror zero_state = zero_state.
Proof. unfold mirror, zero_state. cbn [hD hP hU hV hW]. ar. apply HS_eq; ring. Qed.

Section Refl2.
Variable p : hparams R.
Variable dt : R.
Variable ge : bool.
Variable c : Z.     (* cell i is mapped to c - i *)

Definition rQ (Q : Z -> Z -> hs R) (i j : Z) : hs R := mirror (Q (c - i)%Z j).
Definition rG (G : Z -> Z -> Z -> R) (i j d : Z) : R := if Z.eqb d IX then - G (c - i)%Z j d else G (c - i)%Z j d.

Ltac cidx := repeat match goal with
  | |- context [(c - (?i + 1))%Z] => replace (c - (i + 1))%Z with (c - i - 1)%Z by lia
  | |- context [(c - (?i - 1))%Z] => replace (c - (i - 1))%Z with (c - i + 1)%Z by lia end.

Lemma slopes2_refl Q i j : slopes2 p (rQ Q) i j zs zs =
  (mirror_flux (fst (slopes2 p Q (c - i) j zs zs)), mirror (snd (slopes2 p Q (c - i) j zs zs))).
Proof.
  unfold slopes2, slope_unsplit_hydro_2d, rQ. cidx.
  destruct (eqb (slope_type p) zero).
  { cbn [fst snd]. rewrite mf_zero, mi_zero. reflexivity. }
  destruct (_ || _)%bool; cbn [fst snd].
  - rewrite slope_dir2_mirx, slope_dir2_miry. reflexivity.
  - unfold zs. rewrite mf_zero, mi_zero. reflexivity.
Qed.
Lemma trace2_refl q dX dY f : f <> FACE_ZMIN -> f <> FACE_ZMAX ->
  trace_unsplit_2d_along_dir p (mirror q) (mirror_flux dX) (mirror dY) (dtdx p dt) (dtdy p dt) f =
  mirror (trace_unsplit_2d_along_dir p q dX dY (dtdx p dt) (dtdy p dt) (flipx f)).
Proof.
  intros H1 H2. destruct f; try congruence; unfold trace_unsplit_2d_along_dir, mirror, mirror_flux, flipx;
    cbn [hD hP hU hV hW]; ar; unfold Rdiv; apply HS_eq; try ring; f_equal; ring.
Qed.
Lemma pred2_refl gx gy q : pred2 dt ge (- gx) gy (mirror q) = mirror (pred2 dt ge gx gy q).
Proof. unfold pred2, mirror. destruct ge; cbn [hD hP hU hV hW]; ar; [apply HS_eq; ring|reflexivity]. Qed.
Lemma face2_refl Q G i j f : f <> FACE_ZMIN -> f <> FACE_ZMAX ->
  face2 p dt ge (rQ Q) (rG G) i j f = mirror (face2 p dt ge Q G (c - i) j (flipx f)).
Proof.
  intros H1 H2. unfold face2. cbv zeta. rewrite slopes2_refl. cbn [fst snd]. unfold rQ at 1.
  rewrite trace2_refl by auto. unfold rG. cbn [Z.eqb IX IY]. rewrite <- pred2_refl. reflexivity.
Qed.
Lemma scale_mf (q : hs R) k : scale (mirror_flux q) k = mirror_flux (scale q k).
Proof. unfold scale, mirror_flux. cbn [hD hP hU hV hW]. ar. apply HS_eq; ring. Qed.
Lemma scale_mi (q : hs R) k : scale (mirror q) k = mirror (scale q k).
Proof. unfold scale, mirror. cbn [hD hP hU hV hW]. ar. apply HS_eq; ring. Qed.
Hypothesis Hp : params_ok p.
Hypothesis Hr : In (riemann_type p) [RIEMANN_HLL; RIEMANN_HLLC; RIEMANN_LLF].
Lemma fluxX2_refl Q G i j : fluxX2 p dt ge (rQ Q) (rG G) i j = mirror_flux (fluxX2 p dt ge Q G (c - i + 1) j).
Proof.
  unfold fluxX2. rewrite !face2_refl by discriminate. cbn [flipx]. cidx. rewrite mirror2_all by auto.
  rewrite scale_mf. replace (c - i + 1 - 1)%Z with (c - i)%Z by lia. reflexivity.
Qed.
Lemma swap_mi (q : hs R) : swapUV (mirror q) = negV (swapUV q). Proof. reflexivity. Qed.
Lemma swap_nV (q : hs R) : swapUV (negV q) = mirror (swapUV q). Proof. reflexivity. Qed.
Lemma fluxY2_refl Q G i j : fluxY2 p dt ge (rQ Q) (rG G) i j = mirror (fluxY2 p dt ge Q G (c - i) j).
Proof.
  unfold fluxY2. rewrite !face2_refl by discriminate. cbn [flipx]. rewrite !swap_mi.
  rewrite <- negV_zs at 1. rewrite riemann2_negV, swap_nV, scale_mi. reflexivity.
Qed.
Lemma prim2_refl u : snd (computePrimitives2 p (mirror u)) = mirror (snd (computePrimitives2 p u)).
Proof.
  unfold computePrimitives2, mirror. cbn [snd hD hP hU hV hW]. ar. unfold Rdiv. apply HS_eq; try reflexivity; try ring.
  f_equal. ring.
Qed.
Lemma step2_refl U G i j : step2 p dt ge (rQ U) (rG G) i j = mirror (step2 p dt ge U G (c - i) j).
Proof.
  assert (EQ : forall a b, snd (computePrimitives2 p (rQ U a b)) = rQ (fun i j => snd (computePrimitives2 p (U i j))) a b).
  { intros. unfold rQ. rewrite prim2_refl. reflexivity. }
  unfold step2. cbv zeta.
  set (Q := fun i j => snd (computePrimitives2 p (U i j))) in *.
  assert (EX : forall i j, fluxX2 p dt ge (fun a b => snd (computePrimitives2 p (rQ U a b))) (rG G) i j = mirror_flux (fluxX2 p dt ge Q G (c - i + 1) j)).
  { intros. rewrite <- fluxX2_refl. unfold fluxX2, face2, slopes2. cbv zeta. rewrite !EQ. reflexivity. }
  assert (EY : forall i j, fluxY2 p dt ge (fun a b => snd (computePrimitives2 p (rQ U a b))) (rG G) i j = mirror (fluxY2 p dt ge Q G (c - i) j)).
  { intros. rewrite <- fluxY2_refl. unfold fluxY2, face2, slopes2. cbv zeta. rewrite !EQ. reflexivity. }
  rewrite !EX, !EY. replace (c - (i + 1) + 1)%Z with (c - i)%Z by lia.
  match goal with |- (if ge then gravity_source2 _ _ _ ?a _ _ else _) = mirror (if ge then gravity_source2 _ _ _ ?b _ _ else _) =>
    assert (E : a = mirror b) end.
  { unfold w0, hs_map2, rQ, mirror, mirror_flux. cbn [hD hP hU hV hW]. ar. apply HS_eq; ring. }
  rewrite E. clear E. destruct ge; [|reflexivity].
  match goal with |- _ = mirror (gravity_source2 _ _ _ ?b _ _) => generalize b; intros [bd bp bu bv bw] end.
  unfold rG, rQ, gravity_source2. cbn [Z.eqb IX IY]. unfold mirror. cbn [hD hP hU hV hW]. ar. unfold Rdiv. apply HS_eq; ring.
Qed.
End Refl2.

Section Refl3.
Variable p : hparams R.
Variable dt : R.
Variable ge : bool.
Variable c : Z.

Definition rQ3 (Q : Z -> Z -> Z -> hs R) (i j k : Z) : hs R := mirror (Q (c - i)%Z j k).
Definition rG3 (G : Z -> Z -> Z -> Z -> R) (i j k d : Z) : R := if Z.eqb d IX then - G (c - i)%Z j k d else G (c - i)%Z j k d.

Ltac cidx := repeat match goal with
  | |- context [(c - (?i + 1))%Z] => replace (c - (i + 1))%Z with (c - i - 1)%Z by lia
  | |- context [(c - (?i - 1))%Z] => replace (c - (i - 1))%Z with (c - i + 1)%Z by lia end.

Lemma slopes3_refl Q i j k : slopes3 p (rQ3 Q) i j k zs zs zs =
  let '(a, b, d) := slopes3 p Q (c - i) j k zs zs zs in (mirror_flux a, mirror b, mirror d).
Proof.
  unfold slopes3, slope_unsplit_hydro_3d, rQ3. cidx.
  destruct (eqb (slope_type p) zero).
  { rewrite mf_zero, mi_zero. reflexivity. }
  destruct (_ || _)%bool.
  - rewrite slope_dir3_mirx, !slope_dir3_miry. reflexivity.
  - unfold zs. rewrite mf_zero, mi_zero. reflexivity.
Qed.
Lemma trace3_refl q dX dY dZ f :
  trace_unsplit_3d_along_dir p (mirror q) (mirror_flux dX) (mirror dY) (mirror dZ) (dtdx p dt) (dtdy p dt) (dtdz p dt) f =
  mirror (trace_unsplit_3d_along_dir p q dX dY dZ (dtdx p dt) (dtdy p dt) (dtdz p dt) (flipx f)).
Proof.
  destruct f; unfold trace_unsplit_3d_along_dir, mirror, mirror_flux, flipx;
    cbn [hD hP hU hV hW]; ar; unfold Rdiv; apply HS_eq; try ring; f_equal; ring.
Qed.
Lemma pred3_refl gx gy gz q : pred3 dt ge (- gx) gy gz (mirror q) = mirror (pred3 dt ge gx gy gz q).
Proof. unfold pred3, mirror. destruct ge; cbn [hD hP hU hV hW]; ar; [apply HS_eq; ring|reflexivity]. Qed.
Lemma face3_refl Q G i j k f :
  face3 p dt ge (rQ3 Q) (rG3 G) i j k f = mirror (face3 p dt ge Q G (c - i) j k (flipx f)).
Proof.
  unfold face3, tr3. cbv zeta. rewrite slopes3_refl.
  destruct (slopes3 p Q (c - i) j k zs zs zs) as [[a b] d]. cbn [fst snd]. unfold rQ3 at 1.
  rewrite trace3_refl. unfold rG3. cbn [Z.eqb IX IY IZ]. rewrite <- pred3_refl. reflexivity.
Qed.
Hypothesis Hp : params_ok p.
Hypothesis Hr : In (riemann_type p) [RIEMANN_HLLC; RIEMANN_LLF].
Lemma fluxX3_refl Q G i j k : fluxX3 p dt ge (rQ3 Q) (rG3 G) i j k = mirror_flux (fluxX3 p dt ge Q G (c - i + 1) j k).
Proof.
  unfold fluxX3. rewrite !face3_refl. cbn [flipx]. cidx. rewrite mirror3_all by auto.
  rewrite scale_mf. replace (c - i + 1 - 1)%Z with (c - i)%Z by lia. reflexivity.
Qed.
Lemma swapW_mi (q : hs R) : swapUW (mirror q) = negW (swapUW q). Proof. reflexivity. Qed.
Lemma swapW_nW (q : hs R) : swapUW (negW q) = mirror (swapUW q). Proof. reflexivity. Qed.
Lemma fluxY3_refl Q G i j k : fluxY3 p dt ge (rQ3 Q) (rG3 G) i j k = mirror (fluxY3 p dt ge Q G (c - i) j k).
Proof.
  unfold fluxY3. rewrite !face3_refl. cbn [flipx]. rewrite !swap_mi.
  rewrite <- negV_zs at 1. rewrite riemann3_negV, swap_nV, scale_mi. reflexivity.
Qed.
Lemma fluxZ3_refl Q G i j k : fluxZ3 p dt ge (rQ3 Q) (rG3 G) i j k = mirror (fluxZ3 p dt ge Q G (c - i) j k).
Proof.
  unfold fluxZ3. rewrite !face3_refl. cbn [flipx]. rewrite !swapW_mi.
  rewrite <- negW_zs at 1. rewrite riemann3_negW, swapW_nW, scale_mi. reflexivity.
Qed.
Lemma prim3_refl u : snd (computePrimitives3 p (mirror u)) = mirror (snd (computePrimitives3 p u)).
Proof.
  unfold computePrimitives3, mirror. cbn [snd hD hP hU hV hW]. ar. unfold Rdiv. apply HS_eq; try reflexivity; try ring.
  f_equal. ring.
Qed.
Lemma step3_refl U G i j k : step3 p dt ge (fluxZ3 p dt ge) (rQ3 U) (rG3 G) i j k = mirror (step3 p dt ge (fluxZ3 p dt ge) U G (c - i) j k).
Proof.
  assert (EQ : forall a b d, snd (computePrimitives3 p (rQ3 U a b d)) = rQ3 (fun i j k => snd (computePrimitives3 p (U i j k))) a b d).
  { intros. unfold rQ3. rewrite prim3_refl. reflexivity. }
  unfold step3. cbv zeta.
  set (Q := fun i j k => snd (computePrimitives3 p (U i j k))) in *.
  assert (EX : forall i j k, fluxX3 p dt ge (fun a b d => snd (computePrimitives3 p (rQ3 U a b d))) (rG3 G) i j k = mirror_flux (fluxX3 p dt ge Q G (c - i + 1) j k)).
  { intros. rewrite <- fluxX3_refl. unfold fluxX3, face3, tr3, slopes3. cbv zeta. rewrite !EQ. reflexivity. }
  assert (EY : forall i j k, fluxY3 p dt ge (fun a b d => snd (computePrimitives3 p (rQ3 U a b d))) (rG3 G) i j k = mirror (fluxY3 p dt ge Q G (c - i) j k)).
  { intros. rewrite <- fluxY3_refl. unfold fluxY3, face3, tr3, slopes3. cbv zeta. rewrite !EQ. reflexivity. }
  assert (EZ : forall i j k, fluxZ3 p dt ge (fun a b d => snd (computePrimitives3 p (rQ3 U a b d))) (rG3 G) i j k = mirror (fluxZ3 p dt ge Q G (c - i) j k)).
  { intros. rewrite <- fluxZ3_refl. unfold fluxZ3, face3, tr3, slopes3. cbv zeta. rewrite !EQ. reflexivity. }
  rewrite !EX, !EY, !EZ. replace (c - (i + 1) + 1)%Z with (c - i)%Z by lia.
  match goal with |- (if ge then gravity_source3 _ _ ?a _ _ _ else _) = mirror (if ge then gravity_source3 _ _ ?b _ _ _ else _) =>
    assert (E : a = mirror b) end.
  { unfold hs_map2, rQ3, mirror, mirror_flux. cbn [hD hP hU hV hW]. ar. apply HS_eq; ring. }
  rewrite E. clear E. destruct ge; [|reflexivity].
  match goal with |- _ = mirror (gravity_source3 _ _ ?b _ _ _) => generalize b; intros [bd bp bu bv bw] end.
  unfold rG3, rQ3, gravity_source3. cbn [Z.eqb IX IY IZ]. unfold mirror. cbn [hD hP hU hV hW]. ar. unfold Rdiv. apply HS_eq; ring.
Qed.
End Refl3.
