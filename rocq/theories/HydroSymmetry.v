(** Symmetries of one hydrodynamics step over the reals: exchange of axes and
    reflection. *)
From Coq Require Import ZArith List Bool Reals Lia Lra Psatz.
From Verif Require Import Arith Par GridModel HydroState RiemannModel HydroPoint HydroKernels HydroField
  Physics PointProofs RiemannProofs RiemannMirror SymmetrySpec.
Import ListNotations.
Open Scope R_scope.

Definition swapVW (q : hs R) : hs R := HS (hD q) (hP q) (hU q) (hW q) (hV q).

(** The Riemann solvers do not use the spacings. *)
Definition same_gas (p p' : hparams R) : Prop :=
  gamma0 p = gamma0 p' /\ gamma6 p = gamma6 p' /\ smallr p = smallr p' /\ smallc p = smallc p' /\
  smallp p = smallp p' /\ smallpp p = smallpp p' /\ riemann_type p = riemann_type p'.
Lemma newton_gas p p' n : same_gas p p' -> forall pl pr ul ur cl cr pold conv,
  newton p n pl pr ul ur cl cr pold conv = newton p' n pl pr ul ur cl cr pold conv.
Proof.
  intros (E1 & E2 & E3 & E4 & E5 & E6 & E7). induction n; intros; cbn [newton]; [reflexivity|].
  rewrite IHn, E2, E6. reflexivity.
Qed.
Lemma pstar_gas p p' rl ul pl rr ur pr : same_gas p p' ->
  approx_pstar p rl ul pl rr ur pr = approx_pstar p' rl ul pl rr ur pr.
Proof.
  intros H. unfold approx_pstar. rewrite (newton_gas p p' 10 H). destruct H as (E1 & _). rewrite E1. reflexivity.
Qed.
Lemma approx_gas p p' d3 ql qr : same_gas p p' -> riemann_approx p d3 ql qr = riemann_approx p' d3 ql qr.
Proof.
  intros H. unfold riemann_approx. pose proof H as (E1 & E2 & E3 & E4 & E5 & E6 & E7).
  rewrite E3, E5. rewrite (pstar_gas p p' _ _ _ _ _ _ H).
  unfold approx_ustar, approx_w, approx_sample, cmpflx. rewrite E1, E2, E3, E4. reflexivity.
Qed.
Lemma llf_gas p p' d3 ql qr : same_gas p p' -> riemann_llf p d3 ql qr = riemann_llf p' d3 ql qr.
Proof.
  intros (E1 & E2 & E3 & E4 & E5 & E6 & E7). unfold riemann_llf, cons_of. rewrite E1, E3, E5. reflexivity.
Qed.
Lemma hll_gas p p' d3 ql qr : same_gas p p' -> riemann_hll p d3 ql qr = riemann_hll p' d3 ql qr.
Proof.
  intros (E1 & E2 & E3 & E4 & E5 & E6 & E7). unfold riemann_hll, cons_of. rewrite E1, E3, E5. reflexivity.
Qed.
Lemma hllc_gas p p' d3 ql qr : same_gas p p' -> riemann_hllc p d3 ql qr = riemann_hllc p' d3 ql qr.
Proof.
  intros (E1 & E2 & E3 & E4 & E5 & E6 & E7). unfold riemann_hllc. rewrite E1, E3, E4, E5. reflexivity.
Qed.
Lemma riemann2_gas p p' ql qr j : same_gas p p' -> riemann_hydro2 p ql qr j = riemann_hydro2 p' ql qr j.
Proof.
  intros H. unfold riemann_hydro2. rewrite (approx_gas p p'), (llf_gas p p'), (hll_gas p p'), (hllc_gas p p') by auto.
  destruct H as (_ & _ & _ & _ & _ & _ & E). rewrite E. reflexivity.
Qed.
Lemma riemann3_gas p p' ql qr j : same_gas p p' -> riemann_hydro3 p ql qr j = riemann_hydro3 p' ql qr j.
Proof.
  intros H. unfold riemann_hydro3. rewrite (approx_gas p p'), (llf_gas p p'), (hllc_gas p p') by auto.
  destruct H as (_ & _ & _ & _ & _ & _ & E). rewrite E. reflexivity.
Qed.
Lemma gas_xy p : same_gas (par_xy p) p. Proof. repeat split. Qed.
Lemma gas_xz p : same_gas (par_xz p) p. Proof. repeat split. Qed.

(** The 3D solvers treat the two transverse velocities alike. *)
Lemma approx_vw p ql qr : riemann_approx p true (swapVW ql) (swapVW qr) = swapVW (riemann_approx p true ql qr).
Proof.
  unfold riemann_approx. cbn [swapVW hD hP hU hV hW].
  match goal with |- (match ?e with pair _ _ => _ end) = _ => destruct e as [[a b] c] end. unfold cmpflx, swapVW. cbn [hD hP hU hV hW]. ar.
  destruct (Rlt_dec 0 _); apply HS_eq; try ring; f_equal; ring.
Qed.
Lemma llf_vw p ql qr : riemann_llf p true (swapVW ql) (swapVW qr) = swapVW (riemann_llf p true ql qr).
Proof.
  unfold riemann_llf, comb4, cons_of, llf_side, swapVW. cbn [hD hP hU hV hW]. ar. apply HS_eq; ring.
Qed.
Lemma ecin_vw r u q : hllc_ecin true r u (swapVW q) = hllc_ecin true r u q.
Proof. unfold hllc_ecin, swapVW. cbn [hV hW]. ar. ring. Qed.
Lemma hllc_vw p ql qr : riemann_hllc p true (swapVW ql) (swapVW qr) = swapVW (riemann_hllc p true ql qr).
Proof.
  unfold riemann_hllc. rewrite !ecin_vw. cbn [swapVW hD hP hU].
  match goal with |- (match ?e with pair _ _ => _ end) = _ => destruct e as [[[ro uo] po] eo] end. unfold swapVW. cbn [hD hP hU hV hW]. reflexivity.
Qed.
Lemma riemann3_vw p ql qr j : riemann_hydro3 p (swapVW ql) (swapVW qr) (swapVW j) = swapVW (riemann_hydro3 p ql qr j).
Proof.
  unfold riemann_hydro3. rewrite approx_vw, llf_vw, hllc_vw.
  repeat match goal with |- context [if ?b then _ else _] => destruct b end; reflexivity.
Qed.

(** ** Exchange of x and y, 2D *)
Section XY2.
Variable p : hparams R.
Variable dt : R.
Variable ge : bool.
Notation p' := (par_xy p).

Lemma prim2_xy u : snd (computePrimitives2 p' (swapUV u)) = w0 (swapUV (snd (computePrimitives2 p u))).
Proof.
  unfold computePrimitives2, swapUV, w0. cbn [snd hD hP hU hV hW]. ar. apply HS_eq; try reflexivity.
  cbn [par_xy smallr smallp gamma0]. f_equal. f_equal. f_equal. f_equal. ring.
Qed.
Lemma slope_dir2_xy q a b : slope_dir2 p' (swapUV q) (swapUV a) (swapUV b) = swapUV (slope_dir2 p q a b).
Proof. reflexivity. Qed.

Definition trQ (Q : Z -> Z -> hs R) (i j : Z) : hs R := swapUV (Q j i).
Definition trG (G : Z -> Z -> Z -> R) (i j d : Z) : R := G j i (dir_xy d).

Lemma slopes2_xy Q i j : slopes2 p' (trQ Q) i j zs zs =
  (swapUV (snd (slopes2 p Q j i zs zs)), swapUV (fst (slopes2 p Q j i zs zs))).
Proof.
  unfold slopes2, slope_unsplit_hydro_2d, trQ. cbn [par_xy slope_type].
  destruct (eqb (slope_type p) zero); [reflexivity|]. destruct (_ || _)%bool; reflexivity.
Qed.
Lemma trace2_xy q dX dY f f' : (f, f') = (FACE_XMIN, FACE_YMIN) \/ (f, f') = (FACE_XMAX, FACE_YMAX) \/
    (f, f') = (FACE_YMIN, FACE_XMIN) \/ (f, f') = (FACE_YMAX, FACE_XMAX) ->
  trace_unsplit_2d_along_dir p' (swapUV q) (swapUV dY) (swapUV dX) (dtdx p' dt) (dtdy p' dt) f =
  swapUV (trace_unsplit_2d_along_dir p q dX dY (dtdx p dt) (dtdy p dt) f').
Proof.
  intros [H|[H|[H|H]]]; injection H as -> ->; unfold trace_unsplit_2d_along_dir, swapUV, dtdx, dtdy;
    cbn [hD hP hU hV hW par_xy dx dy smallr gamma0]; ar; apply HS_eq; try ring; f_equal; ring.
Qed.
Lemma pred2_xy gx gy q : pred2 dt ge gy gx (swapUV q) = swapUV (pred2 dt ge gx gy q).
Proof. unfold pred2, swapUV. destruct ge; reflexivity. Qed.
Lemma face2_xy Q G i j f f' : (f, f') = (FACE_XMIN, FACE_YMIN) \/ (f, f') = (FACE_XMAX, FACE_YMAX) \/
    (f, f') = (FACE_YMIN, FACE_XMIN) \/ (f, f') = (FACE_YMAX, FACE_XMAX) ->
  face2 p' dt ge (trQ Q) (trG G) i j f = swapUV (face2 p dt ge Q G j i f').
Proof.
  intros H. unfold face2. cbv zeta. rewrite slopes2_xy. cbn [fst snd]. unfold trQ at 1.
  rewrite (trace2_xy _ _ _ f f' H). unfold trG. cbn [dir_xy Z.eqb IX IY]. rewrite <- pred2_xy. reflexivity.
Qed.
Lemma swapUV_inv (q : hs R) : swapUV (swapUV q) = q.
Proof. destruct q; reflexivity. Qed.
Lemma scale_swapUV (q : hs R) c : scale (swapUV q) c = swapUV (scale q c). Proof. reflexivity. Qed.

Lemma fluxX2_xy Q G i j : fluxX2 p' dt ge (trQ Q) (trG G) i j = swapUV (fluxY2 p dt ge Q G j i).
Proof.
  unfold fluxX2, fluxY2. rewrite (face2_xy _ _ _ _ _ FACE_YMAX), (face2_xy _ _ _ _ _ FACE_YMIN) by auto.
  rewrite (riemann2_gas p' p) by apply gas_xy. rewrite scale_swapUV, swapUV_inv. reflexivity.
Qed.
Lemma fluxY2_xy Q G i j : fluxY2 p' dt ge (trQ Q) (trG G) i j = swapUV (fluxX2 p dt ge Q G j i).
Proof.
  unfold fluxX2, fluxY2. rewrite (face2_xy _ _ _ _ _ FACE_XMAX), (face2_xy _ _ _ _ _ FACE_XMIN) by auto.
  rewrite !swapUV_inv. rewrite (riemann2_gas p' p) by apply gas_xy. rewrite scale_swapUV. reflexivity.
Qed.
Lemma step2_xy U G i j :
  step2 p' dt ge (trQ U) (trG G) i j = swapUV (step2 p dt ge U G j i).
Proof.
  assert (EQ : forall a b, snd (computePrimitives2 p' (trQ U a b)) = trQ (fun i j => snd (computePrimitives2 p (U i j))) a b).
  { intros. unfold trQ. rewrite prim2_xy. reflexivity. }
  unfold step2. cbv zeta.
  set (Q := fun i j => snd (computePrimitives2 p (U i j))) in *.
  assert (EX : forall i j, fluxX2 p' dt ge (fun a b => snd (computePrimitives2 p' (trQ U a b))) (trG G) i j = swapUV (fluxY2 p dt ge Q G j i)).
  { intros. rewrite <- fluxX2_xy. unfold fluxX2, face2, slopes2. cbv zeta. rewrite !EQ. reflexivity. }
  assert (EY : forall i j, fluxY2 p' dt ge (fun a b => snd (computePrimitives2 p' (trQ U a b))) (trG G) i j = swapUV (fluxX2 p dt ge Q G j i)).
  { intros. rewrite <- fluxY2_xy. unfold fluxY2, face2, slopes2. cbv zeta. rewrite !EQ. reflexivity. }
  rewrite !EX, !EY.
  set (X0 := fluxX2 p dt ge Q G j i). set (X1 := fluxX2 p dt ge Q G (j + 1) i).
  set (Y0 := fluxY2 p dt ge Q G j i). set (Y1 := fluxY2 p dt ge Q G j (i + 1)).
  match goal with |- (if ge then gravity_source2 _ _ _ ?a _ _ else _) = swapUV (if ge then gravity_source2 _ _ _ ?b _ _ else _) =>
    assert (E : a = swapUV b) end.
  { unfold w0, hs_map2, swapUV, trQ, swapUV. cbn [hD hP hU hV hW]. ar. apply HS_eq; ring. }
  rewrite E. clear E. destruct ge; [|reflexivity].
  match goal with |- _ = swapUV (gravity_source2 _ _ _ ?b _ _) => generalize b; intros [bd bp bu bv bw] end.
  unfold trG, trQ, gravity_source2. cbn [dir_xy Z.eqb Pos.eqb IX IY swapUV hD hP hU hV hW]. ar.
  unfold swapUV. cbn [par_xy smallr hD hP hU hV hW]. unfold Rdiv. apply HS_eq; try ring.
Qed.
End XY2.

(** ** 3D: exchange of x with y and of x with z *)
Lemma swapUW_inv (q : hs R) : swapUW (swapUW q) = q.
Proof. destruct q; reflexivity. Qed.
Lemma swapVW_inv (q : hs R) : swapVW (swapVW q) = q.
Proof. destruct q; reflexivity. Qed.
Lemma UW_UV (q : hs R) : swapUW (swapUV q) = swapVW (swapUW q). Proof. reflexivity. Qed.
Lemma UV_UW (q : hs R) : swapUV (swapUW q) = swapVW (swapUV q). Proof. reflexivity. Qed.

Section D3.
Variable p : hparams R.
Variable dt : R.
Variable ge : bool.

Section XY3.
Notation p' := (par_xy p).
Definition trQ3 (Q : Z -> Z -> Z -> hs R) (i j k : Z) : hs R := swapUV (Q j i k).
Definition trG3 (G : Z -> Z -> Z -> Z -> R) (i j k d : Z) : R := G j i k (dir_xy d).
Lemma prim3_xy u : snd (computePrimitives3 p' (swapUV u)) = swapUV (snd (computePrimitives3 p u)).
Proof.
  unfold computePrimitives3, swapUV. cbn [snd hD hP hU hV hW]. ar. apply HS_eq; try reflexivity.
  cbn [par_xy smallr smallp gamma0]. f_equal. f_equal. f_equal. f_equal. ring.
Qed.
Lemma slopes3_xy Q i j k : slopes3 p' (trQ3 Q) i j k zs zs zs =
  let '(a, b, c) := slopes3 p Q j i k zs zs zs in (swapUV b, swapUV a, swapUV c).
Proof.
  unfold slopes3, slope_unsplit_hydro_3d, trQ3. cbn [par_xy slope_type].
  destruct (eqb (slope_type p) zero); [reflexivity|]. destruct (_ || _)%bool; reflexivity.
Qed.
Lemma trace3_xy q dX dY dZ f :
  trace_unsplit_3d_along_dir p' (swapUV q) (swapUV dY) (swapUV dX) (swapUV dZ) (dtdx p' dt) (dtdy p' dt) (dtdz p' dt) f =
  swapUV (trace_unsplit_3d_along_dir p q dX dY dZ (dtdx p dt) (dtdy p dt) (dtdz p dt) (face_xy f)).
Proof.
  destruct f; unfold trace_unsplit_3d_along_dir, swapUV, dtdx, dtdy, dtdz, face_xy;
    cbn [hD hP hU hV hW par_xy dx dy dz smallr gamma0]; ar; apply HS_eq; try ring; f_equal; ring.
Qed.
Lemma pred3_xy gx gy gz q : pred3 dt ge gy gx gz (swapUV q) = swapUV (pred3 dt ge gx gy gz q).
Proof. unfold pred3, swapUV. destruct ge; reflexivity. Qed.
Lemma face3_xy Q G i j k f :
  face3 p' dt ge (trQ3 Q) (trG3 G) i j k f = swapUV (face3 p dt ge Q G j i k (face_xy f)).
Proof.
  unfold face3, tr3. cbv zeta. rewrite slopes3_xy.
  destruct (slopes3 p Q j i k zs zs zs) as [[a b] c]. cbn [fst snd]. unfold trQ3 at 1. rewrite trace3_xy.
  unfold trG3. cbn [dir_xy Z.eqb Pos.eqb IX IY IZ]. rewrite <- pred3_xy. reflexivity.
Qed.
Lemma fluxX3_xy Q G i j k : fluxX3 p' dt ge (trQ3 Q) (trG3 G) i j k = swapUV (fluxY3 p dt ge Q G j i k).
Proof.
  unfold fluxX3, fluxY3. rewrite !face3_xy. cbn [face_xy].
  rewrite (riemann3_gas p' p) by apply gas_xy. rewrite scale_swapUV, swapUV_inv. reflexivity.
Qed.
Lemma fluxY3_xy Q G i j k : fluxY3 p' dt ge (trQ3 Q) (trG3 G) i j k = swapUV (fluxX3 p dt ge Q G j i k).
Proof.
  unfold fluxX3, fluxY3. rewrite !face3_xy. cbn [face_xy]. rewrite !swapUV_inv.
  rewrite (riemann3_gas p' p) by apply gas_xy. rewrite scale_swapUV. reflexivity.
Qed.
Lemma fluxZ3_xy Q G i j k : fluxZ3 p' dt ge (trQ3 Q) (trG3 G) i j k = swapUV (fluxZ3 p dt ge Q G j i k).
Proof.
  unfold fluxZ3. rewrite !face3_xy. cbn [face_xy]. rewrite !UW_UV.
  rewrite (riemann3_gas p' p) by apply gas_xy. change (zs (T:=R)) with (swapVW zs) at 1. rewrite riemann3_vw. reflexivity.
Qed.
Lemma step3_xy U G i j k :
  step3 p' dt ge (fluxZ3 p' dt ge) (trQ3 U) (trG3 G) i j k = swapUV (step3 p dt ge (fluxZ3 p dt ge) U G j i k).
Proof.
  assert (EQ : forall a b c, snd (computePrimitives3 p' (trQ3 U a b c)) = trQ3 (fun i j k => snd (computePrimitives3 p (U i j k))) a b c).
  { intros. unfold trQ3. rewrite prim3_xy. reflexivity. }
  unfold step3. cbv zeta.
  set (Q := fun i j k => snd (computePrimitives3 p (U i j k))) in *.
  assert (EX : forall i j k, fluxX3 p' dt ge (fun a b c => snd (computePrimitives3 p' (trQ3 U a b c))) (trG3 G) i j k = swapUV (fluxY3 p dt ge Q G j i k)).
  { intros. rewrite <- fluxX3_xy. unfold fluxX3, face3, tr3, slopes3. cbv zeta. rewrite !EQ. reflexivity. }
  assert (EY : forall i j k, fluxY3 p' dt ge (fun a b c => snd (computePrimitives3 p' (trQ3 U a b c))) (trG3 G) i j k = swapUV (fluxX3 p dt ge Q G j i k)).
  { intros. rewrite <- fluxY3_xy. unfold fluxY3, face3, tr3, slopes3. cbv zeta. rewrite !EQ. reflexivity. }
  assert (EZ : forall i j k, fluxZ3 p' dt ge (fun a b c => snd (computePrimitives3 p' (trQ3 U a b c))) (trG3 G) i j k = swapUV (fluxZ3 p dt ge Q G j i k)).
  { intros. rewrite <- fluxZ3_xy. unfold fluxZ3, face3, tr3, slopes3. cbv zeta. rewrite !EQ. reflexivity. }
  rewrite !EX, !EY, !EZ.
  match goal with |- (if ge then gravity_source3 _ _ ?a _ _ _ else _) = swapUV (if ge then gravity_source3 _ _ ?b _ _ _ else _) =>
    assert (E : a = swapUV b) end.
  { unfold hs_map2, swapUV, trQ3, swapUV. cbn [hD hP hU hV hW]. ar. apply HS_eq; ring. }
  rewrite E. clear E. destruct ge; [|reflexivity].
  match goal with |- _ = swapUV (gravity_source3 _ _ ?b _ _ _) => generalize b; intros [bd bp bu bv bw] end.
  unfold trG3, trQ3, gravity_source3. cbn [dir_xy Z.eqb Pos.eqb IX IY IZ swapUV hD hP hU hV hW]. ar.
  unfold swapUV. cbn [hD hP hU hV hW]. unfold Rdiv. apply HS_eq; try ring.
Qed.
End XY3.

Section XZ3.
Notation p' := (par_xz p).
Definition trQz (Q : Z -> Z -> Z -> hs R) (i j k : Z) : hs R := swapUW (Q k j i).
Definition trGz (G : Z -> Z -> Z -> Z -> R) (i j k d : Z) : R := G k j i (dir_xz d).
Lemma prim3_xz u : snd (computePrimitives3 p' (swapUW u)) = swapUW (snd (computePrimitives3 p u)).
Proof.
  unfold computePrimitives3, swapUW. cbn [snd hD hP hU hV hW]. ar. apply HS_eq; try reflexivity.
  cbn [par_xz smallr smallp gamma0]. f_equal. f_equal. f_equal. f_equal. ring.
Qed.
Lemma slopes3_xz Q i j k : slopes3 p' (trQz Q) i j k zs zs zs =
  let '(a, b, c) := slopes3 p Q k j i zs zs zs in (swapUW c, swapUW b, swapUW a).
Proof.
  unfold slopes3, slope_unsplit_hydro_3d, trQz. cbn [par_xz slope_type].
  destruct (eqb (slope_type p) zero); [reflexivity|]. destruct (_ || _)%bool; reflexivity.
Qed.
Lemma trace3_xz q dX dY dZ f :
  trace_unsplit_3d_along_dir p' (swapUW q) (swapUW dZ) (swapUW dY) (swapUW dX) (dtdx p' dt) (dtdy p' dt) (dtdz p' dt) f =
  swapUW (trace_unsplit_3d_along_dir p q dX dY dZ (dtdx p dt) (dtdy p dt) (dtdz p dt) (face_xz f)).
Proof.
  destruct f; unfold trace_unsplit_3d_along_dir, swapUW, dtdx, dtdy, dtdz, face_xz;
    cbn [hD hP hU hV hW par_xz dx dy dz smallr gamma0]; ar; apply HS_eq; try ring; f_equal; ring.
Qed.
Lemma pred3_xz gx gy gz q : pred3 dt ge gz gy gx (swapUW q) = swapUW (pred3 dt ge gx gy gz q).
Proof. unfold pred3, swapUW. destruct ge; reflexivity. Qed.
Lemma face3_xz Q G i j k f :
  face3 p' dt ge (trQz Q) (trGz G) i j k f = swapUW (face3 p dt ge Q G k j i (face_xz f)).
Proof.
  unfold face3, tr3. cbv zeta. rewrite slopes3_xz.
  destruct (slopes3 p Q k j i zs zs zs) as [[a b] c]. cbn [fst snd]. unfold trQz at 1. rewrite trace3_xz.
  unfold trGz. cbn [dir_xz Z.eqb Pos.eqb IX IY IZ]. rewrite <- pred3_xz. reflexivity.
Qed.
Lemma scale_swapUW (q : hs R) c : scale (swapUW q) c = swapUW (scale q c). Proof. reflexivity. Qed.
Lemma fluxX3_xz Q G i j k : fluxX3 p' dt ge (trQz Q) (trGz G) i j k = swapUW (fluxZ3 p dt ge Q G k j i).
Proof.
  unfold fluxX3, fluxZ3. rewrite !face3_xz. cbn [face_xz].
  rewrite (riemann3_gas p' p) by apply gas_xz. rewrite scale_swapUW, swapUW_inv. reflexivity.
Qed.
Lemma fluxZ3_xz Q G i j k : fluxZ3 p' dt ge (trQz Q) (trGz G) i j k = swapUW (fluxX3 p dt ge Q G k j i).
Proof.
  unfold fluxX3, fluxZ3. rewrite !face3_xz. cbn [face_xz]. rewrite !swapUW_inv.
  rewrite (riemann3_gas p' p) by apply gas_xz. rewrite scale_swapUW. reflexivity.
Qed.
Lemma fluxY3_xz Q G i j k : fluxY3 p' dt ge (trQz Q) (trGz G) i j k = swapUW (fluxY3 p dt ge Q G k j i).
Proof.
  unfold fluxY3. rewrite !face3_xz. cbn [face_xz]. rewrite !UV_UW.
  rewrite (riemann3_gas p' p) by apply gas_xz. change (zs (T:=R)) with (swapVW zs) at 1. rewrite riemann3_vw. reflexivity.
Qed.
Lemma step3_xz U G i j k :
  step3 p' dt ge (fluxZ3 p' dt ge) (trQz U) (trGz G) i j k = swapUW (step3 p dt ge (fluxZ3 p dt ge) U G k j i).
Proof.
  assert (EQ : forall a b c, snd (computePrimitives3 p' (trQz U a b c)) = trQz (fun i j k => snd (computePrimitives3 p (U i j k))) a b c).
  { intros. unfold trQz. rewrite prim3_xz. reflexivity. }
  unfold step3. cbv zeta.
  set (Q := fun i j k => snd (computePrimitives3 p (U i j k))) in *.
  assert (EX : forall i j k, fluxX3 p' dt ge (fun a b c => snd (computePrimitives3 p' (trQz U a b c))) (trGz G) i j k = swapUW (fluxZ3 p dt ge Q G k j i)).
  { intros. rewrite <- fluxX3_xz. unfold fluxX3, face3, tr3, slopes3. cbv zeta. rewrite !EQ. reflexivity. }
  assert (EY : forall i j k, fluxY3 p' dt ge (fun a b c => snd (computePrimitives3 p' (trQz U a b c))) (trGz G) i j k = swapUW (fluxY3 p dt ge Q G k j i)).
  { intros. rewrite <- fluxY3_xz. unfold fluxY3, face3, tr3, slopes3. cbv zeta. rewrite !EQ. reflexivity. }
  assert (EZ : forall i j k, fluxZ3 p' dt ge (fun a b c => snd (computePrimitives3 p' (trQz U a b c))) (trGz G) i j k = swapUW (fluxX3 p dt ge Q G k j i)).
  { intros. rewrite <- fluxZ3_xz. unfold fluxZ3, face3, tr3, slopes3. cbv zeta. rewrite !EQ. reflexivity. }
  rewrite !EX, !EY, !EZ.
  match goal with |- (if ge then gravity_source3 _ _ ?a _ _ _ else _) = swapUW (if ge then gravity_source3 _ _ ?b _ _ _ else _) =>
    assert (E : a = swapUW b) end.
  { unfold hs_map2, swapUW, trQz, swapUW. cbn [hD hP hU hV hW]. ar. apply HS_eq; ring. }
  rewrite E. clear E. destruct ge; [|reflexivity].
  match goal with |- _ = swapUW (gravity_source3 _ _ ?b _ _ _) => generalize b; intros [bd bp bu bv bw] end.
  unfold trGz, trQz, gravity_source3. cbn [dir_xz Z.eqb Pos.eqb IX IY IZ swapUW hD hP hU hV hW]. ar.
  unfold swapUW. cbn [hD hP hU hV hW]. unfold Rdiv. apply HS_eq; try ring.
Qed.
End XZ3.
End D3.
