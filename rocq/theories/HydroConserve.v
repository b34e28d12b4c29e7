(** Conservation: the totals change only by the fluxes through the boundary of
    the domain, and those cancel when the domain is periodic. *)
From Coq Require Import ZArith List Bool Reals Lia Lra.
From Verif Require Import Arith Par ParProofs GridModel BoundaryModel BoundarySpec BoundaryProofs
  HydroState RiemannModel HydroPoint HydroKernels HydroField HydroExec HydroSpec HydroProofs2 HydroStep2
  HydroProofs3 HydroStep3 HydroSums.
Import ListNotations.
Open Scope Z_scope.

(** Entry [v] of a state vector. *)
Definition comp {T} (q : hs T) (v : Z) : T :=
  if v =? ID then hD q else if v =? IP then hP q else if v =? IU then hU q else if v =? IV then hV q else hW q.

Lemma comp_map2 {T} (op : T -> T -> T) x y v : comp (hs_map2 op x y) v = op (comp x v) (comp y v).
Proof. unfold comp, hs_map2. destruct (v =? ID), (v =? IP), (v =? IU), (v =? IV); reflexivity. Qed.

Lemma v4 v : 0 <= v < 4 -> v = ID \/ v = IP \/ v = IU \/ v = IV.
Proof. unfold ID, IP, IU, IV. lia. Qed.
Lemma v5 v : 0 <= v < 5 -> v = ID \/ v = IP \/ v = IU \/ v = IV \/ v = IW.
Proof. unfold ID, IP, IU, IV, IW. lia. Qed.

Lemma comp_st2 {T} {A : Arith T} (s : store T) a i j v : 0 <= v < 4 -> comp (st2 s a i j) v = s (Loc a i j 0 v).
Proof. intros H. apply v4 in H. destruct H as [->|[->|[->| ->]]]; reflexivity. Qed.
Lemma comp_st3 {T} {A : Arith T} (s : store T) a i j k v : 0 <= v < 5 -> comp (st3 s a i j k) v = s (Loc a i j k v).
Proof. intros H. apply v5 in H. destruct H as [->|[->|[->|[->| ->]]]]; reflexivity. Qed.
Lemma comp_w0 {T} {A : Arith T} (q : hs T) v : 0 <= v < 4 -> comp (w0 q) v = comp q v.
Proof. intros H. apply v4 in H. destruct H as [->|[->|[->| ->]]]; reflexivity. Qed.
Lemma comp_fst2 {T} {A : Arith T} g (s : store T) a i j v : 0 <= v < 4 ->
  comp (fst2 g s a i j) v = filled2d false g (fun i j v => s (Loc a i j 0 v)) i j v.
Proof. intros H. apply v4 in H. destruct H as [->|[->|[->| ->]]]; reflexivity. Qed.
Lemma comp_fst3 {T} {A : Arith T} g (s : store T) a i j k v : 0 <= v < 5 ->
  comp (fst3 g s a i j k) v = filled3d false g (fun i j k v => s (Loc a i j k v)) i j k v.
Proof. intros H. apply v5 in H. destruct H as [->|[->|[->|[->| ->]]]]; reflexivity. Qed.

Lemma slope_ok_spec {T} {A : Arith T} (p : hparams T) : slope_ok p -> slopes_ok p.
Proof.
  unfold slope_ok, slopes_ok, slopes_defined. intros [H|[H|H]]; rewrite H; rewrite ?orb_true_r; reflexivity.
Qed.
Lemma riemann_ok2_spec {T} {A : Arith T} (p : hparams T) : riemann_ok2 p -> riem2_ok p.
Proof.
  unfold riemann_ok2, riem2_ok, riemann_defined2. cbn [In]. intros [<-|[<-|[<-|[<-|[]]]]]; reflexivity.
Qed.
Lemma riemann_ok3_spec {T} {A : Arith T} (p : hparams T) : riemann_ok3 p -> riem3_ok p.
Proof.
  unfold riemann_ok3, riem3_ok, riemann_defined3. cbn [In]. intros [<-|[<-|[<-|[]]]]; reflexivity.
Qed.

(** ** Shifts *)
Section Shift.
Context {T : Type} {A : Arith T}.
Variable p : hparams T.
Variable dt : T.
Variable ge : bool.

Ltac shf a b := repeat match goal with
  | |- context [?i + a + 1] => replace (i + a + 1) with (i + 1 + a) by lia
  | |- context [?i + a - 1] => replace (i + a - 1) with (i - 1 + a) by lia
  | |- context [?i + b + 1] => replace (i + b + 1) with (i + 1 + b) by lia
  | |- context [?i + b - 1] => replace (i + b - 1) with (i - 1 + b) by lia end.

Lemma slopes2_shift (Q : Z -> Z -> hs T) a b i j jx jy :
  slopes2 p Q (i + a) (j + b) jx jy = slopes2 p (fun i j => Q (i + a) (j + b)) i j jx jy.
Proof. unfold slopes2. shf a b. reflexivity. Qed.
Lemma face2_shift (Q : Z -> Z -> hs T) G a b i j f :
  face2 p dt ge Q G (i + a) (j + b) f
  = face2 p dt ge (fun i j => Q (i + a) (j + b)) (fun i j d => G (i + a) (j + b) d) i j f.
Proof. unfold face2. rewrite slopes2_shift. reflexivity. Qed.
Lemma fluxX2_shift (Q : Z -> Z -> hs T) G a b i j :
  fluxX2 p dt ge Q G (i + a) (j + b)
  = fluxX2 p dt ge (fun i j => Q (i + a) (j + b)) (fun i j d => G (i + a) (j + b) d) i j.
Proof. unfold fluxX2. shf a b. rewrite !face2_shift. reflexivity. Qed.
Lemma fluxY2_shift (Q : Z -> Z -> hs T) G a b i j :
  fluxY2 p dt ge Q G (i + a) (j + b)
  = fluxY2 p dt ge (fun i j => Q (i + a) (j + b)) (fun i j d => G (i + a) (j + b) d) i j.
Proof. unfold fluxY2. shf a b. rewrite !face2_shift. reflexivity. Qed.
Lemma step2_shift (U : Z -> Z -> hs T) G a b i j :
  step2 p dt ge U G (i + a) (j + b)
  = step2 p dt ge (fun i j => U (i + a) (j + b)) (fun i j d => G (i + a) (j + b) d) i j.
Proof. unfold step2. cbv zeta. shf a b. rewrite !fluxX2_shift, !fluxY2_shift. reflexivity. Qed.

Ltac shf3 a b c := repeat match goal with
  | |- context [?i + a + 1] => replace (i + a + 1) with (i + 1 + a) by lia
  | |- context [?i + a - 1] => replace (i + a - 1) with (i - 1 + a) by lia
  | |- context [?i + b + 1] => replace (i + b + 1) with (i + 1 + b) by lia
  | |- context [?i + b - 1] => replace (i + b - 1) with (i - 1 + b) by lia
  | |- context [?i + c + 1] => replace (i + c + 1) with (i + 1 + c) by lia
  | |- context [?i + c - 1] => replace (i + c - 1) with (i - 1 + c) by lia end.
Lemma slopes3_shift (Q : Z -> Z -> Z -> hs T) a b c i j k jx jy jz :
  slopes3 p Q (i + a) (j + b) (k + c) jx jy jz
  = slopes3 p (fun i j k => Q (i + a) (j + b) (k + c)) i j k jx jy jz.
Proof. unfold slopes3. shf3 a b c. reflexivity. Qed.
Lemma tr3_shift (Q : Z -> Z -> Z -> hs T) a b c i j k f :
  tr3 p dt Q (i + a) (j + b) (k + c) f = tr3 p dt (fun i j k => Q (i + a) (j + b) (k + c)) i j k f.
Proof. unfold tr3. rewrite slopes3_shift. reflexivity. Qed.
Lemma face3_shift (Q : Z -> Z -> Z -> hs T) G a b c i j k f :
  face3 p dt ge Q G (i + a) (j + b) (k + c) f
  = face3 p dt ge (fun i j k => Q (i + a) (j + b) (k + c)) (fun i j k d => G (i + a) (j + b) (k + c) d) i j k f.
Proof. unfold face3. rewrite tr3_shift. reflexivity. Qed.
Lemma fluxX3_shift (Q : Z -> Z -> Z -> hs T) G a b c i j k :
  fluxX3 p dt ge Q G (i + a) (j + b) (k + c)
  = fluxX3 p dt ge (fun i j k => Q (i + a) (j + b) (k + c)) (fun i j k d => G (i + a) (j + b) (k + c) d) i j k.
Proof. unfold fluxX3. shf3 a b c. rewrite !face3_shift. reflexivity. Qed.
Lemma fluxY3_shift (Q : Z -> Z -> Z -> hs T) G a b c i j k :
  fluxY3 p dt ge Q G (i + a) (j + b) (k + c)
  = fluxY3 p dt ge (fun i j k => Q (i + a) (j + b) (k + c)) (fun i j k d => G (i + a) (j + b) (k + c) d) i j k.
Proof. unfold fluxY3. shf3 a b c. rewrite !face3_shift. reflexivity. Qed.
Lemma zfx_shift impl (Q : Z -> Z -> Z -> hs T) G a b c i j k :
  zfx p dt ge impl Q G (i + a) (j + b) (k + c)
  = zfx p dt ge impl (fun i j k => Q (i + a) (j + b) (k + c)) (fun i j k d => G (i + a) (j + b) (k + c) d) i j k.
Proof.
  unfold zfx. destruct (impl =? 0); [unfold fluxZ3|unfold fluxZ3']; shf3 a b c;
    rewrite ?tr3_shift, !face3_shift; reflexivity.
Qed.
Lemma step3_shift impl (U : Z -> Z -> Z -> hs T) G a b c i j k :
  step3 p dt ge (zfx p dt ge impl) U G (i + a) (j + b) (k + c)
  = step3 p dt ge (zfx p dt ge impl) (fun i j k => U (i + a) (j + b) (k + c))
      (fun i j k d => G (i + a) (j + b) (k + c) d) i j k.
Proof. unfold step3. cbv zeta. shf3 a b c. rewrite !fluxX3_shift, !fluxY3_shift, !zfx_shift. reflexivity. Qed.
End Shift.

(** ** Balance *)
Section Balance.
Open Scope R_scope.
Variable p : hparams R.
Variable g : grid.
Variable dt : R.

Definition prim2 (U : Z -> Z -> hs R) (i j : Z) : hs R := snd (computePrimitives2 p (U i j)).
Definition prim3 (U : Z -> Z -> Z -> hs R) (i j k : Z) : hs R := snd (computePrimitives3 p (U i j k)).

Lemma step2_comp U G i j v : (0 <= v < 4)%Z ->
  comp (step2 p dt false U G i j) v =
  comp (U i j) v + (comp (fluxX2 p dt false (prim2 U) G i j) v - comp (fluxX2 p dt false (prim2 U) G (i + 1) j) v)
                 + (comp (fluxY2 p dt false (prim2 U) G i j) v - comp (fluxY2 p dt false (prim2 U) G i (j + 1)) v).
Proof.
  intros Hv. unfold step2. cbv zeta iota. rewrite comp_w0 by auto. rewrite !comp_map2.
  fold (prim2 U). cbn [add sub RArith]. lra.
Qed.

(** Fluxes through the four sides of the domain. *)
Definition net2 U G v : R :=
  sumZ (gw g) (gw g + ny g) (fun j => comp (fluxX2 p dt false (prim2 U) G (gw g) j) v
                                    - comp (fluxX2 p dt false (prim2 U) G (gw g + nx g) j) v)
  + sumZ (gw g) (gw g + nx g) (fun i => comp (fluxY2 p dt false (prim2 U) G i (gw g)) v
                                    - comp (fluxY2 p dt false (prim2 U) G i (gw g + ny g)) v).

Lemma total2_fst2 (s : store R) a v : (0 <= v < 4)%Z ->
  sumZ (gw g) (gw g + nx g) (fun i => sumZ (gw g) (gw g + ny g) (fun j => comp (fst2 g s a i j) v)) = total2 g s a v.
Proof.
  intros Hv. unfold total2. apply sumZ_ext. intros i Hi. apply sumZ_ext. intros j Hj.
  rewrite comp_fst2, filled2d_interior by auto. reflexivity.
Qed.

Lemma balance2 junk impl aIn aOut (s s' : store R) v :
  (impl = 0 \/ impl = 1)%Z -> arr_ok aIn aOut -> hydro_grid2 g -> slope_ok p -> riemann_ok2 p -> (0 <= v < 4)%Z ->
  run_kernels (godunov2 p g dt false junk impl aIn aOut) s s' ->
  total2 g s' aOut v = total2 g s aIn v + net2 (fst2 g s aIn) (gr2 s) v.
Proof.
  intros Hi Ha Hg Hs Hr Hv Hk.
  destruct (godunov2_spec p g dt false junk impl aIn aOut s s' Hi Ha Hg (slope_ok_spec p Hs) (riemann_ok2_spec p Hr) Hk) as (K1 & _).
  pose proof Hg as (G1 & G2 & G3 & G4).
  unfold total2 at 1.
  set (U := fst2 g s aIn) in *. set (X := fluxX2 p dt false (prim2 U) (gr2 s)).
  set (Y := fluxY2 p dt false (prim2 U) (gr2 s)).
  rewrite (sumZ_ext _ _ _ (fun i => sumZ (gw g) (gw g + ny g) (fun j => comp (U i j) v)
      + sumZ (gw g) (gw g + ny g) (fun j => comp (X i j) v - comp (X (i + 1)%Z j) v)
      + sumZ (gw g) (gw g + ny g) (fun j => comp (Y i j) v - comp (Y i (j + 1)%Z) v))).
  2:{ intros i Hi'. rewrite <- !sumZ_add. apply sumZ_ext. intros j Hj'.
      rewrite <- comp_st2, K1, step2_comp by (auto; unfold inside2; lia). unfold X, Y. lra. }
  rewrite !sumZ_add. unfold U at 1. rewrite total2_fst2 by auto.
  rewrite (sumZ_swap _ _ _ _ (fun i j => comp (X i j) v - comp (X (i + 1)%Z j) v)).
  unfold net2. fold X Y. rewrite Rplus_assoc. f_equal. f_equal.
  - apply sumZ_ext. intros j Hj. apply (sumZ_tele _ _ (fun i => comp (X i j) v)). lia.
  - apply sumZ_ext. intros i Hi'. apply (sumZ_tele _ _ (fun j => comp (Y i j) v)). lia.
Qed.

Lemma step3_comp impl U G i j k v :
  comp (step3 p dt false (zfx p dt false impl) U G i j k) v =
  comp (U i j k) v
  + (comp (fluxX3 p dt false (prim3 U) G i j k) v - comp (fluxX3 p dt false (prim3 U) G (i + 1) j k) v)
  + (comp (fluxY3 p dt false (prim3 U) G i j k) v - comp (fluxY3 p dt false (prim3 U) G i (j + 1) k) v)
  + (comp (zfx p dt false impl (prim3 U) G i j k) v - comp (zfx p dt false impl (prim3 U) G i j (k + 1)) v).
Proof.
  unfold step3. cbv zeta iota. rewrite !comp_map2. fold (prim3 U). cbn [add sub RArith]. lra.
Qed.

Definition net3 impl U G v : R :=
  sumZ (gw g) (gw g + ny g) (fun j => sumZ (gw g) (gw g + nz g) (fun k =>
     comp (fluxX3 p dt false (prim3 U) G (gw g) j k) v - comp (fluxX3 p dt false (prim3 U) G (gw g + nx g) j k) v))
  + sumZ (gw g) (gw g + nx g) (fun i => sumZ (gw g) (gw g + nz g) (fun k =>
     comp (fluxY3 p dt false (prim3 U) G i (gw g) k) v - comp (fluxY3 p dt false (prim3 U) G i (gw g + ny g) k) v))
  + sumZ (gw g) (gw g + nx g) (fun i => sumZ (gw g) (gw g + ny g) (fun j =>
     comp (zfx p dt false impl (prim3 U) G i j (gw g)) v - comp (zfx p dt false impl (prim3 U) G i j (gw g + nz g)) v)).

Lemma total3_fst3 (s : store R) a v : (0 <= v < 5)%Z ->
  sumZ (gw g) (gw g + nx g) (fun i => sumZ (gw g) (gw g + ny g) (fun j => sumZ (gw g) (gw g + nz g) (fun k =>
    comp (fst3 g s a i j k) v))) = total3 g s a v.
Proof.
  intros Hv. unfold total3. apply sumZ_ext. intros i Hi. apply sumZ_ext. intros j Hj. apply sumZ_ext. intros k Hk.
  rewrite comp_fst3, filled3d_interior by auto. reflexivity.
Qed.

Lemma sumZ3_add a b c d e f (F G : Z -> Z -> Z -> R) :
  sumZ a b (fun i => sumZ c d (fun j => sumZ e f (fun k => F i j k + G i j k))) =
  sumZ a b (fun i => sumZ c d (fun j => sumZ e f (fun k => F i j k)))
  + sumZ a b (fun i => sumZ c d (fun j => sumZ e f (fun k => G i j k))).
Proof.
  rewrite <- sumZ_add. apply sumZ_ext. intros i _. rewrite <- sumZ_add. apply sumZ_ext. intros j _.
  apply sumZ_add.
Qed.

Lemma balance3 junk impl aIn aOut (s s' : store R) v :
  (impl = 0 \/ impl = 1)%Z -> arr_ok aIn aOut -> hydro_grid3 g -> slope_ok p -> riemann_ok3 p -> (0 <= v < 5)%Z ->
  run_kernels (godunov3 p g dt false junk impl aIn aOut) s s' ->
  total3 g s' aOut v = total3 g s aIn v + net3 impl (fst3 g s aIn) (gr3 s) v.
Proof.
  intros Hi Ha Hg Hs Hr Hv Hk.
  destruct (godunov3_spec p g dt false junk impl aIn aOut s s' Hi Ha Hg (slope_ok_spec p Hs) (riemann_ok3_spec p Hr) Hk) as (K1 & _).
  pose proof Hg as (G1 & G2 & G3 & G4 & G5).
  unfold total3 at 1.
  set (U := fst3 g s aIn) in *. set (X := fluxX3 p dt false (prim3 U) (gr3 s)).
  set (Y := fluxY3 p dt false (prim3 U) (gr3 s)). set (W := zfx p dt false impl (prim3 U) (gr3 s)).
  rewrite (sumZ_ext _ _ _ (fun i => sumZ (gw g) (gw g + ny g) (fun j => sumZ (gw g) (gw g + nz g) (fun k =>
      comp (U i j k) v + (comp (X i j k) v - comp (X (i + 1)%Z j k) v) + (comp (Y i j k) v - comp (Y i (j + 1)%Z k) v)
      + (comp (W i j k) v - comp (W i j (k + 1)%Z) v))))).
  2:{ intros i Hi'. apply sumZ_ext. intros j Hj'. apply sumZ_ext. intros k Hk'.
      rewrite <- comp_st3, K1, step3_comp by (auto; unfold inside3; lia). unfold X, Y, W. lra. }
  rewrite !sumZ3_add. unfold U at 1. rewrite total3_fst3 by auto.
  unfold net3. fold X Y W. rewrite !Rplus_assoc. f_equal. f_equal; [|f_equal].
  - rewrite (sumZ_swap _ _ _ _ (fun i j => sumZ (gw g) (gw g + nz g) (fun k => comp (X i j k) v - comp (X (i + 1)%Z j k) v))).
    apply sumZ_ext. intros j Hj. rewrite (sumZ_swap _ _ _ _ (fun i k => comp (X i j k) v - comp (X (i + 1)%Z j k) v)).
    apply sumZ_ext. intros k Hk'. apply (sumZ_tele _ _ (fun i => comp (X i j k) v)). lia.
  - apply sumZ_ext. intros i Hi'. rewrite (sumZ_swap _ _ _ _ (fun j k => comp (Y i j k) v - comp (Y i (j + 1)%Z k) v)).
    apply sumZ_ext. intros k Hk'. apply (sumZ_tele _ _ (fun j => comp (Y i j k) v)). lia.
  - apply sumZ_ext. intros i Hi'. apply sumZ_ext. intros j Hj'. apply (sumZ_tele _ _ (fun k => comp (W i j k) v)). lia.
Qed.

(** ** Periodic domains *)
Lemma image_periodic n q : (- n <= q < n)%Z -> image Periodic Periodic n (q + n) = image Periodic Periodic n q.
Proof.
  intros H. unfold image.
  repeat match goal with |- context [(?a <? ?b)%Z] => destruct (Z.ltb_spec a b)
    | |- context [(?a <=? ?b)%Z] => destruct (Z.leb_spec a b) end; lia.
Qed.
Lemma along_periodic dir n q v x : along (A:=RArith) false dir Periodic Periodic n q v x = x.
Proof.
  unfold along, reflected. destruct (is_ghost n q); auto.
  assert (E : match (if (q <? 0)%Z then Some Periodic else if (n <=? q)%Z then Some Periodic else None) with
    | Some Reflecting => true | _ => false end = false) by (destruct (q <? 0)%Z, (n <=? q)%Z; reflexivity).
  rewrite E. cbn. lra.
Qed.

Lemma periodic_kinds : all_periodic g -> kx0 g = Periodic /\ kx1 g = Periodic /\ ky0 g = Periodic /\ ky1 g = Periodic
  /\ kz0 g = Periodic /\ kz1 g = Periodic.
Proof. intros H. unfold kx0, kx1, ky0, ky1, kz0, kz1. rewrite !H. repeat split. Qed.

Lemma fst2_px (s : store R) a i j : all_periodic g -> (- nx g <= i - gw g < nx g)%Z ->
  fst2 g s a (i + nx g) j = fst2 g s a i j.
Proof.
  intros Hp Hi. destruct (periodic_kinds Hp) as (E1 & E2 & E3 & E4 & _).
  unfold fst2, filled2d. cbv zeta. rewrite E1, E2, E3, E4, !along_periodic.
  replace (i + nx g - gw g)%Z with (i - gw g + nx g)%Z by lia. rewrite image_periodic by auto. reflexivity.
Qed.
Lemma fst2_py (s : store R) a i j : all_periodic g -> (- ny g <= j - gw g < ny g)%Z ->
  fst2 g s a i (j + ny g) = fst2 g s a i j.
Proof.
  intros Hp Hi. destruct (periodic_kinds Hp) as (E1 & E2 & E3 & E4 & _).
  unfold fst2, filled2d. cbv zeta. rewrite E1, E2, E3, E4, !along_periodic.
  replace (j + ny g - gw g)%Z with (j - gw g + ny g)%Z by lia. rewrite image_periodic by auto. reflexivity.
Qed.

Lemma net2_periodic (s : store R) a G v : hydro_grid2 g -> all_periodic g -> net2 (fst2 g s a) G v = 0.
Proof.
  intros (G1 & G2 & G3 & G4) Hp. unfold net2.
  rewrite (sumZ_zero (gw g) (gw g + ny g)), (sumZ_zero (gw g) (gw g + nx g)); [lra| |].
  - intros i Hi. pose proof (fluxY2_shift p dt false (prim2 (fst2 g s a)) G 0 (ny g) i (gw g)) as E.
    rewrite Z.add_0_r in E. rewrite E.
    rewrite (fluxY2_ext p dt false (prim2 (fst2 g s a)) (fun i j => prim2 (fst2 g s a) (i + 0) (j + ny g)) G G).
    + unfold fluxY2, face2, pred2. lra.
    + intros i' j' H. unfold near in H. rewrite Z.add_0_r. unfold prim2. rewrite fst2_py; auto. lia.
    + reflexivity.
    + reflexivity.
  - intros j Hj. pose proof (fluxX2_shift p dt false (prim2 (fst2 g s a)) G (nx g) 0 (gw g) j) as E.
    rewrite Z.add_0_r in E. rewrite E.
    rewrite (fluxX2_ext p dt false (prim2 (fst2 g s a)) (fun i j => prim2 (fst2 g s a) (i + nx g) (j + 0)) G G).
    + unfold fluxX2, face2, pred2. lra.
    + intros i' j' H. unfold near in H. rewrite Z.add_0_r. unfold prim2. rewrite fst2_px; auto. lia.
    + reflexivity.
    + reflexivity.
Qed.

Lemma fst3_p (s : store R) a i j k : all_periodic g ->
  ((- nx g <= i - gw g < nx g)%Z -> fst3 g s a (i + nx g) j k = fst3 g s a i j k) /\
  ((- ny g <= j - gw g < ny g)%Z -> fst3 g s a i (j + ny g) k = fst3 g s a i j k) /\
  ((- nz g <= k - gw g < nz g)%Z -> fst3 g s a i j (k + nz g) = fst3 g s a i j k).
Proof.
  intros Hp. destruct (periodic_kinds Hp) as (E1 & E2 & E3 & E4 & E5 & E6).
  unfold fst3, filled3d. cbv zeta. rewrite E1, E2, E3, E4, E5, E6, !along_periodic.
  split; [|split]; intros H.
  - replace (i + nx g - gw g)%Z with (i - gw g + nx g)%Z by lia. rewrite image_periodic by auto. reflexivity.
  - replace (j + ny g - gw g)%Z with (j - gw g + ny g)%Z by lia. rewrite image_periodic by auto. reflexivity.
  - replace (k + nz g - gw g)%Z with (k - gw g + nz g)%Z by lia. rewrite image_periodic by auto. reflexivity.
Qed.

Lemma net3_periodic impl (s : store R) a G v : hydro_grid3 g -> all_periodic g -> net3 impl (fst3 g s a) G v = 0.
Proof.
  intros (G1 & G2 & G3 & G4 & G5) Hp. unfold net3. set (Q := prim3 (fst3 g s a)).
  assert (Z1 : forall j k, comp (fluxX3 p dt false Q G (gw g) j k) v - comp (fluxX3 p dt false Q G (gw g + nx g) j k) v = 0).
  { intros j k. pose proof (fluxX3_shift p dt false Q G (nx g) 0 0 (gw g) j k) as E.
    rewrite !Z.add_0_r in E. rewrite E.
    rewrite (fluxX3_ext p dt false Q (fun i j k => Q (i + nx g) (j + 0) (k + 0))%Z G G).
    - unfold fluxX3, face3, pred3. lra.
    - intros i' j' k' H. unfold near3 in H. rewrite !Z.add_0_r. unfold Q, prim3.
      rewrite (proj1 (fst3_p s a i' j' k' Hp)); auto. lia.
    - reflexivity.
    - reflexivity. }
  assert (Z2 : forall i k, comp (fluxY3 p dt false Q G i (gw g) k) v - comp (fluxY3 p dt false Q G i (gw g + ny g) k) v = 0).
  { intros i k. pose proof (fluxY3_shift p dt false Q G 0 (ny g) 0 i (gw g) k) as E.
    rewrite !Z.add_0_r in E. rewrite E.
    rewrite (fluxY3_ext p dt false Q (fun i j k => Q (i + 0) (j + ny g) (k + 0))%Z G G).
    - unfold fluxY3, face3, pred3. lra.
    - intros i' j' k' H. unfold near3 in H. rewrite !Z.add_0_r. unfold Q, prim3.
      rewrite (proj1 (proj2 (fst3_p s a i' j' k' Hp))); auto. lia.
    - reflexivity.
    - reflexivity. }
  assert (Z3 : forall i j, comp (zfx p dt false impl Q G i j (gw g)) v - comp (zfx p dt false impl Q G i j (gw g + nz g)) v = 0).
  { intros i j. pose proof (zfx_shift p dt false impl Q G 0 0 (nz g) i j (gw g)) as E.
    rewrite !Z.add_0_r in E. rewrite E.
    rewrite (zfx_ext p dt false impl Q (fun i j k => Q (i + 0) (j + 0) (k + nz g))%Z G G).
    - unfold zfx, fluxZ3, fluxZ3', face3, pred3. destruct (impl =? 0)%Z; lra.
    - intros i' j' k' H. unfold near3 in H. rewrite !Z.add_0_r. unfold Q, prim3.
      rewrite (proj2 (proj2 (fst3_p s a i' j' k' Hp))); auto. lia.
    - reflexivity.
    - reflexivity. }
  rewrite !sumZ_zero; [lra| | |]; intros; apply sumZ_zero; intros; auto.
Qed.

Theorem conserve2 junk impl aIn aOut (s s' : store R) v :
  (impl = 0 \/ impl = 1)%Z -> arr_ok aIn aOut -> hydro_grid2 g -> all_periodic g -> slope_ok p -> riemann_ok2 p ->
  (0 <= v < 4)%Z -> run_kernels (godunov2 p g dt false junk impl aIn aOut) s s' ->
  total2 g s' aOut v = total2 g s aIn v.
Proof.
  intros Hi Ha Hg Hp Hs Hr Hv Hk. rewrite (balance2 junk impl aIn aOut s s' v) by auto.
  rewrite net2_periodic by auto. lra.
Qed.
Theorem conserve3 junk impl aIn aOut (s s' : store R) v :
  (impl = 0 \/ impl = 1)%Z -> arr_ok aIn aOut -> hydro_grid3 g -> all_periodic g -> slope_ok p -> riemann_ok3 p ->
  (0 <= v < 5)%Z -> run_kernels (godunov3 p g dt false junk impl aIn aOut) s s' ->
  total3 g s' aOut v = total3 g s aIn v.
Proof.
  intros Hi Ha Hg Hp Hs Hr Hv Hk. rewrite (balance3 junk impl aIn aOut s s' v) by auto.
  rewrite net3_periodic by auto. lra.
Qed.
End Balance.

