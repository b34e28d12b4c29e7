(** The 2D step as a whole: result, locality, determinism, memory safety. *)
From Coq Require Import ZArith List Bool Lia.
From Verif Require Import Arith Par ParProofs GridModel BoundaryModel BoundarySpec BoundaryProofs
  HydroState RiemannModel HydroPoint HydroKernels CellKernels HydroField HydroExec HydroSpec HydroProofs2.
Import ListNotations.
Open Scope Z_scope.

Section S2.
Context {T : Type} {A : Arith T}.
Notation store := (store T).
Variable p : hparams T.
Variable g : grid.
Variable dt : T.
Variable ge : bool.

(** ** Locality of the pure functions *)
Definition near (i j r i' j' : Z) : Prop := Z.abs (i' - i) + Z.abs (j' - j) <= r.

Lemma slopes2_ext (Q Q' : Z -> Z -> hs T) i j jx jy :
  (forall i' j', near i j 1 i' j' -> Q i' j' = Q' i' j') -> slopes2 p Q i j jx jy = slopes2 p Q' i j jx jy.
Proof. intros H. unfold slopes2. rewrite !H by (unfold near; lia). reflexivity. Qed.
Lemma face2_ext Q Q' G G' i j f :
  (forall i' j', near i j 1 i' j' -> Q i' j' = Q' i' j') -> (forall d, G i j d = G' i j d) ->
  face2 p dt ge Q G i j f = face2 p dt ge Q' G' i j f.
Proof.
  intros H HG. unfold face2. rewrite (slopes2_ext Q Q') by auto. rewrite !HG, H by (unfold near; lia). reflexivity.
Qed.
Lemma fluxX2_ext Q Q' G G' i j :
  (forall i' j', near i j 1 i' j' \/ near (i - 1) j 1 i' j' -> Q i' j' = Q' i' j') ->
  (forall d, G i j d = G' i j d) -> (forall d, G (i - 1) j d = G' (i - 1) j d) ->
  fluxX2 p dt ge Q G i j = fluxX2 p dt ge Q' G' i j.
Proof.
  intros H H1 H2. unfold fluxX2. rewrite !(face2_ext Q Q' G G') by auto. reflexivity.
Qed.
Lemma fluxY2_ext Q Q' G G' i j :
  (forall i' j', near i j 1 i' j' \/ near i (j - 1) 1 i' j' -> Q i' j' = Q' i' j') ->
  (forall d, G i j d = G' i j d) -> (forall d, G i (j - 1) d = G' i (j - 1) d) ->
  fluxY2 p dt ge Q G i j = fluxY2 p dt ge Q' G' i j.
Proof.
  intros H H1 H2. unfold fluxY2. rewrite !(face2_ext Q Q' G G') by auto. reflexivity.
Qed.

Lemma step2_ext (U U' : Z -> Z -> hs T) G G' i j :
  (forall i' j', near i j 2 i' j' -> U i' j' = U' i' j') ->
  (forall i' j' d, near i j 1 i' j' -> G i' j' d = G' i' j' d) ->
  step2 p dt ge U G i j = step2 p dt ge U' G' i j.
Proof.
  intros HU HG. unfold step2. cbv zeta.
  set (Q := fun i j => snd (computePrimitives2 p (U i j))).
  set (Q' := fun i j => snd (computePrimitives2 p (U' i j))).
  assert (HQ : forall i' j', near i j 2 i' j' -> Q i' j' = Q' i' j').
  { intros i' j' H. unfold Q, Q'. rewrite HU; auto. }
  rewrite (fluxX2_ext Q Q' G G' i j), (fluxX2_ext Q Q' G G' (i + 1) j), (fluxY2_ext Q Q' G G' i j),
    (fluxY2_ext Q Q' G G' i (j + 1));
    try (intros; apply HG; unfold near; lia); try (intros i' j' H; apply HQ; unfold near in *; lia).
  rewrite (HU i j) by (unfold near; lia). rewrite !HG by (unfold near; lia). reflexivity.
Qed.

Variable junk : Z * Z * Z -> Z -> hs T.

(** ** The scheme *)
Definition stepfrom2 (u0 : hs T) (U : Z -> Z -> hs T) G (i j : Z) : hs T :=
  let Q := fun i j => snd (computePrimitives2 p (U i j)) in
  let u := upd2 u0 (fluxX2 p dt ge Q G i j) (fluxX2 p dt ge Q G (i + 1) j)
                   (fluxY2 p dt ge Q G i j) (fluxY2 p dt ge Q G i (j + 1)) in
  if ge then gravity_source2 p dt (hD (U i j)) u (G i j IX) (G i j IY) else u.
Lemma stepfrom2_step2 U G i j : stepfrom2 (U i j) U G i j = step2 p dt ge U G i j.
Proof. reflexivity. Qed.

Lemma upd2_w0 u X X' Y Y' : upd2 u (w0 X) (w0 X') (w0 Y) (w0 Y') = upd2 u X X' Y Y'.
Proof. reflexivity. Qed.

Lemma rk_inv (ps : list (prog T unit)) kers s s' :
  run_kernels (ps :: kers) s s' -> exists s1, par_exec s ps s1 /\ run_kernels kers s1 s'.
Proof. intros H. inversion H; subst. eauto. Qed.
Lemma rk_nil_inv s s' : run_kernels (T:=T) [] s s' -> s = s'.
Proof. intros H. inversion H; reflexivity. Qed.

Definition scratch2 (aOut : Z) (l : loc) : Prop :=
  la l = aOut \/ la l = aQ \/ la l = aFx \/ la l = aFy \/ la l = aSx \/ la l = aSy.

Lemma gravity_tail2 aIn aOut (s s1 s' : store) (u : Z -> Z -> hs T) :
  arr_ok aIn aOut -> 0 < gw g ->
  run_kernels (if ge then [gravity_term2 p g dt aIn aOut] else []) s1 s' ->
  (forall l, la l = aIn \/ la l = aG -> s1 l = s l) ->
  (forall i j, interior2 g i j = true -> st2 s1 aOut i j = u i j) ->
  (forall i j, interior2 g i j = true ->
     st2 s' aOut i j = if ge then gravity_source2 p dt (hD (st2 s aIn i j)) (u i j) (gr2 s i j IX) (gr2 s i j IY)
                       else u i j) /\
  (forall i j v, interior2 g i j = false -> s' (Loc aOut i j 0 v) = s1 (Loc aOut i j 0 v)) /\
  (forall l, la l <> aOut -> s' l = s1 l).
Proof.
  intros Ha Hg Hk Hin Hu. destruct ge.
  - apply rk_inv in Hk. destruct Hk as (s2 & H1 & H2). apply rk_nil_inv in H2. subst s2.
    apply gravity2_spec in H1; auto. destruct H1 as (A1 & A2 & A3). split; [|auto].
    intros i j Hi. rewrite A1, Hu by auto.
    rewrite (st2_frame s s1 aIn) by (intros; apply Hin; auto).
    rewrite !(gr2_frame s s1) by (intros; apply Hin; auto). reflexivity.
  - apply rk_nil_inv in Hk. subst s'. auto.
Qed.

Lemma scheme2_spec impl aIn aOut (s s' : store) :
  impl = 0 \/ impl = 1 -> arr_ok aIn aOut -> 2 <= gw g -> slopes_ok p -> riem2_ok p ->
  run_kernels (scheme2 p g dt ge junk impl aIn aOut) s s' ->
  (forall i j, interior2 g i j = true ->
     st2 s' aOut i j = stepfrom2 (st2 s aOut i j) (st2 s aIn) (gr2 s) i j) /\
  (forall i j v, interior2 g i j = false -> s' (Loc aOut i j 0 v) = s (Loc aOut i j 0 v)) /\
  (forall l, ~ scratch2 aOut l -> s' l = s l).
Proof.
  intros Himpl Ha Hg Hs Hr Hk. unfold scheme2 in Hk.
  apply rk_inv in Hk. destruct Hk as (s1 & Hc & Hk).
  assert (Hne : aIn <> aQ /\ aOut <> aQ /\ aIn <> aOut /\ aIn <> aG /\ aOut <> aG /\ aOut <> aFx /\ aOut <> aFy /\
     aOut <> aSx /\ aOut <> aSy /\ aIn <> aFx /\ aIn <> aFy /\ aIn <> aSx /\ aIn <> aSy).
  { arrays. lia. }
  destruct Hne as (N1 & N2 & N3 & N4 & N5 & N6 & N7 & N8 & N9 & N10 & N11 & N12 & N13).
  apply convert2_spec in Hc; auto. destruct Hc as [C1 C2].
  (* fluxes of the fields in s1 are those of the primitive field of s *)
  set (Q := fun i j => snd (computePrimitives2 p (st2 s aIn i j))).
  assert (EX : forall i j, faces2 g i j = true ->
     fluxX2 p dt ge (st2 s1 aQ) (gr2 s1) i j = fluxX2 p dt ge Q (gr2 s) i j).
  { intros i j Hf. apply faces2_spec in Hf. apply fluxX2_ext.
    - intros i' j' Hn. unfold Q. unfold near in Hn. clear - C1 Hg Hf Hn. apply C1; lia.
    - intros d. apply gr2_frame. intros l Hl. apply C2. rewrite Hl. discriminate.
    - intros d. apply gr2_frame. intros l Hl. apply C2. rewrite Hl. discriminate. }
  assert (EY : forall i j, faces2 g i j = true ->
     fluxY2 p dt ge (st2 s1 aQ) (gr2 s1) i j = fluxY2 p dt ge Q (gr2 s) i j).
  { intros i j Hf. apply faces2_spec in Hf. apply fluxY2_ext.
    - intros i' j' Hn. unfold Q. unfold near in Hn. clear - C1 Hg Hf Hn. apply C1; lia.
    - intros d. apply gr2_frame. intros l Hl. apply C2. rewrite Hl. discriminate.
    - intros d. apply gr2_frame. intros l Hl. apply C2. rewrite Hl. discriminate. }
  assert (EO : forall i j, st2 s1 aOut i j = st2 s aOut i j).
  { intros i j. apply st2_frame. intros l Hl. apply C2. congruence. }
  assert (HF : forall i j, interior2 g i j = true ->
      faces2 g i j = true /\ faces2 g (i + 1) j = true /\ faces2 g i (j + 1) = true).
  { intros i j H. apply interior2_spec in H. rewrite !faces2_spec. lia. }
  destruct Himpl as [-> | ->]; cbn [Z.eqb] in Hk.
  - (* version 0 *)
    cbn [app] in Hk. apply rk_inv in Hk. destruct Hk as (s2 & Hf & Hk).
    apply rk_inv in Hk. destruct Hk as (s3 & Hu & Hk).
    apply fluxes2_spec in Hf; auto; try lia. destruct Hf as [F1 F2].
    apply update2_spec in Hu; auto; try lia. destruct Hu as (U1 & U2 & U3).
    destruct (gravity_tail2 aIn aOut s s3 s'
       (fun i j => upd2 (st2 s aOut i j) (fluxX2 p dt ge Q (gr2 s) i j) (fluxX2 p dt ge Q (gr2 s) (i + 1) j)
                   (fluxY2 p dt ge Q (gr2 s) i j) (fluxY2 p dt ge Q (gr2 s) i (j + 1)))) as (G1 & G2 & G3);
      auto; try lia.
    + intros l Hl. rewrite U3, F2, C2; auto; destruct Hl as [-> | ->]; auto; discriminate.
    + intros i j Hi. destruct (HF i j Hi) as (Fa & Fb & Fc). rewrite U1 by auto.
      destruct (F1 i j Fa) as [-> ->]. destruct (F1 _ _ Fb) as [-> _]. destruct (F1 _ _ Fc) as [_ ->].
      rewrite upd2_w0, !EX, !EY by auto.
      rewrite (st2_frame s1 s2) by (intros l Hl; apply F2; congruence). rewrite EO. reflexivity.
    + split; [|split].
      * intros i j Hi. rewrite G1 by auto. reflexivity.
      * intros i j v Hi. rewrite G2, U2, F2, C2; auto.
      * intros l Hl. unfold scratch2 in Hl. rewrite G3, U3, F2, C2; tauto.
  - (* version 1 *)
    cbn [app] in Hk. apply rk_inv in Hk. destruct Hk as (s2 & Hsl & Hk).
    apply rk_inv in Hk. destruct Hk as (s3 & Hx & Hk).
    apply rk_inv in Hk. destruct Hk as (s4 & Hux & Hk).
    apply rk_inv in Hk. destruct Hk as (s5 & Hy & Hk).
    apply rk_inv in Hk. destruct Hk as (s6 & Huy & Hk).
    apply compute_slopes2_spec in Hsl; try lia. destruct Hsl as [S1 S2].
    assert (HS2 : have_slopes2 p g s2).
    { intros i j Hi. destruct (S1 i j Hi) as [-> ->].
      rewrite !(slopes2_ext (st2 s1 aQ) (st2 s2 aQ)); auto;
        intros; symmetry; apply st2_frame; intros l Hl; apply S2; rewrite Hl; discriminate. }
    apply trace2_spec in Hx; auto; try lia; try discriminate. destruct Hx as [X1 X2].
    apply update_dir2_spec in Hux; auto; try lia; try discriminate. destruct Hux as (UX1 & UX2 & UX3).
    assert (HS4 : have_slopes2 p g s4).
    { intros i j Hi. destruct (HS2 i j Hi) as [H1 H2].
      assert (F : forall l, la l <> aOut -> la l <> aFx -> s4 l = s2 l) by (intros l ? ?; rewrite UX3, X2; auto).
      rewrite (st2_frame s2 s4 aSx), (st2_frame s2 s4 aSy), H1, H2
        by (intros l Hl; apply F; rewrite Hl; auto; discriminate).
      rewrite !(slopes2_ext (st2 s2 aQ) (st2 s4 aQ)); auto;
        intros; symmetry; apply st2_frame; intros l Hl; apply F; rewrite Hl; auto; discriminate. }
    apply trace2_spec in Hy; auto; try lia; try discriminate. destruct Hy as [Y1 Y2].
    apply update_dir2_spec in Huy; auto; try lia; try discriminate. destruct Huy as (UY1 & UY2 & UY3).
    cbn [flux2] in X1, Y1.
    assert (F2 : forall l, la l = aQ \/ la l = aG -> s2 l = s1 l).
    { intros l [Hl|Hl]; apply S2; rewrite Hl; discriminate. }
    assert (F4 : forall l, la l = aQ \/ la l = aG -> s4 l = s1 l).
    { intros l Hl. rewrite UX3, X2, F2; auto; destruct Hl as [-> | ->]; auto; discriminate. }
    assert (EX2 : forall i j, faces2 g i j = true -> fluxX2 p dt ge (st2 s2 aQ) (gr2 s2) i j = fluxX2 p dt ge Q (gr2 s) i j).
    { intros i j Hf. rewrite <- EX by auto. apply fluxX2_ext; intros; [apply st2_frame|apply gr2_frame|apply gr2_frame]; intros l Hl; apply F2; auto. }
    assert (EY2 : forall i j, faces2 g i j = true -> fluxY2 p dt ge (st2 s4 aQ) (gr2 s4) i j = fluxY2 p dt ge Q (gr2 s) i j).
    { intros i j Hf. rewrite <- EY by auto. apply fluxY2_ext; intros; [apply st2_frame|apply gr2_frame|apply gr2_frame]; intros l Hl; apply F4; auto. }
    destruct (gravity_tail2 aIn aOut s s6 s'
       (fun i j => upd2 (st2 s aOut i j) (fluxX2 p dt ge Q (gr2 s) i j) (fluxX2 p dt ge Q (gr2 s) (i + 1) j)
                   (fluxY2 p dt ge Q (gr2 s) i j) (fluxY2 p dt ge Q (gr2 s) i (j + 1)))) as (G1 & G2 & G3);
      auto; try lia.
    + intros l Hl. rewrite UY3, Y2, UX3, X2, S2, C2; auto; destruct Hl as [-> | ->]; auto; discriminate.
    + intros i j Hi. destruct (HF i j Hi) as (Fa & Fb & Fc). rewrite UY1 by auto.
      rewrite !Y1 by auto. rewrite !EY2 by auto.
      rewrite (st2_frame s4 s5) by (intros l Hl; apply Y2; congruence).
      rewrite UX1 by auto. rewrite !X1 by auto. rewrite !EX2 by auto.
      rewrite (st2_frame s2 s3) by (intros l Hl; apply X2; congruence).
      rewrite (st2_frame s1 s2) by (intros l Hl; apply S2; congruence). rewrite EO. reflexivity.
    + split; [|split].
      * intros i j Hi. rewrite G1 by auto. reflexivity.
      * intros i j v Hi. rewrite G2, UY2, Y2, UX2, X2, S2, C2; auto.
      * intros l Hl. unfold scratch2 in Hl. rewrite G3, UY3, Y2, UX3, X2, S2, C2; tauto.
Qed.

(** ** The whole step *)
(** State of cell (i,j) of array [a] after the ghost cells are filled. *)
Definition fst2 (s : store) (a i j : Z) : hs T :=
  let f := filled2d false g (fun i j v => s (Loc a i j 0 v)) i j in HS (f ID) (f IP) (f IU) (f IV) zero.

Lemma interior2_inside i j : interior2 g i j = true <-> inside2 g i j.
Proof.
  clear. rewrite interior2_spec. unfold inside2, isize, jsize, imax, imin, jmax, jmin. lia.
Qed.

Theorem godunov2_spec impl aIn aOut (s s' : store) :
  impl = 0 \/ impl = 1 -> arr_ok aIn aOut -> hydro_grid2 g -> slopes_ok p -> riem2_ok p ->
  run_kernels (godunov2 p g dt ge junk impl aIn aOut) s s' ->
  (forall i j, inside2 g i j -> st2 s' aOut i j = step2 p dt ge (fst2 s aIn) (gr2 s) i j) /\
  (forall i j v, 0 <= i < isize g -> 0 <= j < jsize g -> 0 <= v < 4 -> ~ inside2 g i j ->
     s' (Loc aOut i j 0 v) = filled2d false g (fun i j v => s (Loc aIn i j 0 v)) i j v) /\
  (forall i j v, 0 <= i < isize g -> 0 <= j < jsize g -> 0 <= v < 4 ->
     s' (Loc aIn i j 0 v) = filled2d false g (fun i j v => s (Loc aIn i j 0 v)) i j v) /\
  (forall l, ~ scratch2 aOut l -> la l <> aIn -> s' l = s l).
Proof.
  intros Himpl Ha Hg Hs Hr Hk. pose proof Hg as (G1 & G2 & G3 & G4).
  unfold godunov2 in Hk. apply run_kernels_app in Hk. destruct Hk as (s1 & Hb & Hk).
  apply rk_inv in Hk. destruct Hk as (s2 & Hc & Hk).
  assert (Hok : grid_ok2d g) by (clear - G1 G2 G3 G4; unfold grid_ok2d; lia).
  destruct (fill2_spec false g aIn s s1 Hok Hb) as [B1 B2].
  assert (Hne : aOut <> aIn) by (clear - Ha; arrays; lia).
  destruct (deep_copy_spec g (cells2 g) aOut aIn s1 s2 (NoDup_cells2 g) Hne Hc) as [D1 D2].
  assert (Hg2 : 2 <= gw g) by (clear - G1; lia).
  destruct (scheme2_spec impl aIn aOut s2 s' Himpl Ha Hg2 Hs Hr Hk) as (S1 & S2 & S3).
  assert (BI : forall i j v, 0 <= i < isize g -> 0 <= j < jsize g -> 0 <= v < 4 ->
     s2 (Loc aIn i j 0 v) = filled2d false g (fun i j v => s (Loc aIn i j 0 v)) i j v).
  { intros i j v Hi Hj Hv. rewrite D2.
    - apply B1; clear - Hi Hj Hv G2; unfold isize, jsize, imax, imin, jmax, jmin in *; lia.
    - cbn [la]. intros [H _]. congruence. }
  assert (BO : forall i j v, 0 <= i < isize g -> 0 <= j < jsize g -> 0 <= v < 4 ->
     s2 (Loc aOut i j 0 v) = filled2d false g (fun i j v => s (Loc aIn i j 0 v)) i j v).
  { intros i j v Hi Hj Hv. rewrite D1.
    - apply B1; clear - Hi Hj Hv G2; unfold isize, jsize, imax, imin, jmax, jmin in *; lia.
    - apply in2; auto.
    - rewrite G2. exact Hv. }
  assert (SI : forall i j, 0 <= i < isize g -> 0 <= j < jsize g -> st2 s2 aIn i j = fst2 s aIn i j).
  { intros i j Hi Hj. unfold st2, fst2. rewrite !BI by (auto; unfold ID, IP, IU, IV; lia). reflexivity. }
  assert (SO : forall i j, 0 <= i < isize g -> 0 <= j < jsize g -> st2 s2 aOut i j = fst2 s aIn i j).
  { intros i j Hi Hj. unfold st2, fst2. rewrite !BO by (auto; unfold ID, IP, IU, IV; lia). reflexivity. }
  assert (SG : forall i j d, gr2 s2 i j d = gr2 s i j d).
  { intros i j d. unfold gr2. rewrite D2, B2; auto.
    - unfold alloc2d. cbn [la]. intros [H _]. clear - H Ha. arrays. lia.
    - cbn [la]. intros [H _]. clear - H Ha. arrays. lia. }
  split; [|split; [|split]].
  - intros i j Hi. assert (Hr' : 2 <= i < isize g - 2 /\ 2 <= j < jsize g - 2).
    { apply interior2_inside, interior2_spec in Hi. clear - Hi G1. lia. }
    rewrite S1 by (apply interior2_inside; auto).
    rewrite SO by (clear - Hr'; lia). rewrite <- SI by (clear - Hr'; lia).
    rewrite stepfrom2_step2. apply step2_ext.
    + intros i' j' Hn. apply SI; clear - Hn Hr'; unfold near in Hn; lia.
    + intros i' j' d Hn. apply SG.
  - intros i j v Hi Hj Hv Hn. rewrite S2.
    + apply BO; auto.
    + destruct (interior2 g i j) eqn:E; auto. exfalso. apply Hn, interior2_inside, E.
  - intros i j v Hi Hj Hv. rewrite S3; [apply BI; auto|].
    unfold scratch2. cbn [la]. clear - Ha. arrays. lia.
  - intros l Hl Hl'. rewrite S3, D2, B2; auto.
    + unfold alloc2d. tauto.
    + intros [H _]. apply Hl. left. exact H.
Qed.

(** Cell by cell: inside or in the ghost layer. *)
Lemma inside2_dec i j : inside2 g i j \/ ~ inside2 g i j.
Proof. clear. unfold inside2. lia. Qed.
End S2.
