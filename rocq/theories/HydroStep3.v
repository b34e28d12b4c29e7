(** The 3D step as a whole: result, locality, determinism, memory safety. *)
From Coq Require Import ZArith List Bool Lia.
From Verif Require Import Arith Par ParProofs GridModel BoundaryModel BoundarySpec BoundaryProofs
  HydroState RiemannModel HydroPoint HydroKernels CellKernels HydroField HydroExec HydroSpec HydroProofs2 HydroStep2 HydroProofs3.
Import ListNotations.
Open Scope Z_scope.

Section S3.
Context {T : Type} {A : Arith T}.
Notation store := (store T).
Variable p : hparams T.
Variable g : grid.
Variable dt : T.
Variable ge : bool.

(** ** Locality of the pure functions *)
Definition near3 (i j k r i' j' k' : Z) : Prop := Z.abs (i' - i) + Z.abs (j' - j) + Z.abs (k' - k) <= r.

Lemma slopes3_ext (Q Q' : Z -> Z -> Z -> hs T) i j k jx jy jz :
  (forall i' j' k', near3 i j k 1 i' j' k' -> Q i' j' k' = Q' i' j' k') -> slopes3 p Q i j k jx jy jz = slopes3 p Q' i j k jx jy jz.
Proof. intros H. unfold slopes3. rewrite !H by (unfold near3; lia). reflexivity. Qed.
Lemma tr3_ext Q Q' i j k f : (forall i' j' k', near3 i j k 1 i' j' k' -> Q i' j' k' = Q' i' j' k') ->
  tr3 p dt Q i j k f = tr3 p dt Q' i j k f.
Proof. intros H. unfold tr3. rewrite (slopes3_ext Q Q') by auto. rewrite !H by (unfold near3; lia). reflexivity. Qed.
Lemma face3_ext Q Q' G G' i j k f :
  (forall i' j' k', near3 i j k 1 i' j' k' -> Q i' j' k' = Q' i' j' k') -> (forall d, G i j k d = G' i j k d) ->
  face3 p dt ge Q G i j k f = face3 p dt ge Q' G' i j k f.
Proof. intros H HG. unfold face3. rewrite (tr3_ext Q Q') by auto. rewrite !HG. reflexivity. Qed.
Lemma fluxX3_ext Q Q' G G' i j k :
  (forall i' j' k', near3 i j k 1 i' j' k' \/ near3 (i - 1) j k 1 i' j' k' -> Q i' j' k' = Q' i' j' k') ->
  (forall d, G i j k d = G' i j k d) -> (forall d, G (i - 1) j k d = G' (i - 1) j k d) ->
  fluxX3 p dt ge Q G i j k = fluxX3 p dt ge Q' G' i j k.
Proof.
  intros H H1 H2. unfold fluxX3. rewrite !(face3_ext Q Q' G G') by auto. reflexivity.
Qed.
Lemma fluxY3_ext Q Q' G G' i j k :
  (forall i' j' k', near3 i j k 1 i' j' k' \/ near3 i (j - 1) k 1 i' j' k' -> Q i' j' k' = Q' i' j' k') ->
  (forall d, G i j k d = G' i j k d) -> (forall d, G i (j - 1) k d = G' i (j - 1) k d) ->
  fluxY3 p dt ge Q G i j k = fluxY3 p dt ge Q' G' i j k.
Proof.
  intros H H1 H2. unfold fluxY3. rewrite !(face3_ext Q Q' G G') by auto. reflexivity.
Qed.

(** The z flux of each implementation version. *)
Definition zfx (impl : Z) := if impl =? 0 then fluxZ3 p dt ge else fluxZ3' p dt ge.
Lemma zfx_ext impl Q Q' G G' i j k :
  (forall i' j' k', near3 i j k 1 i' j' k' \/ near3 i j (k - 1) 1 i' j' k' -> Q i' j' k' = Q' i' j' k') ->
  (forall d, G i j k d = G' i j k d) -> (forall d, G i j (k - 1) d = G' i j (k - 1) d) ->
  zfx impl Q G i j k = zfx impl Q' G' i j k.
Proof.
  intros H H1 H2. unfold zfx. destruct (impl =? 0).
  - unfold fluxZ3. rewrite !(face3_ext Q Q' G G') by auto. reflexivity.
  - unfold fluxZ3'. rewrite !(face3_ext Q Q' G G'), (tr3_ext Q Q') by auto. reflexivity.
Qed.

Lemma step3_ext impl (U U' : Z -> Z -> Z -> hs T) G G' i j k :
  (forall i' j' k', near3 i j k 2 i' j' k' -> U i' j' k' = U' i' j' k') ->
  (forall i' j' k' d, near3 i j k 1 i' j' k' -> G i' j' k' d = G' i' j' k' d) ->
  step3 p dt ge (zfx impl) U G i j k = step3 p dt ge (zfx impl) U' G' i j k.
Proof.
  intros HU HG. unfold step3. cbv zeta.
  set (Q := fun i j k => snd (computePrimitives3 p (U i j k))).
  set (Q' := fun i j k => snd (computePrimitives3 p (U' i j k))).
  assert (HQ : forall i' j' k', near3 i j k 2 i' j' k' -> Q i' j' k' = Q' i' j' k').
  { intros i' j' k' H. unfold Q, Q'. rewrite HU; auto. }
  rewrite (fluxX3_ext Q Q' G G' i j k), (fluxX3_ext Q Q' G G' (i + 1) j k), (fluxY3_ext Q Q' G G' i j k),
    (fluxY3_ext Q Q' G G' i (j + 1) k), (zfx_ext impl Q Q' G G' i j k), (zfx_ext impl Q Q' G G' i j (k + 1));
    try (intros; apply HG; unfold near3; lia); try (intros i' j' k' H; apply HQ; unfold near3 in *; lia).
  rewrite (HU i j k) by (unfold near3; lia). rewrite !HG by (unfold near3; lia). reflexivity.
Qed.

Variable junk : Z * Z * Z -> Z -> hs T.

(** ** The scheme *)
Definition stepfrom3 impl (u0 : hs T) (U : Z -> Z -> Z -> hs T) G (i j k : Z) : hs T :=
  let Q := fun i j k => snd (computePrimitives3 p (U i j k)) in
  let u := upd3 u0 (fluxX3 p dt ge Q G i j k) (fluxX3 p dt ge Q G (i + 1) j k)
                   (fluxY3 p dt ge Q G i j k) (fluxY3 p dt ge Q G i (j + 1) k)
                   (zfx impl Q G i j k) (zfx impl Q G i j (k + 1)) in
  if ge then gravity_source3 dt (hD (U i j k)) u (G i j k IX) (G i j k IY) (G i j k IZ) else u.
Lemma stepfrom3_step3 impl U G i j k : stepfrom3 impl (U i j k) U G i j k = step3 p dt ge (zfx impl) U G i j k.
Proof. reflexivity. Qed.

Definition scratch3 (aOut : Z) (l : loc) : Prop :=
  la l = aOut \/ la l = aQ \/ la l = aFx \/ la l = aFy \/ la l = aSx \/ la l = aSy
  \/ la l = aFz \/ la l = aSz.

Lemma gravity_tail3 aIn aOut (s s1 s' : store) (u : Z -> Z -> Z -> hs T) :
  arr_ok aIn aOut -> 0 < gw g ->
  run_kernels (if ge then [gravity_term3 g dt aIn aOut] else []) s1 s' ->
  (forall l, la l = aIn \/ la l = aG -> s1 l = s l) ->
  (forall i j k, interior3 g i j k = true -> st3 s1 aOut i j k = u i j k) ->
  (forall i j k, interior3 g i j k = true ->
     st3 s' aOut i j k = if ge then gravity_source3 dt (hD (st3 s aIn i j k)) (u i j k) (gr3 s i j k IX) (gr3 s i j k IY) (gr3 s i j k IZ)
                       else u i j k) /\
  (forall i j k v, interior3 g i j k = false -> s' (Loc aOut i j k v) = s1 (Loc aOut i j k v)) /\
  (forall l, la l <> aOut -> s' l = s1 l).
Proof.
  intros Ha Hg Hk Hin Hu. destruct ge.
  - apply rk_inv in Hk. destruct Hk as (s2 & H1 & H2). apply rk_nil_inv in H2. subst s2.
    apply gravity3_spec in H1; auto. destruct H1 as (A1 & A2 & A3). split; [|auto].
    intros i j k Hi. rewrite A1, Hu by auto.
    rewrite (st3_frame s s1 aIn) by (intros; apply Hin; auto).
    rewrite !(gr3_frame s s1) by (intros; apply Hin; auto). reflexivity.
  - apply rk_nil_inv in Hk. subst s'. auto.
Qed.

Lemma scheme3_spec impl aIn aOut (s s' : store) :
  impl = 0 \/ impl = 1 -> arr_ok aIn aOut -> 2 <= gw g -> slopes_ok p -> riem3_ok p ->
  run_kernels (scheme3 p g dt ge junk impl aIn aOut) s s' ->
  (forall i j k, interior3 g i j k = true ->
     st3 s' aOut i j k = stepfrom3 impl (st3 s aOut i j k) (st3 s aIn) (gr3 s) i j k) /\
  (forall i j k v, interior3 g i j k = false -> s' (Loc aOut i j k v) = s (Loc aOut i j k v)) /\
  (forall l, ~ scratch3 aOut l -> s' l = s l).
Proof.
  intros Himpl Ha Hg Hs Hr Hk. unfold scheme3 in Hk.
  assert (Hg1 : 0 < gw g) by (clear - Hg; lia).
  apply rk_inv in Hk. destruct Hk as (s1 & Hc & Hk).
  assert (Hne : aIn <> aQ /\ aOut <> aQ /\ aIn <> aOut /\ aIn <> aG /\ aOut <> aG /\ aOut <> aFx /\ aOut <> aFy /\
     aOut <> aSx /\ aOut <> aSy /\ aIn <> aFx /\ aIn <> aFy /\ aIn <> aSx /\ aIn <> aSy /\
     aOut <> aFz /\ aOut <> aSz /\ aIn <> aFz /\ aIn <> aSz).
  { arrays. lia. }
  destruct Hne as (N1 & N2 & N3 & N4 & N5 & N6 & N7 & N8 & N9 & N10 & N11 & N12 & N13 & N14 & N15 & N16 & N17).
  apply convert3_spec in Hc; auto. destruct Hc as [C1 C2].
  (* fluxes of the fields in s1 are those of the primitive field of s *)
  set (Q := fun i j k => snd (computePrimitives3 p (st3 s aIn i j k))).
  assert (EX : forall i j k, faces3 g i j k = true ->
     fluxX3 p dt ge (st3 s1 aQ) (gr3 s1) i j k = fluxX3 p dt ge Q (gr3 s) i j k).
  { intros i j k Hf. apply faces3_spec in Hf. apply fluxX3_ext.
    - intros i' j' k' Hn. unfold Q. unfold near3 in Hn. clear - C1 Hg Hf Hn. apply C1; lia.
    - intros d. apply gr3_frame. intros l Hl. apply C2. rewrite Hl. discriminate.
    - intros d. apply gr3_frame. intros l Hl. apply C2. rewrite Hl. discriminate. }
  assert (EY : forall i j k, faces3 g i j k = true ->
     fluxY3 p dt ge (st3 s1 aQ) (gr3 s1) i j k = fluxY3 p dt ge Q (gr3 s) i j k).
  { intros i j k Hf. apply faces3_spec in Hf. apply fluxY3_ext.
    - intros i' j' k' Hn. unfold Q. unfold near3 in Hn. clear - C1 Hg Hf Hn. apply C1; lia.
    - intros d. apply gr3_frame. intros l Hl. apply C2. rewrite Hl. discriminate.
    - intros d. apply gr3_frame. intros l Hl. apply C2. rewrite Hl. discriminate. }
  assert (EZ : forall i j k, faces3 g i j k = true ->
     zfx impl (st3 s1 aQ) (gr3 s1) i j k = zfx impl Q (gr3 s) i j k).
  { intros i j k Hf. apply faces3_spec in Hf. apply zfx_ext.
    - intros i' j' k' Hn. unfold Q. unfold near3 in Hn. clear - C1 Hg Hf Hn. apply C1; lia.
    - intros d. apply gr3_frame. intros l Hl. apply C2. rewrite Hl. discriminate.
    - intros d. apply gr3_frame. intros l Hl. apply C2. rewrite Hl. discriminate. }
  assert (EO : forall i j k, st3 s1 aOut i j k = st3 s aOut i j k).
  { intros i j k. apply st3_frame. intros l Hl. apply C2. congruence. }
  assert (HF : forall i j k, interior3 g i j k = true ->
      faces3 g i j k = true /\ faces3 g (i + 1) j k = true /\ faces3 g i (j + 1) k = true /\ faces3 g i j (k + 1) = true).
  { intros i j k H. apply interior3_spec in H. rewrite !faces3_spec. clear - H Hg. lia. }
  destruct Himpl as [Himpl | Himpl]; rewrite Himpl in Hk; cbn [Z.eqb] in Hk.
  - (* version 0 *)
    cbn [app] in Hk. apply rk_inv in Hk. destruct Hk as (s2 & Hf & Hk).
    apply rk_inv in Hk. destruct Hk as (s3 & Hu & Hk).
    apply fluxes3_spec in Hf; auto. destruct Hf as [F1 F2].
    apply update3_spec in Hu; auto. destruct Hu as (U1 & U2 & U3).
    destruct (gravity_tail3 aIn aOut s s3 s'
       (fun i j k => upd3 (st3 s aOut i j k) (fluxX3 p dt ge Q (gr3 s) i j k) (fluxX3 p dt ge Q (gr3 s) (i + 1) j k)
                   (fluxY3 p dt ge Q (gr3 s) i j k) (fluxY3 p dt ge Q (gr3 s) i (j + 1) k)
                   (zfx impl Q (gr3 s) i j k) (zfx impl Q (gr3 s) i j (k + 1)))) as (G1 & G2 & G3);
      auto.
    + intros l Hl. rewrite U3, F2, C2; auto; destruct Hl as [-> | ->]; auto; discriminate.
    + intros i j k Hi. destruct (HF i j k Hi) as (Fa & Fb & Fc & Fd). rewrite U1 by auto.
      destruct (F1 i j k Fa) as (-> & -> & ->). destruct (F1 _ _ _ Fb) as (-> & _). destruct (F1 _ _ _ Fc) as (_ & -> & _).
      destruct (F1 _ _ _ Fd) as (_ & _ & ->).
      assert (EZ' : zfx impl = fluxZ3 p dt ge) by (rewrite Himpl; reflexivity). rewrite <- EZ'.
      rewrite !EX, !EY, !EZ by auto.
      rewrite (st3_frame s1 s2) by (intros l Hl; apply F2; congruence). rewrite EO. reflexivity.
    + split; [|split].
      * intros i j k Hi. rewrite G1 by auto. reflexivity.
      * intros i j k v Hi. rewrite G2, U2, F2, C2; auto.
      * intros l Hl. unfold scratch3 in Hl. rewrite G3, U3, F2, C2; tauto.
  - (* version 1 *)
    cbn [app] in Hk. apply rk_inv in Hk. destruct Hk as (s2 & Hsl & Hk).
    apply rk_inv in Hk. destruct Hk as (s3 & Hx & Hk).
    apply rk_inv in Hk. destruct Hk as (s4 & Hux & Hk).
    apply rk_inv in Hk. destruct Hk as (s5 & Hy & Hk).
    apply rk_inv in Hk. destruct Hk as (s6 & Huy & Hk).
    apply rk_inv in Hk. destruct Hk as (s7 & Hz & Hk).
    apply rk_inv in Hk. destruct Hk as (s8 & Huz & Hk).
    apply compute_slopes3_spec in Hsl; auto. destruct Hsl as [S1 S3].
    assert (HS2 : have_slopes3 p g s2).
    { intros i j k Hi. rewrite (S1 i j k Hi).
      rewrite !(slopes3_ext (st3 s1 aQ) (st3 s2 aQ)); auto;
        intros; symmetry; apply st3_frame; intros l Hl; apply S3; rewrite Hl; discriminate. }
    apply trace3_spec in Hx; auto; try discriminate. destruct Hx as [X1 X2].
    apply update_dir3_spec in Hux; auto; try discriminate. destruct Hux as (UX1 & UX2 & UX3).
    assert (HS4 : have_slopes3 p g s4).
    { intros i j k Hi.
      assert (F : forall l, la l <> aOut -> la l <> aFx -> s4 l = s2 l) by (intros l ? ?; rewrite UX3, X2; auto).
      rewrite (st3_frame s2 s4 aSx), (st3_frame s2 s4 aSy), (st3_frame s2 s4 aSz), (HS2 i j k Hi)
        by (intros l Hl; apply F; rewrite Hl; auto; discriminate).
      rewrite !(slopes3_ext (st3 s2 aQ) (st3 s4 aQ)); auto;
        intros; symmetry; apply st3_frame; intros l Hl; apply F; rewrite Hl; auto; discriminate. }
    apply trace3_spec in Hy; auto; try discriminate. destruct Hy as [Y1 Y2].
    apply update_dir3_spec in Huy; auto; try discriminate. destruct Huy as (UY1 & UY2 & UY3).
    assert (HS6 : have_slopes3 p g s6).
    { intros i j k Hi.
      assert (F : forall l, la l <> aOut -> la l <> aFx -> s6 l = s4 l) by (intros l ? ?; rewrite UY3, Y2; auto).
      rewrite (st3_frame s4 s6 aSx), (st3_frame s4 s6 aSy), (st3_frame s4 s6 aSz), (HS4 i j k Hi)
        by (intros l Hl; apply F; rewrite Hl; auto; discriminate).
      rewrite !(slopes3_ext (st3 s4 aQ) (st3 s6 aQ)); auto;
        intros; symmetry; apply st3_frame; intros l Hl; apply F; rewrite Hl; auto; discriminate. }
    apply trace3_spec in Hz; auto; try discriminate. destruct Hz as [Z1 Z2].
    apply update_dir3_spec in Huz; auto; try discriminate. destruct Huz as (UZ1 & UZ2 & UZ3).
    cbn [flux3] in X1, Y1, Z1.
    assert (EZ' : zfx impl = fluxZ3' p dt ge) by (rewrite Himpl; reflexivity). rewrite <- EZ' in Z1.
    assert (F2 : forall l, la l = aQ \/ la l = aG -> s2 l = s1 l).
    { intros l [Hl|Hl]; apply S3; rewrite Hl; discriminate. }
    assert (F4 : forall l, la l = aQ \/ la l = aG -> s4 l = s1 l).
    { intros l Hl. rewrite UX3, X2, F2; auto; destruct Hl as [-> | ->]; auto; discriminate. }
    assert (F6 : forall l, la l = aQ \/ la l = aG -> s6 l = s1 l).
    { intros l Hl. rewrite UY3, Y2, F4; auto; destruct Hl as [-> | ->]; auto; discriminate. }
    assert (EX2 : forall i j k, faces3 g i j k = true -> fluxX3 p dt ge (st3 s2 aQ) (gr3 s2) i j k = fluxX3 p dt ge Q (gr3 s) i j k).
    { intros i j k Hf. rewrite <- EX by auto. apply fluxX3_ext; intros; [apply st3_frame|apply gr3_frame|apply gr3_frame]; intros l Hl; apply F2; auto. }
    assert (EY2 : forall i j k, faces3 g i j k = true -> fluxY3 p dt ge (st3 s4 aQ) (gr3 s4) i j k = fluxY3 p dt ge Q (gr3 s) i j k).
    { intros i j k Hf. rewrite <- EY by auto. apply fluxY3_ext; intros; [apply st3_frame|apply gr3_frame|apply gr3_frame]; intros l Hl; apply F4; auto. }
    assert (EZ2 : forall i j k, faces3 g i j k = true -> zfx impl (st3 s6 aQ) (gr3 s6) i j k = zfx impl Q (gr3 s) i j k).
    { intros i j k Hf. rewrite <- EZ by auto. apply zfx_ext; intros; [apply st3_frame|apply gr3_frame|apply gr3_frame]; intros l Hl; apply F6; auto. }
    destruct (gravity_tail3 aIn aOut s s8 s'
       (fun i j k => upd3 (st3 s aOut i j k) (fluxX3 p dt ge Q (gr3 s) i j k) (fluxX3 p dt ge Q (gr3 s) (i + 1) j k)
                   (fluxY3 p dt ge Q (gr3 s) i j k) (fluxY3 p dt ge Q (gr3 s) i (j + 1) k)
                   (zfx impl Q (gr3 s) i j k) (zfx impl Q (gr3 s) i j (k + 1)))) as (G1 & G2 & G3);
      auto.
    + intros l Hl. rewrite UZ3, Z2, UY3, Y2, UX3, X2, S3, C2; auto; destruct Hl as [-> | ->]; auto; discriminate.
    + intros i j k Hi. destruct (HF i j k Hi) as (Fa & Fb & Fc & Fd). rewrite UZ1 by auto.
      rewrite !Z1 by auto. rewrite !EZ2 by auto.
      rewrite (st3_frame s6 s7) by (intros l Hl; apply Z2; congruence). rewrite UY1 by auto.
      rewrite !Y1 by auto. rewrite !EY2 by auto.
      rewrite (st3_frame s4 s5) by (intros l Hl; apply Y2; congruence).
      rewrite UX1 by auto. rewrite !X1 by auto. rewrite !EX2 by auto.
      rewrite (st3_frame s2 s3) by (intros l Hl; apply X2; congruence).
      rewrite (st3_frame s1 s2) by (intros l Hl; apply S3; congruence). rewrite EO. reflexivity.
    + split; [|split].
      * intros i j k Hi. rewrite G1 by auto. reflexivity.
      * intros i j k v Hi. rewrite G2, UZ2, Z2, UY2, Y2, UX2, X2, S3, C2; auto.
      * intros l Hl. unfold scratch3 in Hl. rewrite G3, UZ3, Z2, UY3, Y2, UX3, X2, S3, C2; tauto.
Qed.

(** ** The whole step *)
(** State of cell (i,j) of array [a] after the ghost cells are filled. *)
Definition fst3 (s : store) (a i j k : Z) : hs T :=
  let f := filled3d false g (fun i j k v => s (Loc a i j k v)) i j k in HS (f ID) (f IP) (f IU) (f IV) (f IW).

Lemma interior3_inside i j k : interior3 g i j k = true <-> inside3 g i j k.
Proof.
  clear. rewrite interior3_spec. unfold inside3, isize, jsize, ksize, imax, imin, jmax, jmin, kmax, kmin. lia.
Qed.

Theorem godunov3_spec impl aIn aOut (s s' : store) :
  impl = 0 \/ impl = 1 -> arr_ok aIn aOut -> hydro_grid3 g -> slopes_ok p -> riem3_ok p ->
  run_kernels (godunov3 p g dt ge junk impl aIn aOut) s s' ->
  (forall i j k, inside3 g i j k -> st3 s' aOut i j k = step3 p dt ge (zfx impl) (fst3 s aIn) (gr3 s) i j k) /\
  (forall i j k v, 0 <= i < isize g -> 0 <= j < jsize g -> 0 <= k < ksize g -> 0 <= v < 5 -> ~ inside3 g i j k ->
     s' (Loc aOut i j k v) = filled3d false g (fun i j k v => s (Loc aIn i j k v)) i j k v) /\
  (forall i j k v, 0 <= i < isize g -> 0 <= j < jsize g -> 0 <= k < ksize g -> 0 <= v < 5 ->
     s' (Loc aIn i j k v) = filled3d false g (fun i j k v => s (Loc aIn i j k v)) i j k v) /\
  (forall l, ~ scratch3 aOut l -> la l <> aIn -> s' l = s l).
Proof.
  intros Himpl Ha Hg Hs Hr Hk. pose proof Hg as (G1 & G2 & G3 & G4 & G5).
  unfold godunov3 in Hk. apply run_kernels_app in Hk. destruct Hk as (s1 & Hb & Hk).
  apply rk_inv in Hk. destruct Hk as (s2 & Hc & Hk).
  assert (Hok : grid_ok3d g) by (clear - G1 G2 G3 G4 G5; unfold grid_ok3d, grid_ok2d; lia).
  destruct (fill3_spec false g aIn s s1 Hok Hb) as [B1 B2].
  assert (Hne : aOut <> aIn) by (clear - Ha; arrays; lia).
  destruct (deep_copy_spec g (cells3 g) aOut aIn s1 s2 (NoDup_cells3 g) Hne Hc) as [D1 D2].
  assert (Hg2 : 2 <= gw g) by (clear - G1; lia).
  destruct (scheme3_spec impl aIn aOut s2 s' Himpl Ha Hg2 Hs Hr Hk) as (S1 & S2 & S3).
  assert (BI : forall i j k v, 0 <= i < isize g -> 0 <= j < jsize g -> 0 <= k < ksize g -> 0 <= v < 5 ->
     s2 (Loc aIn i j k v) = filled3d false g (fun i j k v => s (Loc aIn i j k v)) i j k v).
  { intros i j k v Hi Hj Hk' Hv. rewrite D2.
    - apply B1; clear - Hi Hj Hk' Hv G2; unfold isize, jsize, ksize, imax, imin, jmax, jmin, kmax, kmin in *; lia.
    - cbn [la]. intros [H _]. congruence. }
  assert (BO : forall i j k v, 0 <= i < isize g -> 0 <= j < jsize g -> 0 <= k < ksize g -> 0 <= v < 5 ->
     s2 (Loc aOut i j k v) = filled3d false g (fun i j k v => s (Loc aIn i j k v)) i j k v).
  { intros i j k v Hi Hj Hk' Hv. rewrite D1.
    - apply B1; clear - Hi Hj Hk' Hv G2; unfold isize, jsize, ksize, imax, imin, jmax, jmin, kmax, kmin in *; lia.
    - apply in3; auto.
    - rewrite G2. exact Hv. }
  assert (SI : forall i j k, 0 <= i < isize g -> 0 <= j < jsize g -> 0 <= k < ksize g -> st3 s2 aIn i j k = fst3 s aIn i j k).
  { intros i j k Hi Hj Hk'. unfold st3, fst3. rewrite !BI by (auto; unfold ID, IP, IU, IV, IW; lia). reflexivity. }
  assert (SO : forall i j k, 0 <= i < isize g -> 0 <= j < jsize g -> 0 <= k < ksize g -> st3 s2 aOut i j k = fst3 s aIn i j k).
  { intros i j k Hi Hj Hk'. unfold st3, fst3. rewrite !BO by (auto; unfold ID, IP, IU, IV, IW; lia). reflexivity. }
  assert (SG : forall i j k d, gr3 s2 i j k d = gr3 s i j k d).
  { intros i j k d. unfold gr3. rewrite D2, B2; auto.
    - unfold alloc3d. cbn [la]. intros [H _]. clear - H Ha. arrays. lia.
    - cbn [la]. intros [H _]. clear - H Ha. arrays. lia. }
  split; [|split; [|split]].
  - intros i j k Hi. assert (Hr' : 2 <= i < isize g - 2 /\ 2 <= j < jsize g - 2 /\ 2 <= k < ksize g - 2).
    { apply interior3_inside, interior3_spec in Hi. clear - Hi G1. lia. }
    rewrite S1 by (apply interior3_inside; auto).
    rewrite SO by (clear - Hr'; lia). rewrite <- SI by (clear - Hr'; lia).
    rewrite stepfrom3_step3. apply step3_ext.
    + intros i' j' k' Hn. apply SI; clear - Hn Hr'; unfold near3 in Hn; lia.
    + intros i' j' k' d Hn. apply SG.
  - intros i j k v Hi Hj Hk' Hv Hn. rewrite S2.
    + apply BO; auto.
    + destruct (interior3 g i j k) eqn:E; auto. exfalso. apply Hn, interior3_inside, E.
  - intros i j k v Hi Hj Hk' Hv. rewrite S3; [apply BI; auto|].
    unfold scratch3. cbn [la]. clear - Ha. arrays. lia.
  - intros l Hl Hl'. rewrite S3, D2, B2; auto.
    + unfold alloc3d. tauto.
    + intros [H _]. apply Hl. left. exact H.
Qed.

(** Cell by cell: inside or in the ghost layer. *)
Lemma inside3_dec i j k : inside3 g i j k \/ ~ inside3 g i j k.
Proof. clear. unfold inside3. lia. Qed.
End S3.
