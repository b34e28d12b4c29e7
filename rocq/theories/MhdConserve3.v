(** 3D MHD step in exact arithmetic: independence of uninitialised memory, magnetic
    divergence, conservation. *)
From Coq Require Import ZArith List Bool Lia Reals Lra.
From Verif Require Import Arith Par ParProofs GridModel BoundaryModel BoundarySpec BoundaryProofs
  HydroState HydroKernels CellKernels HydroExec HydroSpec HydroProofs2 HydroStep2 HydroSums HydroConserve
  MhdState MhdRiemann MhdPoint MhdKernels2 MhdSpec MhdExec MhdConserve2 MhdSpec3 MhdPoint3 MhdKernels3 MhdField3 MhdProofs3
  MhdStep3 MhdLow3.
Import ListNotations.
Open Scope Z_scope.

Section J.
Context {T : Type} {AT : Arith T}.
Variable p : mparams T.
Variable g : grid.
Variable dt : T.

Section Two.
Variables junk junk' : cell -> Z -> ms T.
Hypothesis Hr : mriemann_ok p.
Lemma flux_of_junk impl Q U d c : flux_of p g dt junk impl Q U d c = flux_of p g dt junk' impl Q U d c.
Proof.
  unfold flux_of. destruct (impl =? 2); [unfold lflux3f; cbv zeta|unfold flux3f]; f_equal; apply riemann_junk, Hr.
Qed.
Lemma vstep3_junk impl U c : vstep3 p g dt junk impl U c = vstep3 p g dt junk' impl U c.
Proof. unfold vstep3. apply new3_ext; intros; [apply flux_of_junk|reflexivity]. Qed.
End Two.

(** Shifts along an axis. *)
Definition shf {B} (d : comp3) (n : Z) (U : cell -> B) (c : cell) : B := U (move d n c).
Lemma move_move d n e m c : move d n (move e m c) = move e m (move d n c).
Proof.
  clear. destruct c as [[x y] z], d, e; pos3; try reflexivity; rewrite <- ?Z.add_assoc, (Z.add_comm n m); reflexivity.
Qed.
Lemma up_move d s e n c : up d s (move e n c) = move e n (up d s c).
Proof. clear. destruct s; cbn [up]; [apply move_move|reflexivity]. Qed.
Ltac mv d n := rewrite ?(fun e m c => move_move e m d n c).

Lemma prim3_shift U d n c : prim3 p U (move d n c) = prim3 p (shf d n U) c.
Proof. clear dt g. unfold prim3, shf. rewrite !(move_move d n). reflexivity. Qed.
Lemma elecf_shift Q U e d n c : elecf Q U e (move d n c) = elecf (shf d n Q) (shf d n U) e c.
Proof. clear dt g p. unfold elecf, shf. cbv zeta. rewrite !(move_move d n). reflexivity. Qed.
Lemma magf_shift U a b d n c : magf p U a b (move d n c) = magf p (shf d n U) a b c.
Proof. clear dt g. unfold magf, shf. rewrite !(move_move d n). reflexivity. Qed.

Lemma trace3_core_pos x x' q d E fc db a b c : no_rotation p -> trace3_core p x q d E fc db a b c = trace3_core p x' q d E fc db a b c.
Proof. intros H. unfold trace3_core, shear3. rewrite H. reflexivity. Qed.

Section Shift.
Variable junk : cell -> Z -> ms T.
Hypothesis Hr : mriemann_ok p.
Hypothesis Hn : no_rotation p.
Lemma teq_trans t1 t2 t3 : teq t1 t2 -> teq t2 t3 -> teq (T := T) t1 t3.
Proof. clear. intros [A B] [C D]. split; intros; [rewrite A; apply C|rewrite B; apply D]. Qed.
Lemma trace3f_shift Q U d n c : teq (trace3f p g dt Q U (move d n c)) (trace3f p g dt (shf d n Q) (shf d n U) c).
Proof.
  unfold trace3f. rewrite (trace3_core_pos _ (xpos3 p g c)) by exact Hn. unfold teq, shf at 1 2 3 4 5 6.
  apply trace3_core_ext.
  - intros a. apply slope_hydro3_ext; intros e; rewrite move_move; reflexivity.
  - intros e a b. rewrite !up_move. apply elecf_shift.
  - intros a s. rewrite up_move. reflexivity.
  - intros a b s. rewrite up_move. apply magf_shift.
Qed.
Lemma slopef_shift Q U a d n c : slopef p Q U a (move d n c) = slopef p (shf d n Q) (shf d n U) a c.
Proof. clear Hr Hn junk dt g. unfold slopef, shf. rewrite !(move_move d n). reflexivity. Qed.
Lemma sfacef_shift Q U a d n c : sfacef p dt Q U a (move d n c) = sfacef p dt (shf d n Q) (shf d n U) a c.
Proof. clear Hr Hn junk g. unfold sfacef. destruct a; rewrite !(move_move _ _ d n), !elecf_shift; reflexivity. Qed.
Lemma q2f_shift Q U d n c : q2f p dt Q U (move d n c) = q2f p dt (shf d n Q) (shf d n U) c.
Proof. clear Hr Hn junk g. unfold q2f. rewrite !slopef_shift. unfold shf at 7 8 9 10 11 12 13. rewrite !(move_move _ _ d n). reflexivity. Qed.
Lemma ledgef_shift Q U e a b d n c : ledgef p dt Q U e a b (move d n c) = ledgef p dt (shf d n Q) (shf d n U) e a b c.
Proof.
  clear Hr Hn junk g. unfold ledgef. cbv zeta. rewrite !up_move, !slopef_shift, !sfacef_shift, q2f_shift, !(move_move _ _ d n). reflexivity.
Qed.
Lemma flux_of_shift impl Q U a d n c :
  flux_of p g dt junk impl Q U a (move d n c) = flux_of p g dt junk impl (shf d n Q) (shf d n U) a c.
Proof.
  unfold flux_of. destruct (impl =? 2).
  - unfold lflux3f. cbv zeta. rewrite !(move_move _ _ d n), !slopef_shift, !q2f_shift, sfacef_shift. f_equal. apply riemann_junk, Hr.
  - unfold flux3f. rewrite !(move_move _ _ d n).
    destruct (trace3f_shift Q U d n c) as [E1 _]. destruct (trace3f_shift Q U d n (move a (-1) c)) as [E2 _].
    rewrite E1, E2. f_equal. apply riemann_junk, Hr.
Qed.
Lemma emff_of_shift impl Q U e d n c :
  emff_of p g dt impl Q U e (move d n c) = emff_of p g dt impl (shf d n Q) (shf d n U) e c.
Proof.
  unfold emff_of. destruct (impl =? 2).
  - unfold lemf3f. rewrite !(move_move _ _ d n), !ledgef_shift. reflexivity.
  - unfold emf3f. rewrite !(move_move _ _ d n).
    rewrite !(fun c => proj2 (trace3f_shift Q U d n c)). reflexivity.
Qed.
End Shift.
End J.

Section D3.
Variable p : mparams R.
Variable g : grid.
Variable dt : R.
Variable junk : cell -> Z -> ms R.
Local Notation Dx := (dtdx (mh p) dt).
Local Notation Dy := (dtdy (mh p) dt).
Local Notation Dz := (dtdz (mh p) dt).
Notation field := (cell -> ms R).

Lemma inside_rng i j k : rng3 g (gw g) (gw g) (i, j, k) = true <-> inside3 g i j k.
Proof. clear. rewrite rng3_spec. unfold inside3, isize, jsize, ksize, imax, imin, jmax, jmin, kmax, kmin, cx, cy, cz; cbn [fst snd]. lia. Qed.

(** Every variant of the step is its step function. *)
Lemma mgodunov3_spec impl aIn aOut (s s' : store R) : variant_ok3 p impl -> arr_ok aIn aOut -> mhd_grid3 g ->
  run_kernels (mgodunov3 p g dt junk impl aIn aOut) s s' ->
  (forall i j k, inside3 g i j k -> mst s' aOut i j k = vstep3 p g dt junk impl (mfil g s aIn) (i, j, k)) /\
  (forall i j k v, 0 <= i < isize g -> 0 <= j < jsize g -> 0 <= k < ksize g -> 0 <= v < 8 ->
     s' (Loc aIn i j k v) = filled3d true g (fun i j k v => s (Loc aIn i j k v)) i j k v) /\
  (forall l, ~ mscratch3 aOut l -> la l <> aIn -> s' l = s l).
Proof.
  intros Hi Ha Hg Hk. pose proof Hg as ((G1 & _) & _).
  destruct (mgodunov3_gen p g dt junk impl aIn aOut s s' Ha Hg) as (A & B & C); auto.
  - destruct Hi as [->|[->| (-> & Hs)]].
    + apply scheme_ok3_0; auto. lia.
    + apply mscheme3_1; auto. lia.
    + apply mscheme3_2; auto; [lia|apply mslope_ok_12; auto].
  - split; [|split; auto].
    + intros i j k Hin. apply (A (i, j, k)), inside_rng, Hin.
    + intros i j k v H1 H2 H3 Hv. apply (B (i, j, k)); auto. apply rng3_spec; unfold cx, cy, cz; cbn [fst snd]. lia.
Qed.

Lemma mfil_inside (s : store R) a i j k : inside3 g i j k -> mfil g s a (i, j, k) = mst s a i j k.
Proof. clear. intros (H1 & H2 & H3). unfold mfil, mfill3, cx, cy, cz. cbn [fst snd]. rewrite !filled3d_interior by auto. reflexivity. Qed.

Definition size (d : comp3) : Z := match d with CX => nx g | CY => ny g | CZ => nz g end.
Lemma mfil_per (s : store R) a d c : all_periodic g -> - size d <= coord d c - gw g < size d ->
  mfil g s a (move d (size d) c) = mfil g s a c.
Proof. clear.
  intros Hp Hi. destruct (periodic_kinds g Hp) as (E1 & E2 & E3 & E4 & E5 & E6).
  unfold mfil, mfill3, filled3d. cbv zeta. rewrite E1, E2, E3, E4, E5, E6, !along_periodic_m.
  destruct c as [[x y] z]. destruct d; cbn [size] in *; pos3.
  - replace (x + nx g - gw g)%Z with (x - gw g + nx g)%Z by lia. rewrite image_periodic by auto. reflexivity.
  - replace (y + ny g - gw g)%Z with (y - gw g + ny g)%Z by lia. rewrite image_periodic by auto. reflexivity.
  - replace (z + nz g - gw g)%Z with (z - gw g + nz g)%Z by lia. rewrite image_periodic by auto. reflexivity.
Qed.

(** Fluxes and electromotive forces on opposite sides of a periodic box agree. *)
Lemma periodic3 impl (s : store R) aIn d c : mhd_grid3 g -> all_periodic g -> mriemann_ok p -> no_rotation p -> coord d c = gw g ->
  let U := mfil g s aIn in let Q := prim3 p U in
  (forall a, flux_of p g dt junk impl Q U a (move d (size d) c) = flux_of p g dt junk impl Q U a c) /\
  (forall e, emff_of p g dt impl Q U e (move d (size d) c) = emff_of p g dt impl Q U e c).
Proof.
  intros Hg Hp Hr Hn Hc U Q. pose proof Hg as ((G1 & G2 & G3 & G4) & G5).
  assert (S : 3 <= size d) by (destruct d; cbn; lia).
  assert (HU : forall c', near 2 2 c c' -> shf d (size d) U c' = U c').
  { intros c' H. apply mfil_per; auto. clear - H Hc S. destruct c as [[? ?] ?], c' as [[? ?] ?], d; pos3; lia. }
  assert (HQ : forall c', near 2 1 c c' -> shf d (size d) Q c' = Q c').
  { intros c' H. unfold shf, Q. rewrite prim3_shift. apply prim3_ext. intros c'' H'. apply HU. eapply near_trans; eauto; lia. }
  assert (HU1 : forall c', near 2 1 c c' -> shf d (size d) U c' = U c').
  { intros c' H. apply HU. destruct c as [[? ?] ?], c' as [[? ?] ?]; pos3; lia. }
  split.
  - intros a. rewrite flux_of_shift by auto. apply flux_of_ext; auto.
  - intros e. rewrite emff_of_shift by auto. apply emff_of_ext; auto.
Qed.

Local Open Scope R_scope.
(** Divergence. *)
Definition dB (E : comp3 -> cell -> R) (d : comp3) (c : cell) : R :=
  match d with
  | CX => (E CZ (move CY 1 c) - E CZ c) * Dy - (E CY (move CZ 1 c) - E CY c) * Dz
  | CY => - (E CZ (move CX 1 c) - E CZ c) * Dx + (E CX (move CZ 1 c) - E CX c) * Dz
  | CZ => (E CY (move CX 1 c) - E CY c) * Dx - (E CX (move CY 1 c) - E CX c) * Dy
  end.
Lemma new3_B F E u c d : bcomp d (new3 p dt F E u c) = bcomp d u + dB E d c.
Proof.
  unfold new3, indf, accf. destruct d; cbn; ring.
Qed.
Lemma div3_step E (U V : field) c :
  (forall d, bcomp d (V c) = bcomp d (U c) + dB E d c) ->
  (forall d, bcomp d (V (move d 1 c)) = bcomp d (U (move d 1 c)) + dB E d (move d 1 c)) ->
  div3 (mh p) (fun i j k => V (i, j, k)) (cx c) (cy c) (cz c) = div3 (mh p) (fun i j k => U (i, j, k)) (cx c) (cy c) (cz c).
Proof.
  intros H1 H2. unfold div3. destruct c as [[x y] z].
  pose proof (H1 CX) as A1. pose proof (H1 CY) as B1. pose proof (H1 CZ) as C1.
  pose proof (H2 CX) as A2. pose proof (H2 CY) as B2. pose proof (H2 CZ) as C2. clear H1 H2.
  pos3. cbn [bcomp] in *. rewrite A1, A2, B1, B2, C1, C2. cbn [dB add sub div RArith]. pos3. unfold dtdx, dtdy, dtdz. cbn [div RArith].
  unfold Rdiv. ring.
Qed.

Theorem div_interior3 impl aIn aOut (s s' : store R) i j k :
  variant_ok3 p impl -> arr_ok aIn aOut -> mhd_grid3 g ->
  run_kernels (mgodunov3 p g dt junk impl aIn aOut) s s' ->
  inside3 g i j k -> inside3 g (i + 1) j k -> inside3 g i (j + 1) k -> inside3 g i j (k + 1) ->
  div3 (mh p) (mst s' aOut) i j k = div3 (mh p) (mst s aIn) i j k.
Proof.
  intros Hi Ha Hg Hk I0 IX IY IZ.
  destruct (mgodunov3_spec impl aIn aOut s s' Hi Ha Hg Hk) as (K & _).
  set (U := mfil g s aIn) in *. set (E := emff_of p g dt impl (prim3 p U) U).
  assert (N : forall d i j k, inside3 g i j k -> bcomp d (m3 s' aOut (i, j, k)) = bcomp d (m3 s aIn (i, j, k)) + dB E d (i, j, k)).
  { intros d i0 j0 k0 H. change (m3 s' aOut (i0, j0, k0)) with (mst s' aOut i0 j0 k0). rewrite K by auto. unfold vstep3.
    rewrite new3_B. change (U (i0, j0, k0)) with (mfil g s aIn (i0, j0, k0)). rewrite mfil_inside by auto. reflexivity. }
  apply (div3_step E (m3 s aIn) (m3 s' aOut) (i, j, k)).
  - intros d. apply N, I0.
  - intros d. destruct d; pos3; apply N; assumption.
Qed.

Theorem div_periodic3 impl aIn aOut (s s' : store R) i j k :
  variant_ok3 p impl -> arr_ok aIn aOut -> mhd_grid3 g -> all_periodic g -> mriemann_ok p -> no_rotation p ->
  run_kernels (mgodunov3 p g dt junk impl aIn aOut) s s' -> inside3 g i j k ->
  div3 (mh p) (mfill3 g s' aOut) i j k = div3 (mh p) (mfill3 g s aIn) i j k.
Proof.
  intros Hi Ha Hg Hp Hr Hn Hk I0. pose proof Hg as ((G1 & G2 & G3 & G4) & G5).
  destruct (mgodunov3_spec impl aIn aOut s s' Hi Ha Hg Hk) as (K & _).
  set (U := mfil g s aIn) in *. set (E := emff_of p g dt impl (prim3 p U) U).
  assert (N : forall d i j k, inside3 g i j k -> bcomp d (mfil g s' aOut (i, j, k)) = bcomp d (U (i, j, k)) + dB E d (i, j, k)).
  { intros d i0 j0 k0 H. rewrite mfil_inside, K by auto. unfold vstep3. rewrite new3_B. reflexivity. }
  apply (div3_step E U (mfil g s' aOut) (i, j, k)).
  - intros d. apply N, I0.
  - intros d.
    destruct (Z.eq_dec (coord d (i, j, k) + 1) (gw g + size d)) as [Ed|Nd].
    + set (c := move d (1 - size d) (i, j, k)).
      assert (Ec : move d 1 (i, j, k) = move d (size d) c).
      { unfold c. clear. destruct d; cbn [size]; pos3; (apply f_equal2; [apply f_equal2|]; lia). }
      assert (Cc : coord d c = gw g) by (clear - Ed; unfold c; destruct d; pos3; lia).
      assert (Ic : exists x y z, c = (x, y, z) /\ inside3 g x y z).
      { clear - Ed I0 G3 G4 G5. unfold c, inside3 in *. destruct d; cbn [size] in *; pos3; do 3 eexists; (split; [reflexivity|]); lia. }
      rewrite Ec. unfold U. rewrite !mfil_per by (auto; lia || (rewrite Cc; destruct d; cbn [size]; lia)).
      destruct Ic as (x & y & z & Exyz & Ic). rewrite Exyz, N by auto. fold U. f_equal.
      assert (P : forall e c', coord d c' = gw g -> E e (move d (size d) c') = E e c').
      { intros e c' Hc'. exact (proj2 (periodic3 impl s aIn d c' Hg Hp Hr Hn Hc') e). }
      rewrite <- Exyz. clear - P Cc. assert (P' : forall e a, a <> d -> E e (move a 1 (move d (size d) c)) = E e (move a 1 c)).
      { intros e a Hd. rewrite move_move. apply P. rewrite <- Cc. destruct c as [[? ?] ?], a, d; pos3; congruence. }
      destruct d; cbn [dB]; rewrite !P, !P' by (auto; discriminate); reflexivity.
    + assert (In' : exists x y z, move d 1 (i, j, k) = (x, y, z) /\ inside3 g x y z).
      { clear - Nd I0. unfold inside3 in *. destruct d; cbn [size] in *; pos3; do 3 eexists; (split; [reflexivity|]); lia. }
      destruct In' as (x & y & z & -> & In'). apply N, In'.
Qed.

(** Conservation. *)
Lemma new3_get F E u c v : cell_centred3 v ->
  mget (new3 p dt F E u c) v = mget u v
   + (mget (F CX c) v * Dx - mget (F CX (move CX 1 c)) v * Dx)
   + (mget (F CY c) v * Dy - mget (F CY (move CY 1 c)) v * Dy)
   + (mget (F CZ c) v * Dz - mget (F CZ (move CZ 1 c)) v * Dz).
Proof.
  intros Hv. unfold cell_centred3 in Hv. unfold new3, indf, accf.
  assert (C : (v = 0 \/ v = 1 \/ v = 2 \/ v = 3 \/ v = 4)%Z) by lia.
  destruct C as [->|[->|[->|[->| ->]]]]; cbn; ring.
Qed.

Lemma sumZ3_tele_x (f : Z -> Z -> Z -> R) a b a' b' a'' b'' : (a <= b)%Z ->
  sumZ a b (fun i => sumZ a' b' (fun j => sumZ a'' b'' (fun k => f i j k - f (i + 1)%Z j k)))
  = sumZ a' b' (fun j => sumZ a'' b'' (fun k => f a j k - f b j k)).
Proof.
  intros H. rewrite sumZ_swap. apply sumZ_ext. intros j _. rewrite sumZ_swap. apply sumZ_ext. intros k _.
  exact (sumZ_tele a b (fun i => f i j k) H).
Qed.
Lemma sumZ3_tele_y (f : Z -> Z -> Z -> R) a b a' b' a'' b'' : (a' <= b')%Z ->
  sumZ a b (fun i => sumZ a' b' (fun j => sumZ a'' b'' (fun k => f i j k - f i (j + 1)%Z k)))
  = sumZ a b (fun i => sumZ a'' b'' (fun k => f i a' k - f i b' k)).
Proof.
  intros H. apply sumZ_ext. intros i _. rewrite sumZ_swap. apply sumZ_ext. intros k _.
  exact (sumZ_tele a' b' (fun j => f i j k) H).
Qed.
Lemma sumZ3_tele_z (f : Z -> Z -> Z -> R) a b a' b' a'' b'' : (a'' <= b'')%Z ->
  sumZ a b (fun i => sumZ a' b' (fun j => sumZ a'' b'' (fun k => f i j k - f i j (k + 1)%Z)))
  = sumZ a b (fun i => sumZ a' b' (fun j => f i j a'' - f i j b'')).
Proof.
  intros H. apply sumZ_ext. intros i _. apply sumZ_ext. intros j _.
  exact (sumZ_tele a'' b'' (fun k => f i j k) H).
Qed.
Lemma sumZ3_plus (f h : Z -> Z -> Z -> R) a b a' b' a'' b'' :
  sumZ a b (fun i => sumZ a' b' (fun j => sumZ a'' b'' (fun k => f i j k + h i j k)))
  = sumZ a b (fun i => sumZ a' b' (fun j => sumZ a'' b'' (fun k => f i j k)))
  + sumZ a b (fun i => sumZ a' b' (fun j => sumZ a'' b'' (fun k => h i j k))).
Proof.
  rewrite <- sumZ_add. apply sumZ_ext. intros i _. rewrite <- sumZ_add. apply sumZ_ext. intros j _. apply sumZ_add.
Qed.
Lemma mst_val (s : store R) a i j k v : (0 <= v < 8)%Z -> s (Loc a i j k v) = mget (mst s a i j k) v.
Proof. clear. apply mst_get. Qed.

Theorem mbalance3 impl aIn aOut (s s' : store R) v :
  variant_ok3 p impl -> arr_ok aIn aOut -> mhd_grid3 g -> cell_centred3 v ->
  run_kernels (mgodunov3 p g dt junk impl aIn aOut) s s' ->
  let U := mfil g s aIn in
  let F d i j k := mget (flux_of p g dt junk impl (prim3 p U) U d (i, j, k)) v in
  total3 g s' aOut v = total3 g s aIn v
   + sumZ (gw g) (gw g + ny g) (fun j => sumZ (gw g) (gw g + nz g) (fun k => F CX (gw g) j k * Dx - F CX (gw g + nx g)%Z j k * Dx))
   + sumZ (gw g) (gw g + nx g) (fun i => sumZ (gw g) (gw g + nz g) (fun k => F CY i (gw g) k * Dy - F CY i (gw g + ny g)%Z k * Dy))
   + sumZ (gw g) (gw g + nx g) (fun i => sumZ (gw g) (gw g + ny g) (fun j => F CZ i j (gw g) * Dz - F CZ i j (gw g + nz g)%Z * Dz)).
Proof.
  intros Hi Ha Hg Hv Hk U F. pose proof Hg as ((G1 & G2 & G3 & G4) & G5).
  destruct (mgodunov3_spec impl aIn aOut s s' Hi Ha Hg Hk) as (K & _). fold U in K.
  assert (Hv8 : (0 <= v < 8)%Z) by (clear - Hv; unfold cell_centred3 in Hv; lia).
  rewrite <- (sumZ3_tele_x (fun i j k => F CX i j k * Dx)) by lia.
  rewrite <- (sumZ3_tele_y (fun i j k => F CY i j k * Dy)) by lia.
  rewrite <- (sumZ3_tele_z (fun i j k => F CZ i j k * Dz)) by lia.
  unfold total3. rewrite <- !sumZ3_plus.
  apply sumZ_ext. intros i Hii. apply sumZ_ext. intros j Hjj. apply sumZ_ext. intros k Hkk.
  assert (Hin : inside3 g i j k) by (unfold inside3; lia).
  rewrite (mst_val s'), K by auto. unfold vstep3. rewrite new3_get by auto.
  rewrite (mst_val s) by auto. rewrite <- mfil_inside by auto. fold U. unfold F. pos3. reflexivity.
Qed.

Theorem mconserve3 impl aIn aOut (s s' : store R) v :
  variant_ok3 p impl -> arr_ok aIn aOut -> mhd_grid3 g -> all_periodic g -> mriemann_ok p -> no_rotation p -> cell_centred3 v ->
  run_kernels (mgodunov3 p g dt junk impl aIn aOut) s s' ->
  total3 g s' aOut v = total3 g s aIn v.
Proof.
  intros Hi Ha Hg Hp Hr Hn Hv Hk. pose proof (mbalance3 impl aIn aOut s s' v Hi Ha Hg Hv Hk) as B. cbv zeta in B. rewrite B. clear B.
  assert (P : forall d c, coord d c = gw g -> flux_of p g dt junk impl (prim3 p (mfil g s aIn)) (mfil g s aIn) d (move d (size d) c)
    = flux_of p g dt junk impl (prim3 p (mfil g s aIn)) (mfil g s aIn) d c).
  { intros d c Hc. exact (proj1 (periodic3 impl s aIn d c Hg Hp Hr Hn Hc) d). }
  rewrite !sumZ_zero; [lra|..].
  - intros i _. apply sumZ_zero. intros j _. pose proof (P CZ (i, j, gw g) eq_refl) as E. cbn [size] in E. pos3. rewrite E. lra.
  - intros i _. apply sumZ_zero. intros k _. pose proof (P CY (i, gw g, k) eq_refl) as E. cbn [size] in E. pos3. rewrite E. lra.
  - intros j _. apply sumZ_zero. intros k _. pose proof (P CX (gw g, j, k) eq_refl) as E. cbn [size] in E. pos3. rewrite E. lra.
Qed.
End D3.
