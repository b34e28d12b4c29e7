(** The initial magnetic field has zero discrete divergence. *)
From Coq Require Import ZArith List Bool Lia Reals Lra.
From Verif Require Import Arith Par ParProofs GridModel BoundaryModel BoundarySpec BoundaryProofs HydroState HydroKernels
  HydroSpec CellKernels HydroExec HydroStep2 HydroUniform HydroConserve MhdState MhdKernels2 MhdSpec MoodKernels MoodProofs
  MhdInit MhdInitProofs MhdInitSpec.
Import ListNotations.
Open Scope Z_scope.

Lemma along_open_m (dir n q v : Z) lo hi (x : R) : lo <> Reflecting -> hi <> Reflecting ->
  along (A:=RArith) true dir lo hi n q v x = x.
Proof.
  intros H1 H2. unfold along, reflected. destruct (is_ghost n q); auto.
  assert (E : match (if q <? 0 then Some lo else if n <=? q then Some hi else None) with
    | Some Reflecting => true | _ => false end = false)
    by (destruct (q <? 0); [destruct lo; tauto|]; destruct (n <=? q); [destruct hi; tauto|]; reflexivity).
  rewrite E. cbn. lra.
Qed.
Lemma open_kinds g : open_faces g -> forall f, kind_of_code (bc g f) <> Reflecting.
Proof.
  intros H f. specialize (H f). unfold kind_of_code, BC_DIRICHLET in *. destruct (Z.eqb_spec (bc g f) 1); [tauto|].
  destruct (bc g f =? 2); discriminate.
Qed.
Lemma periodic_open g : all_periodic g -> open_faces g.
Proof. intros H f. rewrite H. discriminate. Qed.

Section Fill.
Variable g : grid.
Definition ix (i : Z) : Z := gw g + image (kx0 g) (kx1 g) (nx g) (i - gw g).
Definition iy (i : Z) : Z := gw g + image (ky0 g) (ky1 g) (ny g) (i - gw g).
Definition iz (i : Z) : Z := gw g + image (kz0 g) (kz1 g) (nz g) (i - gw g).
Hypothesis Ho : open_faces g.

Lemma mfill2_open (s : store R) a i j : mfill2 g s a i j = mst s a (ix i) (iy j) 0.
Proof.
  unfold mfill2, filled2d, mst. cbv zeta. unfold kx0, kx1, ky0, ky1.
  rewrite !along_open_m by (apply open_kinds; auto). reflexivity.
Qed.
Lemma mfill3_open (s : store R) a i j k : mfill3 g s a i j k = mst s a (ix i) (iy j) (iz k).
Proof.
  unfold mfill3, filled3d, mst. cbv zeta. unfold kx0, kx1, ky0, ky1, kz0, kz1.
  rewrite !along_open_m by (apply open_kinds; auto). reflexivity.
Qed.
Lemma image_in lo hi n q : 0 <= q < n -> image lo hi n q = q.
Proof. intros H. unfold image. destruct (Z.ltb_spec q 0); [lia|]. destruct (Z.leb_spec n q); lia. Qed.
Lemma image_up lo hi n q : 0 < n -> 0 <= q <= n -> 0 <= image lo hi n q < n.
Proof. intros H0 H. unfold image. destruct (Z.ltb_spec q 0); [lia|]. destruct (Z.leb_spec n q); [destruct hi|]; lia. Qed.
Lemma ix_in i : gw g <= i < gw g + nx g -> ix i = i.
Proof. intros H. unfold ix. rewrite image_in; lia. Qed.
Lemma iy_in i : gw g <= i < gw g + ny g -> iy i = i.
Proof. intros H. unfold iy. rewrite image_in; lia. Qed.
Lemma iz_in i : gw g <= i < gw g + nz g -> iz i = i.
Proof. intros H. unfold iz. rewrite image_in; lia. Qed.
Lemma ix_up i : gw g <= i < gw g + nx g -> gw g <= ix (i + 1) < gw g + nx g.
Proof. intros H. unfold ix. pose proof (image_up (kx0 g) (kx1 g) (nx g) (i + 1 - gw g)). lia. Qed.
Lemma iy_up i : gw g <= i < gw g + ny g -> gw g <= iy (i + 1) < gw g + ny g.
Proof. intros H. unfold iy. pose proof (image_up (ky0 g) (ky1 g) (ny g) (i + 1 - gw g)). lia. Qed.
Lemma iz_up i : gw g <= i < gw g + nz g -> gw g <= iz (i + 1) < gw g + nz g.
Proof. intros H. unfold iz. pose proof (image_up (kz0 g) (kz1 g) (nz g) (i + 1 - gw g)). lia. Qed.
End Fill.

Lemma ix_wrap g i : all_periodic g -> gw g <= i < gw g + nx g ->
  ix g (i + 1) = i + 1 \/ (i + 1 = gw g + nx g /\ ix g (i + 1) = gw g).
Proof.
  intros Hp H. unfold ix, image, kx1. rewrite Hp.
  destruct (Z.ltb_spec (i + 1 - gw g) 0); [lia|]. destruct (Z.leb_spec (nx g) (i + 1 - gw g)); [right|left; lia].
  cbn. lia.
Qed.
Lemma iy_wrap g i : all_periodic g -> gw g <= i < gw g + ny g ->
  iy g (i + 1) = i + 1 \/ (i + 1 = gw g + ny g /\ iy g (i + 1) = gw g).
Proof.
  intros Hp H. unfold iy, image, ky1. rewrite Hp.
  destruct (Z.ltb_spec (i + 1 - gw g) 0); [lia|]. destruct (Z.leb_spec (ny g) (i + 1 - gw g)); [right|left; lia].
  cbn. lia.
Qed.
Lemma iz_wrap g i : all_periodic g -> gw g <= i < gw g + nz g ->
  iz g (i + 1) = i + 1 \/ (i + 1 = gw g + nz g /\ iz g (i + 1) = gw g).
Proof.
  intros Hp H. unfold iz, image, kz1. rewrite Hp.
  destruct (Z.ltb_spec (i + 1 - gw g) 0); [lia|]. destruct (Z.leb_spec (nz g) (i + 1 - gw g)); [right|left; lia].
  cbn. lia.
Qed.

(** ** Interior cells *)
Lemma inner2 g i j : inside2 g i j -> inner false g (i, j, 0) = true.
Proof.
  intros [H1 H2]. unfold inner. apply guard_spec. intros a Ha. apply dirs_cases in Ha.
  destruct Ha as [->|[->|[_ E]]]; [| |discriminate E].
  - change (coord (i, j, 0) IX) with i. change (sizeA g IX) with (isize g). unfold isize, imax, imin. lia.
  - change (coord (i, j, 0) IY) with j. change (sizeA g IY) with (jsize g). unfold jsize, jmax, jmin. lia.
Qed.
Lemma inner3 g i j k : inside3 g i j k -> inner true g (i, j, k) = true.
Proof.
  intros (H1 & H2 & H3). unfold inner. apply guard_spec. intros a Ha. apply dirs_cases in Ha.
  destruct Ha as [->|[->|[-> _]]].
  - change (coord (i, j, k) IX) with i. change (sizeA g IX) with (isize g). unfold isize, imax, imin. lia.
  - change (coord (i, j, k) IY) with j. change (sizeA g IY) with (jsize g). unfold jsize, jmax, jmin. lia.
  - change (coord (i, j, k) IZ) with k. change (sizeA g IZ) with (ksize g). unfold ksize, kmax, kmin. lia.
Qed.

(** ** Fields whose components do not vary along their own direction *)
Lemma straight2 g p (s : store R) i j : open_faces g -> inside2 g i j ->
  (forall i i' j, inside2 g i j -> inside2 g i' j -> s (Loc aU i j 0 IA) = s (Loc aU i' j 0 IA)) ->
  (forall i j j', inside2 g i j -> inside2 g i j' -> s (Loc aU i j 0 IB) = s (Loc aU i j' 0 IB)) ->
  div2 (mh p) (mfill2 g s aU) i j = 0%R.
Proof.
  intros Ho [Hi Hj] HA HB. unfold div2. rewrite !mfill2_open by auto. cbn [mst mA mB].
  rewrite (ix_in g i), (iy_in g j) by auto. pose proof (ix_up g i Hi). pose proof (iy_up g j Hj).
  rewrite (HA (ix g (i + 1)) i j), (HB i (iy g (j + 1)) j) by (split; auto). cbn. unfold Rdiv. ring.
Qed.
Lemma straight3 g p (s : store R) i j k : open_faces g -> inside3 g i j k ->
  (forall i i' j k, inside3 g i j k -> inside3 g i' j k -> s (Loc aU i j k IA) = s (Loc aU i' j k IA)) ->
  (forall i j j' k, inside3 g i j k -> inside3 g i j' k -> s (Loc aU i j k IB) = s (Loc aU i j' k IB)) ->
  (forall i j k k', inside3 g i j k -> inside3 g i j k' -> s (Loc aU i j k IC) = s (Loc aU i j k' IC)) ->
  div3 (mh p) (mfill3 g s aU) i j k = 0%R.
Proof.
  intros Ho (Hi & Hj & Hk) HA HB HC. unfold div3. rewrite !mfill3_open by auto. cbn [mst mA mB mC].
  rewrite (ix_in g i), (iy_in g j), (iz_in g k) by auto.
  pose proof (ix_up g i Hi). pose proof (iy_up g j Hj). pose proof (iz_up g k Hk).
  rewrite (HA (ix g (i + 1)) i j k), (HB i (iy g (j + 1)) j k), (HC i j (iz g (k + 1)) k) by (split; auto).
  cbn. unfold Rdiv. ring.
Qed.

(** ** Fields that are the curl of a potential *)
Lemma curl2 g p (A : cell -> Z -> R) (s : store R) i j : all_periodic g -> inside2 g i j ->
  (forall i j v, inside2 g i j -> v = IA \/ v = IB \/ v = IC -> s (Loc aU i j 0 v) = curl false p A (i, j, 0) v 0%R) ->
  (forall j, curl false p A (gw g + nx g, j, 0) IA 0%R = curl false p A (gw g, j, 0) IA 0%R) ->
  (forall i, curl false p A (i, gw g + ny g, 0) IB 0%R = curl false p A (i, gw g, 0) IB 0%R) ->
  div2 (mh p) (mfill2 g s aU) i j = 0%R.
Proof.
  intros Hp [Hi Hj] HF HX HY. unfold div2. rewrite !mfill2_open by (apply periodic_open; auto). cbn [mst mA mB].
  rewrite (ix_in g i), (iy_in g j) by auto.
  pose proof (ix_up g i Hi). pose proof (iy_up g j Hj).
  rewrite !HF by (first [solve [auto] | unfold inside2; lia]).
  assert (E1 : curl false p A (ix g (i + 1), j, 0) IA 0%R = curl false p A (i + 1, j, 0) IA 0%R).
  { destruct (ix_wrap g i Hp Hi) as [->|[-> ->]]; auto. }
  assert (E2 : curl false p A (i, iy g (j + 1), 0) IB 0%R = curl false p A (i, j + 1, 0) IB 0%R).
  { destruct (iy_wrap g j Hp Hj) as [->|[-> ->]]; auto. }
  change (@zero R RArith) with 0%R in *. rewrite E1, E2. unfold curl, along_dir, unit_vec, shift. cbn -[Z.add].
  rewrite !Z.add_0_r. unfold Rdiv. ring.
Qed.
Lemma curl3 g p (A : cell -> Z -> R) (s : store R) i j k : all_periodic g -> inside3 g i j k ->
  (forall i j k v, inside3 g i j k -> v = IA \/ v = IB \/ v = IC -> s (Loc aU i j k v) = curl true p A (i, j, k) v 0%R) ->
  (forall j k, curl true p A (gw g + nx g, j, k) IA 0%R = curl true p A (gw g, j, k) IA 0%R) ->
  (forall i k, curl true p A (i, gw g + ny g, k) IB 0%R = curl true p A (i, gw g, k) IB 0%R) ->
  (forall i j, curl true p A (i, j, gw g + nz g) IC 0%R = curl true p A (i, j, gw g) IC 0%R) ->
  div3 (mh p) (mfill3 g s aU) i j k = 0%R.
Proof.
  intros Hp (Hi & Hj & Hk) HF HX HY HZ. unfold div3. rewrite !mfill3_open by (apply periodic_open; auto). cbn [mst mA mB mC].
  rewrite (ix_in g i), (iy_in g j), (iz_in g k) by auto.
  pose proof (ix_up g i Hi). pose proof (iy_up g j Hj). pose proof (iz_up g k Hk).
  rewrite !HF by (first [solve [auto] | unfold inside3; lia]).
  assert (E1 : curl true p A (ix g (i + 1), j, k) IA 0%R = curl true p A (i + 1, j, k) IA 0%R).
  { destruct (ix_wrap g i Hp Hi) as [->|[-> ->]]; auto. }
  assert (E2 : curl true p A (i, iy g (j + 1), k) IB 0%R = curl true p A (i, j + 1, k) IB 0%R).
  { destruct (iy_wrap g j Hp Hj) as [->|[-> ->]]; auto. }
  assert (E3 : curl true p A (i, j, iz g (k + 1)) IC 0%R = curl true p A (i, j, k + 1) IC 0%R).
  { destruct (iz_wrap g k Hp Hk) as [->|[-> ->]]; auto. }
  rewrite E1, E2, E3. unfold curl, along_dir, unit_vec, shift. cbn -[Z.add].
  rewrite !Z.add_0_r. unfold Rdiv. ring.
Qed.

(** ** Field loop: the potential vanishes at the border *)
Lemma loop_A_zero g p bx q i j k v : one_process bx -> loop_contained g (mh p) bx (fl_radius q) ->
  (i = gw g \/ i = gw g + nx g \/ j = gw g \/ j = gw g + ny g) -> loop_A g p bx q (i, j, k) v = 0%R.
Proof.
  intros Hm Hc Hb. unfold loop_A. destruct (v =? IZ); [|reflexivity].
  set (r := loop_radius g p bx (i, j, k)). cbn [ltb RArith]. destruct (Rlt_dec r (fl_radius q)) as [H|H]; [exfalso|reflexivity].
  specialize (Hc i j Hb). unfold r, loop_radius, xpos, ypos, ofZ in H. rewrite !(Hm _) in H. cbn in H.
  set (x := (xmin bx + dx (mh p) / 2 + IZR (i + nx g * 0 - gw g) / 1 * dx (mh p))%R) in H.
  set (y := (ymin bx + dy (mh p) / 2 + IZR (j + ny g * 0 - gw g) / 1 * dy (mh p))%R) in H.
  assert (Ex : centre (xmin bx) (dx (mh p)) (gw g) i = x).
  { unfold centre, x. replace (i + nx g * 0 - gw g) with (i - gw g) by lia. field. }
  assert (Ey : centre (ymin bx) (dy (mh p)) (gw g) j = y).
  { unfold centre, y. replace (j + ny g * 0 - gw g) with (j - gw g) by lia. field. }
  rewrite Ex, Ey in Hc. unfold Rsqr in Hc.
  assert (H0 : (0 <= x * x + y * y)%R) by nra.
  pose proof (sqrt_pos (x * x + y * y)). pose proof (sqrt_sqrt _ H0). nra.
Qed.

(** ** Wave: the potential changes by a constant over a period *)
Section WaveSec.
Variable g : grid.
Variable p : mparams R.
Variable bx : box R.
Variable q : wave R.
Local Open Scope R_scope.
Variable L : R.
Hypothesis Hk : wv_k q * L = 2 * PI.
Hypothesis HX : IZR (nx g) * dx (mh p) * wv_cos2 q * wv_cos3 q = L.
Hypothesis HY : IZR (ny g) * dy (mh p) * wv_cos2 q * wv_sin3 q = L.
Hypothesis HZ : IZR (nz g) * dz (mh p) * wv_sin2 q = L.

Lemma cos_shift t : cos (wv_k q * (t + L)) = cos (wv_k q * t).
Proof. rewrite Rmult_plus_distr_l, Hk. rewrite cos_plus, cos_2PI, sin_2PI. ring. Qed.
Lemma xpos_shift i : xpos g p bx (i + nx g)%Z = xpos g p bx i + IZR (nx g) * dx (mh p).
Proof. unfold xpos, ofZ. cbn. replace (i + nx g + nx g * mpi bx IX - gw g)%Z with (i + nx g * mpi bx IX - gw g + nx g)%Z by lia.
  rewrite (plus_IZR _ (nx g)). field. Qed.
Lemma ypos_shift i : ypos g p bx (i + ny g)%Z = ypos g p bx i + IZR (ny g) * dy (mh p).
Proof. unfold ypos, ofZ. cbn. replace (i + ny g + ny g * mpi bx IY - gw g)%Z with (i + ny g * mpi bx IY - gw g + ny g)%Z by lia.
  rewrite (plus_IZR _ (ny g)). field. Qed.
Lemma zpos_shift i : zpos g p bx (i + nz g)%Z = zpos g p bx i + IZR (nz g) * dz (mh p).
Proof. unfold zpos, ofZ. cbn. replace (i + nz g + nz g * mpi bx IZ - gw g)%Z with (i + nz g * mpi bx IZ - gw g + nz g)%Z by lia.
  rewrite (plus_IZR _ (nz g)). field. Qed.

Lemma Ay_shift x y z x' y' z' : wave_tmpx q x' y' z' = wave_tmpx q x y z + L ->
  wave_Ay RLibm q x' y' z' = wave_Ay RLibm q x y z + wv_bz0 q * L.
Proof. intros H. unfold wave_Ay. rewrite H. cbn. rewrite cos_shift. ring. Qed.
Lemma Az_shift x y z x' y' z' D : wave_tmpx q x' y' z' = wave_tmpx q x y z + L -> wave_tmpy q x' y' = wave_tmpy q x y + D ->
  wave_Az RLibm q x' y' z' = wave_Az RLibm q x y z + (- wv_by0 q * L + wv_bx0 q * D).
Proof. intros H H'. unfold wave_Az. rewrite H, H'. cbn. rewrite cos_shift. ring. Qed.

(** A shift (ex, ey, ez) of the position that advances the phase by one period. *)
Lemma A_shift_gen i j k i' j' k' ex ey ez :
  xpos g p bx i' = xpos g p bx i + ex -> ypos g p bx j' = ypos g p bx j + ey -> zpos g p bx k' = zpos g p bx k + ez ->
  ex * wv_cos2 q * wv_cos3 q + ey * wv_cos2 q * wv_sin3 q + ez * wv_sin2 q = L ->
  forall v, wave_A RLibm g p bx q (i', j', k') v = wave_A RLibm g p bx q (i, j, k) v +
    (let D := - ex * wv_sin3 q + ey * wv_cos3 q in let Z := - wv_by0 q * L + wv_bx0 q * D in
     if (v =? IX)%Z then - (wv_bz0 q * L) * wv_sin3 q - Z * wv_sin2 q * wv_cos3 q
     else if (v =? IY)%Z then wv_bz0 q * L * wv_cos3 q - Z * wv_sin2 q * wv_sin3 q
     else Z * wv_cos2 q).
Proof.
  intros Ex Ey Ez EL v. unfold wave_A. rewrite Ex, Ey, Ez.
  generalize (xpos g p bx i) as x, (ypos g p bx j) as y, (zpos g p bx k) as z. clear Ex Ey Ez i j k i' j' k'. intros x y z. cbn -[wave_Ay wave_Az Z.eqb].
  assert (Hx : forall a b c, wave_tmpx q (a + ex) (b + ey) (c + ez) = wave_tmpx q a b c + L).
  { intros. unfold wave_tmpx. cbn. rewrite <- EL. ring. }
  assert (Hy : forall a b, wave_tmpy q (a + ex) (b + ey) = wave_tmpy q a b + (- ex * wv_sin3 q + ey * wv_cos3 q)).
  { intros. unfold wave_tmpy. cbn. ring. }
  replace (x + ex - dx (mh p) / 2) with (x - dx (mh p) / 2 + ex) by ring.
  replace (y + ey - dy (mh p) / 2) with (y - dy (mh p) / 2 + ey) by ring.
  replace (z + ez - dz (mh p) / 2) with (z - dz (mh p) / 2 + ez) by ring.
  rewrite !(Ay_shift _ _ _ _ _ _ (Hx _ _ _)), !(Az_shift _ _ _ _ _ _ _ (Hx _ _ _) (Hy _ _)).
  destruct (v =? IX)%Z; [ring|]. destruct (v =? IY)%Z; ring.
Qed.
End WaveSec.

Lemma curl_const p (A A' : cell -> Z -> R) c c' K v :
  (forall w, A c' w = A' c w + K w)%R ->
  (forall d w, In d (dirs true) -> A (along_dir d 1 c') w = A' (along_dir d 1 c) w + K w)%R ->
  curl true p A c' v 0%R = curl true p A' c v 0%R.
Proof.
  intros H H'. unfold curl. rewrite !H, !H' by (cbn; auto). cbn.
  destruct (v =? IA); [unfold Rdiv; ring|]. destruct (v =? IB); [unfold Rdiv; ring|].
  destruct (v =? IC); [unfold Rdiv; ring|reflexivity].
Qed.

(** The parameters computed by the code make the wave periodic in every box. *)
Lemma wave_params_period amplitude ty gam Lx Ly Lz q : (0 < Lx)%R -> (0 < Ly)%R -> (0 < Lz)%R ->
  wave_params RLibm amplitude ty gam Lx Ly Lz = Some q ->
  exists L, (wv_k q * L = 2 * PI /\ Lx * wv_cos2 q * wv_cos3 q = L /\ Ly * wv_cos2 q * wv_sin3 q = L
             /\ Lz * wv_sin2 q = L)%R.
Proof.
  intros H1 H2 H3 H. unfold wave_params in H. destruct (wave_rev ty) as [[rev v0]|]; [|discriminate].
  injection H as <-. cbn -[PI].
  set (a3 := atan (Lx / Ly)). set (s3 := sin a3). set (c3 := cos a3).
  set (a2 := atan (/ 2 * (Lx * c3 + Ly * s3) / Lz)). set (s2 := sin a2). set (c2 := cos a2).
  assert (B3 : (- PI / 2 < a3 < PI / 2)%R) by (pose proof (atan_bound (Lx / Ly)); unfold a3; lra).
  assert (B2 : (- PI / 2 < a2 < PI / 2)%R) by (pose proof (atan_bound (/ 2 * (Lx * c3 + Ly * s3) / Lz)); unfold a2; lra).
  assert (P3 : (0 < c3)%R) by (apply cos_gt_0; lra).
  assert (P2 : (0 < c2)%R) by (apply cos_gt_0; lra).
  assert (T3 : (s3 = c3 * (Lx / Ly))%R).
  { pose proof (tan_atan (Lx / Ly)) as E. unfold tan in E. fold a3 in E. fold s3 in E. fold c3 in E. rewrite <- E. field. lra. }
  assert (E23 : (Ly * s3 = Lx * c3)%R) by (rewrite T3; field; lra).
  assert (T2 : (s2 = c2 * (Lx * c3 / Lz))%R).
  { pose proof (tan_atan (/ 2 * (Lx * c3 + Ly * s3) / Lz)) as E. unfold tan in E. fold a2 in E. fold s2 in E. fold c2 in E.
    replace (Lx * c3 / Lz)%R with (/ 2 * (Lx * c3 + Ly * s3) / Lz)%R by (rewrite E23; field; lra).
    rewrite <- E. field. lra. }
  assert (X2 : (Ly * c2 * s3 = Lx * c2 * c3)%R) by (replace (Ly * c2 * s3)%R with (Ly * s3 * c2)%R by ring; rewrite E23; ring).
  assert (X3 : (Lz * s2 = Lx * c2 * c3)%R) by (rewrite T2; field; lra).
  assert (PL : (0 < Lx * c2 * c3)%R) by (apply Rmult_lt_0_compat; [apply Rmult_lt_0_compat|]; lra).
  exists (Lx * c2 * c3)%R. rewrite X2, X3.
  assert (M : Rmin (Lx * c2 * c3) (Lx * c2 * c3) = (Lx * c2 * c3)%R) by (apply Rmin_left; lra).
  repeat split; auto.
  destruct (Req_EM_T a3 0), (Req_EM_T a2 0); cbn -[PI]; rewrite ?M; field; lra.
Qed.

(** ** The problems *)
Lemma in_cells2' g i j : 0 <= gw g -> inside2 g i j -> In (i, j, 0) (cellsD false g).
Proof. intros Hg Hi. apply inner_in; auto. apply inner2; auto. Qed.
Lemma in_cells3' g i j k : 0 <= gw g -> inside3 g i j k -> In (i, j, k) (cellsD true g).
Proof. intros Hg Hi. apply inner_in; auto; [|discriminate]. apply inner3; auto. Qed.

Ltac look := unfold assigned; cbn [fold_left fst snd app map]; cbn -[Z.add xpos ypos zpos].

Lemma kh_straight m b3 g p bx rnd q c v : v = IA \/ v = IB \/ v = IC ->
  exists x, forall o, o = 0%R -> assigned (kh_state m b3 g p bx rnd q c) v o = x /\
    forall c', assigned (kh_state m b3 g p bx rnd q c') v o = x.
Proof.
  intros Hv.
  assert (K : forall c o, o = 0%R -> assigned (kh_state m b3 g p bx rnd q c) v o =
    if kh_rand q then (if b3 then 0 else if v =? IA then / 2 else 0)%R
    else if kh_sine_rob q then (if v =? IA then / 2 else 0)%R
    else if kh_sine q then (if v =? IA then / 2 else 0)%R else 0%R).
  { intros [[i j] k] o ->. unfold kh_state.
    destruct (kh_rand q).
    - unfold kh_assign_rand, kh_assign. destruct b3; destruct Hv as [->|[->| ->]]; reflexivity.
    - destruct (kh_sine_rob q).
      + unfold kh_assign. destruct b3; destruct Hv as [->|[->| ->]]; reflexivity.
      + destruct (kh_sine q); [|reflexivity].
        unfold kh_assign. destruct b3; destruct Hv as [->|[->| ->]]; reflexivity. }
  eexists. intros o Ho. split; [apply K; auto|]. intros c'. apply K; auto.
Qed.

Lemma rotor_field b3 g (p : mparams R) bx q c v o : v = IA \/ v = IB \/ v = IC ->
  assigned (rotor_state b3 g p bx q c) v o = if v =? IA then ro_b0 q else 0%R.
Proof.
  intros Hv. destruct c as [[i j] k]. unfold rotor_state.
  match goal with |- context [let '(_, _) := ?x in _] => destruct x as [[d u] w] end.
  destruct Hv as [->|[->| ->]]; reflexivity.
Qed.

Lemma init_div2 m g p bx q (s s' : store R) i j : mhd_grid2 g -> fresh s -> field_setting false g p bx q ->
  run_kernels (init_problem m false g p bx q) s s' -> inside2 g i j ->
  div2 (mh p) (mfill2 g s' aU) i j = 0%R.
Proof.
  intros (Gw & _ & G1 & G2) Hs Hq Hr Hi.
  assert (Hg : 0 <= gw g) by lia.
  destruct q as [q|q|kt|rnd q|q|q|q]; cbn [init_problem field_setting] in *.
  - apply straight2; auto; intros;
      (do 2 (match goal with |- context [s' (Loc aU ?a ?b 0 ?v)] => change (s' (Loc aU a b 0 v)) with (s' (at_cell aU (a, b, 0) v)) end));
      rewrite !(single_field false g _ s s' _ _ Hr) by (apply in_cells2'; auto);
      repeat match goal with |- context [blast_inside ?a ?b ?c ?d ?e ?f] => destruct (blast_inside a b c d e f) end; reflexivity.
  - destruct Hq as (Ho & EA & EB & _). apply straight2; auto; intros;
      (do 2 (match goal with |- context [s' (Loc aU ?a ?b 0 ?v)] => change (s' (Loc aU a b 0 v)) with (s' (at_cell aU (a, b, 0) v)) end));
      rewrite !(single_field false g _ s s' _ _ Hr) by (apply in_cells2'; auto);
      repeat match goal with |- context [implode_region ?a ?b ?c ?d ?e ?f] => destruct (implode_region a b c d e f) end;
      cbn; auto.
  - apply straight2; auto; intros;
      (do 2 (match goal with |- context [s' (Loc aU ?a ?b 0 ?v)] => change (s' (Loc aU a b 0 v)) with (s' (at_cell aU (a, b, 0) v)) end));
      rewrite !(ot_field m false g p bx kt s s' _ _ Hr) by (first [apply in_cells2'; auto | discriminate]); reflexivity.
  - apply straight2; auto; intros;
      (do 2 (match goal with |- context [s' (Loc aU ?a ?b 0 ?v)] => change (s' (Loc aU a b 0 v)) with (s' (at_cell aU (a, b, 0) v)) end));
      rewrite !(single_field false g _ s s' _ _ Hr) by (apply in_cells2'; auto); rewrite !Hs.
    + destruct (kh_straight m false g p bx rnd q (i0, j0, 0) IA) as [x Hx]; auto. destruct (Hx 0%R eq_refl) as [-> ->]. reflexivity.
    + destruct (kh_straight m false g p bx rnd q (i0, j0, 0) IB) as [x Hx]; auto. destruct (Hx 0%R eq_refl) as [-> ->]. reflexivity.
  - apply straight2; auto; intros;
      (do 2 (match goal with |- context [s' (Loc aU ?a ?b 0 ?v)] => change (s' (Loc aU a b 0 v)) with (s' (at_cell aU (a, b, 0) v)) end));
      rewrite !(single_field false g _ s s' _ _ Hr) by (apply in_cells2'; auto); rewrite !rotor_field by auto; reflexivity.
  - destruct Hq as (Hp & Hm & Hc). apply (curl2 g p (loop_A g p bx q)); auto.
    + intros i0 j0 v Hin Hv.
      change (s' (at_cell aU (i0, j0, 0) v) = curl false p (loop_A g p bx q) (i0, j0, 0) v (@zero R RArith)).
      apply (field_loop_field false g p bx q s s' (i0, j0, 0) v); auto; [lia|apply inner2; auto].
    + intros j0. unfold curl, along_dir, unit_vec, shift. cbn -[Z.add loop_A].
      rewrite !(loop_A_zero g p bx q) by (auto; lia). unfold Rdiv. ring.
    + intros i0. unfold curl, along_dir, unit_vec, shift. cbn -[Z.add loop_A].
      rewrite !(loop_A_zero g p bx q) by (auto; lia). unfold Rdiv. ring.
  - assert (E : forall l, s' l = 0%R).
    { unfold init_wave in Hr. apply rk_inv in Hr. destruct Hr as (s1 & H1 & Hr). apply rk_nil_inv in Hr. subst s1.
      apply (varwise_spec aU (fun _ => False)) in H1; [|apply NoDup_cellsD|intros; apply acc_skip].
      destruct H1 as [_ H1]. intros l. rewrite H1 by tauto. apply Hs. }
    unfold div2, mfill2, filled2d, along. cbv zeta. cbn [mA mB]. rewrite !E. cbn.
    repeat match goal with |- context [if ?b then _ else _] => destruct b end; cbn; unfold Rdiv; ring.
Qed.

Ltac cell3 := repeat match goal with |- context [?f (Loc aU ?a ?b ?c ?v)] =>
  change (f (Loc aU a b c v)) with (f (at_cell aU (a, b, c) v)) end.

Lemma init_div3 m g p bx q (s s' : store R) i j k : mhd_grid3 g -> fresh s -> field_setting true g p bx q ->
  (forall w, q = PWave w -> m = RLibm) ->
  run_kernels (init_problem m true g p bx q) s s' -> inside3 g i j k ->
  div3 (mh p) (mfill3 g s' aU) i j k = 0%R.
Proof.
  intros ((Gw & _ & G1 & G2) & G3) Hs Hq Hmm Hr Hi.
  assert (Hg : 0 <= gw g) by lia.
  destruct q as [q|q|kt|rnd q|q|q|q]; cbn [init_problem field_setting] in *.
  - apply straight3; auto; intros; cell3;
      rewrite !(single_field true g _ s s' _ _ Hr) by (apply in_cells3'; auto);
      repeat match goal with |- context [blast_inside ?a ?b ?c ?d ?e ?f] => destruct (blast_inside a b c d e f) end; reflexivity.
  - destruct Hq as (Ho & EA & EB & EC). specialize (EC eq_refl). apply straight3; auto; intros; cell3;
      rewrite !(single_field true g _ s s' _ _ Hr) by (apply in_cells3'; auto);
      repeat match goal with |- context [implode_region ?a ?b ?c ?d ?e ?f] => destruct (implode_region a b c d e f) end;
      cbn; auto.
  - apply straight3; auto; intros; cell3;
      rewrite !(ot_field m true g p bx kt s s' _ _ Hr) by (first [apply in_cells3'; auto | discriminate]); reflexivity.
  - apply straight3; auto; intros; cell3;
      rewrite !(single_field true g _ s s' _ _ Hr) by (apply in_cells3'; auto); rewrite !Hs.
    + destruct (kh_straight m true g p bx rnd q (i0, j0, k0) IA) as [x Hx]; auto. destruct (Hx 0%R eq_refl) as [-> ->]. reflexivity.
    + destruct (kh_straight m true g p bx rnd q (i0, j0, k0) IB) as [x Hx]; auto. destruct (Hx 0%R eq_refl) as [-> ->]. reflexivity.
    + destruct (kh_straight m true g p bx rnd q (i0, j0, k0) IC) as [x Hx]; auto. destruct (Hx 0%R eq_refl) as [-> ->]. reflexivity.
  - apply straight3; auto; intros; cell3;
      rewrite !(single_field true g _ s s' _ _ Hr) by (apply in_cells3'; auto); rewrite !rotor_field by auto; reflexivity.
  - destruct Hq as (Hp & Hm & Hc). apply (curl3 g p (loop_A g p bx q)); auto.
    + intros i0 j0 k0 v Hin Hv.
      change (s' (at_cell aU (i0, j0, k0) v) = curl true p (loop_A g p bx q) (i0, j0, k0) v (@zero R RArith)).
      apply (field_loop_field true g p bx q s s' (i0, j0, k0) v); auto; [lia|apply inner3; auto|discriminate].
    + intros j0 k0. unfold curl, along_dir, unit_vec, shift. cbn -[Z.add loop_A].
      rewrite !(loop_A_zero g p bx q) by (auto; lia). unfold Rdiv. ring.
    + intros i0 k0. unfold curl, along_dir, unit_vec, shift. cbn -[Z.add loop_A].
      rewrite !(loop_A_zero g p bx q) by (auto; lia). unfold Rdiv. ring.
  - rewrite (Hmm q eq_refl) in *. destruct (Hq eq_refl) as (Hp & amp & ty & gam & HL1 & HL2 & HL3 & HW).
    destruct (wave_params_period _ _ _ _ _ _ _ HL1 HL2 HL3 HW) as (L & Hk & HX & HY & HZ).
    apply (curl3 g p (wave_A RLibm g p bx q)); auto.
    + intros i0 j0 k0 v Hin Hv.
      change (s' (at_cell aU (i0, j0, k0) v) = curl true p (wave_A RLibm g p bx q) (i0, j0, k0) v (@zero R RArith)).
      apply (wave_field_field RLibm true g p bx q s s' (i0, j0, k0) v); auto; [lia|apply inner3; auto].
    + intros j0 k0. eapply curl_const.
      * intros w. apply (A_shift_gen g p bx q L Hk (gw g) j0 k0 _ _ _ (IZR (nx g) * dx (mh p))%R 0%R 0%R); [apply xpos_shift|ring|ring|rewrite <- HX; ring].
      * intros d w Hd. apply dirs_cases in Hd. unfold along_dir, unit_vec, shift.
        destruct Hd as [->|[->|[-> _]]]; cbn -[Z.add wave_A];
        apply (A_shift_gen g p bx q L Hk _ _ _ _ _ _ (IZR (nx g) * dx (mh p))%R 0%R 0%R);
        try ring; try (rewrite <- HX; ring); rewrite <- xpos_shift; f_equal; lia.
    + intros i0 k0. eapply curl_const.
      * intros w. apply (A_shift_gen g p bx q L Hk i0 (gw g) k0 _ _ _ 0%R (IZR (ny g) * dy (mh p))%R 0%R); [ring|apply ypos_shift|ring|rewrite <- HY; ring].
      * intros d w Hd. apply dirs_cases in Hd. unfold along_dir, unit_vec, shift.
        destruct Hd as [->|[->|[-> _]]]; cbn -[Z.add wave_A];
        apply (A_shift_gen g p bx q L Hk _ _ _ _ _ _ 0%R (IZR (ny g) * dy (mh p))%R 0%R);
        try ring; try (rewrite <- HY; ring); rewrite <- ypos_shift; f_equal; lia.
    + intros i0 j0. eapply curl_const.
      * intros w. apply (A_shift_gen g p bx q L Hk i0 j0 (gw g) _ _ _ 0%R 0%R (IZR (nz g) * dz (mh p))%R); [ring|ring|apply zpos_shift|rewrite <- HZ; ring].
      * intros d w Hd. apply dirs_cases in Hd. unfold along_dir, unit_vec, shift.
        destruct Hd as [->|[->|[-> _]]]; cbn -[Z.add wave_A];
        apply (A_shift_gen g p bx q L Hk _ _ _ _ _ _ 0%R 0%R (IZR (nz g) * dz (mh p))%R);
        try ring; try (rewrite <- HZ; ring); rewrite <- zpos_shift; f_equal; lia.
Qed.
