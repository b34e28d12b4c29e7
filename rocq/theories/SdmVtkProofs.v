(** Proofs about the result files of the spectral difference solver. *)
From Coq Require Import ZArith List Bool Reals String Lia Lra Psatz.
From Verif Require Import Arith Par ParProofs GridModel HydroState HydroKernels CellKernels MhdState MhdInit MoodKernels HydroInitSpec SdmGeom SdmKernels SdmInitSpec VtkSpec VtkProofs SdmVtk SdmVtkSpec.
Import ListNotations.
Open Scope Z_scope.

(** ** Lists. *)
Lemma loop3_length a b c : 0 <= a -> 0 <= b -> 0 <= c -> Z.of_nat (List.length (loop3 a b c)) = a * b * c.
Proof.
  intros Ha Hb Hc. unfold loop3.
  rewrite (flat_map_length_const _ _ (Z.to_nat (a * b))).
  - rewrite zrange_length. nia.
  - intros k _. rewrite (flat_map_length_const _ _ (Z.to_nat a)).
    + rewrite zrange_length. nia.
    + intros j _. rewrite map_length, zrange_length. lia.
Qed.
Lemma at_loop3 a b c i j k : 0 <= i < a -> 0 <= j < b -> 0 <= k < c -> at_ (loop3 a b c) (i + a * (j + b * k)) = Some (i, j, k).
Proof.
  intros Hi Hj Hk. unfold loop3.
  assert (H1 : 0 <= i + a * j < a * b) by nia.
  replace (i + a * (j + b * k)) with (k * (a * b) + (i + a * j)) by ring.
  rewrite (at_flat _ _ (a * b) k (i + a * j) k).
  - replace (i + a * j) with (j * a + i) by ring.
    rewrite (at_flat _ _ a j i j); try lia.
    + rewrite at_map, at_zrange by lia. reflexivity.
    + intros y _. rewrite map_length, zrange_length. lia.
    + rewrite at_zrange by lia. reflexivity.
  - intros y _. rewrite (flat_map_length_const _ _ (Z.to_nat a)).
    + rewrite zrange_length. nia.
    + intros j' _. rewrite map_length, zrange_length. lia.
  - lia.
  - exact H1.
  - rewrite at_zrange by lia. reflexivity.
Qed.
Lemma slice_flat {A B} (f : A -> list B) n l q x : (forall y, In y l -> List.length (f y) = n) -> 0 <= q -> at_ l q = Some x ->
  firstn n (skipn (Z.to_nat q * n) (flat_map f l)) = f x.
Proof.
  intros H Hq Hx. unfold at_ in Hx. rewrite (proj2 (Z.ltb_ge _ _)) in Hx by lia. clear Hq. revert Hx.
  generalize (Z.to_nat q). clear q. intros q. revert q. induction l as [|y l IH]; intros q Hx; [destruct q; discriminate|].
  cbn [flat_map]. pose proof (H y (or_introl eq_refl)) as Hy. destruct q as [|q].
  - injection Hx as ->. cbn. rewrite firstn_app, Hy, Nat.sub_diag. cbn. rewrite app_nil_r. rewrite <- Hy. apply firstn_all.
  - cbn [Nat.mul]. rewrite skipn_app, Hy. replace (n + q * n - n)%nat with (q * n)%nat by lia.
    rewrite skipn_all2 by lia. cbn. apply IH; [|exact Hx]. intros z Hz. apply H. right. exact Hz.
Qed.
Lemma at_bounds {A} (l : list A) n x : at_ l n = Some x -> 0 <= n < Z.of_nat (List.length l).
Proof.
  unfold at_. destruct (n <? 0) eqn:E; [discriminate|]. apply Z.ltb_ge in E. intros H. split; [exact E|].
  assert (Z.to_nat n < List.length l)%nat by (apply nth_error_Some; congruence). lia.
Qed.
Lemma flat_pairs {A B C} (f : A -> B -> list C) la lb :
  flat_map (fun a => flat_map (f a) lb) la = flat_map (fun p => f (fst p) (snd p)) (flat_map (fun a => map (pair a) lb) la).
Proof. rewrite flat_map_flat_map. apply flat_map_ext. intros a. rewrite flat_map_map. reflexivity. Qed.

(** ** One direction. *)
Section One.
Local Open Scope R_scope.
Variable P : points R.
Hypothesis HP : ordered_points P.
Definition w (id : Z) : R := if (id =? 0)%Z then 0 else if (id =? npts P)%Z then 1 else / 2 * (solp P (id - 1) + solp P id).
Lemma node1_w o d id : node1 P o d id = o + w id * d.
Proof.
  unfold node1, w. destruct (id =? 0)%Z; [cbn; ring|]. destruct (id =? npts P)%Z; [cbn; ring|]. cbn. field.
Qed.
Lemma w_below a : (0 <= a < npts P)%Z -> w a < solp P a.
Proof.
  intros Ha. destruct HP as [H1 [H2 H3]]. unfold w. destruct (a =? 0)%Z eqn:E; [apply (H2 a Ha)|].
  destruct (a =? npts P)%Z eqn:E'; [lia|]. assert (solp P (a - 1) < solp P a) by (apply H3; lia). lra.
Qed.
Lemma w_above a : (0 <= a < npts P)%Z -> solp P a < w (a + 1).
Proof.
  intros Ha. destruct HP as [H1 [H2 H3]]. unfold w. destruct (a + 1 =? 0)%Z eqn:E; [lia|].
  destruct (a + 1 =? npts P)%Z eqn:E'; [apply (H2 a Ha)|]. replace (a + 1 - 1)%Z with a by lia.
  assert (solp P a < solp P (a + 1)) by (apply H3; lia). lra.
Qed.
Lemma w_step a : (0 <= a < npts P)%Z -> w a < w (a + 1).
Proof. intros Ha. pose proof (w_below a Ha). pose proof (w_above a Ha). lra. Qed.
Lemma w_mono a n : (0 <= a)%Z -> (0 <= n)%Z -> (a + n <= npts P)%Z -> w a <= w (a + n).
Proof.
  intros Ha Hn. revert n Hn. apply (natlike_ind (fun n => (a + n <= npts P)%Z -> w a <= w (a + n))).
  - intros _. rewrite Z.add_0_r. lra.
  - intros n Hn IH H. assert (w (a + n) < w (a + n + 1)) by (apply w_step; lia).
    replace (a + Z.succ n)%Z with (a + n + 1)%Z by lia. specialize (IH ltac:(lia)). lra.
Qed.
Lemma w_le a b : (0 <= a <= b)%Z -> (b <= npts P)%Z -> w a <= w b.
Proof. intros Ha Hb. replace b with (a + (b - a))%Z by lia. apply w_mono; lia. Qed.
Lemma w_0 : w 0 = 0. Proof. reflexivity. Qed.
Lemma w_N : w (npts P) = 1.
Proof. destruct HP as [H1 _]. unfold w. destruct (npts P =? 0)%Z eqn:E; [lia|]. rewrite Z.eqb_refl. reflexivity. Qed.
Lemma w_find t n : (0 <= n)%Z -> (n <= npts P)%Z -> 0 <= t < w n -> exists a, (0 <= a < n)%Z /\ w a <= t < w (a + 1).
Proof.
  intros Hn. revert n Hn. apply (natlike_ind (fun n => (n <= npts P)%Z -> 0 <= t < w n -> exists a, (0 <= a < n)%Z /\ w a <= t < w (a + 1))).
  - intros _ H. rewrite w_0 in H. lra.
  - intros n Hn IH H Ht. destruct (Rlt_le_dec t (w n)) as [L|L].
    + destruct (IH ltac:(lia) ltac:(lra)) as [a [Ha Hw]]. exists a. split; [lia|exact Hw].
    + exists n. split; [lia|]. replace (n + 1)%Z with (Z.succ n) by lia. lra.
Qed.
Definition cut (i a : Z) : R := IZR i + w a.
Lemma cut_find t lo n : IZR lo <= t < IZR (lo + n) ->
  exists i a, (0 <= i < n)%Z /\ (0 <= a < npts P)%Z /\ cut (i + lo) a <= t < cut (i + lo) (a + 1).
Proof.
  intros Ht. destruct (archimed t) as [A1 A2]. set (u := up t) in *.
  assert (B : IZR (u - 1) <= t < IZR (u - 1) + 1) by (rewrite minus_IZR; lra).
  assert (C1 : (lo < u)%Z) by (apply lt_IZR; lra).
  assert (C2 : (u - 1 < lo + n)%Z) by (apply lt_IZR; lra).
  destruct (w_find (t - IZR (u - 1)) (npts P)) as [a [Ha Hw]]; try (destruct HP; lia).
  - rewrite w_N. lra.
  - exists (u - 1 - lo)%Z, a. split; [lia|]. split; [exact Ha|]. unfold cut. replace (u - 1 - lo + lo)%Z with (u - 1)%Z by lia. lra.
Qed.
Lemma cut_unique t i a i' a' : (0 <= a < npts P)%Z -> (0 <= a' < npts P)%Z ->
  cut i a <= t < cut i (a + 1) -> cut i' a' <= t < cut i' (a' + 1) -> i = i' /\ a = a'.
Proof.
  unfold cut. intros Ha Ha' H H'.
  pose proof (w_le 0 a ltac:(lia) ltac:(lia)) as B1. pose proof (w_le 0 a' ltac:(lia) ltac:(lia)) as B2. rewrite w_0 in B1, B2.
  pose proof (w_le (a + 1) (npts P) ltac:(lia) ltac:(lia)) as B3. pose proof (w_le (a' + 1) (npts P) ltac:(lia) ltac:(lia)) as B4. rewrite w_N in B3, B4.
  assert (i = i').
  { assert (E1 : (i < i' + 1)%Z) by (apply lt_IZR; rewrite plus_IZR; lra). assert (E2 : (i' < i + 1)%Z) by (apply lt_IZR; rewrite plus_IZR; lra). lia. }
  subst i'. split; [reflexivity|].
  destruct (Z.lt_trichotomy a a') as [L|[L|L]]; [|exact L|].
  - pose proof (w_le (a + 1) a' ltac:(lia) ltac:(lia)). lra.
  - pose proof (w_le (a' + 1) a ltac:(lia) ltac:(lia)). lra.
Qed.
Lemma scale_in o d x i a : 0 < d -> (o + cut i a * d <= x < o + cut i (a + 1) * d <-> cut i a <= (x - o) / d < cut i (a + 1)).
Proof.
  intros Hd. assert (E : x - o = (x - o) / d * d) by (field; lra). set (t := (x - o) / d) in *. clearbody t.
  split; intros [U V]; split.
  - apply Rmult_le_reg_r with d; lra.
  - apply Rmult_lt_reg_r with d; lra.
  - assert (cut i a * d <= t * d) by (apply Rmult_le_compat_r; lra). lra.
  - assert (t * d < cut i (a + 1) * d) by (apply Rmult_lt_compat_r; lra). lra.
Qed.
End One.

Section File.
Variable b3 : bool.
Variable P : points R.
Variable g : grid.
Variable h : hparams R.
Variable bx : MhdInit.box R.
Variable s : store R.
Hypothesis HP : ordered_points P.
Hypothesis HS : sized b3 g h.
Notation N := (npts P).
Notation f := (save_sdm b3 P g h bx s).
Let HN : 1 <= N. Proof. destruct HP as [H _]. exact H. Qed.
Let Hnx : 0 < nx g. Proof. destruct HS as [H _]. exact H. Qed.
Let Hny : 0 < ny g. Proof. destruct HS as [_ [H _]]. exact H. Qed.
Let Hnz : 0 < alongz b3 (nz g). Proof. destruct HS as [_ [_ [H _]]]. unfold alongz. destruct b3; [apply H; reflexivity|lia]. Qed.

Definition pairs : list ((Z * Z * Z) * (Z * Z * Z)) := flat_map (fun c => map (pair c) (vsub b3 N)) (vcells b3 g).
Lemma vsub_length n : 0 <= n -> Z.of_nat (List.length (vsub b3 n)) = (if b3 then n * n * n else n * n).
Proof. intros Hn. unfold vsub, alongz. rewrite loop3_length by (destruct b3; lia). destruct b3; lia. Qed.
Lemma vcells_length : Z.of_nat (List.length (vcells b3 g)) = nx g * ny g * alongz b3 (nz g).
Proof. unfold vcells. apply loop3_length; lia. Qed.
Lemma at_vcells i j k : 0 <= i < nx g -> 0 <= j < ny g -> (if b3 then 0 <= k < nz g else k = 0) ->
  at_ (vcells b3 g) (i + nx g * (j + ny g * k)) = Some (i, j, k).
Proof. intros Hi Hj Hk. apply at_loop3; auto. unfold alongz. destruct b3; lia. Qed.
Lemma at_vsub n i j k : 0 <= i < n -> 0 <= j < n -> (if b3 then 0 <= k < n else k = 0) ->
  at_ (vsub b3 n) (i + n * (j + n * k)) = Some (i, j, k).
Proof. intros Hi Hj Hk. apply at_loop3; auto. unfold alongz. destruct b3; lia. Qed.
Lemma vsub_place n i j k : 0 <= i < n -> 0 <= j < n -> (if b3 then 0 <= k < n else k = 0) ->
  0 <= i + n * (j + n * k) < (if b3 then n * n * n else n * n).
Proof. intros. rewrite <- vsub_length by lia. eapply at_bounds. apply at_vsub; auto. Qed.
Lemma cell_place i j k : 0 <= i < nx g -> 0 <= j < ny g -> (if b3 then 0 <= k < nz g else k = 0) -> 0 <= i + nx g * (j + ny g * k).
Proof. intros. eapply at_bounds. apply at_vcells; auto. Qed.

(** An array with [n] entries for every cell. *)
Lemma at_percell {X} (u : Z * Z * Z -> list X) n i j k r : (forall c, Z.of_nat (List.length (u c)) = n) ->
  0 <= i < nx g -> 0 <= j < ny g -> (if b3 then 0 <= k < nz g else k = 0) -> 0 <= r < n ->
  at_ (flat_map u (vcells b3 g)) ((i + nx g * (j + ny g * k)) * n + r) = at_ (u (i, j, k)) r.
Proof.
  intros H Hi Hj Hk Hr. apply at_flat; auto.
  - apply cell_place; auto.
  - apply at_vcells; auto.
Qed.
Lemma at_pairs c q : in_range b3 P g c q -> at_ pairs (place b3 P g c q) = Some (c, q).
Proof.
  destruct c as [[i j] k], q as [[ix iy] iz]. intros [Hi [Hj [Hk [Hx [Hy Hz]]]]]. unfold place, pairs.
  rewrite (at_percell (fun c => map (pair c) (vsub b3 N)) (if b3 then N * N * N else N * N) i j k).
  - rewrite at_map, at_vsub by auto. reflexivity.
  - intros c. rewrite map_length. apply vsub_length. lia.
  - auto. - auto. - auto.
  - apply vsub_place; auto.
Qed.
Lemma at_node i j k ix iy iz : 0 <= i < nx g -> 0 <= j < ny g -> (if b3 then 0 <= k < nz g else k = 0) ->
  0 <= ix <= N -> 0 <= iy <= N -> (if b3 then 0 <= iz <= N else iz = 0) ->
  at_ (vnodes b3 P g h bx) ((i + nx g * (j + ny g * k)) * nbNodesPerCell b3 P + (ix + (N + 1) * (iy + (N + 1) * iz)))
  = Some (vnode b3 P g h bx (i, j, k) (ix, iy, iz)).
Proof.
  intros Hi Hj Hk Hx Hy Hz. unfold vnodes, nbNodesPerCell.
  assert (Hz' : if b3 then 0 <= iz < N + 1 else iz = 0) by (destruct b3; lia).
  rewrite (at_percell (fun c => map (vnode b3 P g h bx c) (vsub b3 (N + 1))) (if b3 then (N + 1) * (N + 1) * (N + 1) else (N + 1) * (N + 1)) i j k).
  - rewrite at_map, at_vsub by (auto; lia). reflexivity.
  - intros c. rewrite map_length. apply vsub_length. lia.
  - auto. - auto. - auto.
  - apply vsub_place; auto; lia.
Qed.

(** The box of a sub-cell. *)
Definition sub_box (c q : Z * Z * Z) : vbox :=
  let '(i, j, k) := c in let '(ix, iy, iz) := q in
  (VBox (xmin bx + cut P (i + nx g * mpi bx IX) ix * dx h) (xmin bx + cut P (i + nx g * mpi bx IX) (ix + 1) * dx h)
        (ymin bx + cut P (j + ny g * mpi bx IY) iy * dy h) (ymin bx + cut P (j + ny g * mpi bx IY) (iy + 1) * dy h)
        (zmin bx + cut P (k + nz g * mpi bx IZ) iz * dz h) (zmin bx + cut P (k + nz g * mpi bx IZ) (iz + 1) * dz h))%R.
Lemma vnode_cut i j k ix iy iz : vnode b3 P g h bx (i, j, k) (ix, iy, iz) =
  ((xmin bx + cut P (i + nx g * mpi bx IX) ix * dx h)%R, (ymin bx + cut P (j + ny g * mpi bx IY) iy * dy h)%R,
   if b3 then (zmin bx + cut P (k + nz g * mpi bx IZ) iz * dz h)%R else 0%R).
Proof. unfold vnode. rewrite !node1_w. unfold cut. f_equal; [f_equal|destruct b3; [|reflexivity]]; unfold ofZ; cbn [lit RArith Arith.add Arith.mul]; field. Qed.
Lemma corners_nodes c q : in_range b3 P g c q ->
  map (at_ (vnodes b3 P g h bx)) (vcorners b3 P g c q) = map Some (if b3 then hexa_corners (sub_box c q) else quad_corners (sub_box c q)).
Proof.
  destruct c as [[i j] k], q as [[ix iy] iz]. intros [Hi [Hj [Hk [Hx [Hy Hz]]]]].
  assert (K : forall ix' iy' iz' n, 0 <= ix' <= N -> 0 <= iy' <= N -> (if b3 then 0 <= iz' <= N else iz' = 0) ->
    n = (i + nx g * (j + ny g * k)) * nbNodesPerCell b3 P + (ix' + (N + 1) * (iy' + (N + 1) * iz')) ->
    at_ (vnodes b3 P g h bx) n = Some ((xmin bx + cut P (i + nx g * mpi bx IX) ix' * dx h)%R, (ymin bx + cut P (j + ny g * mpi bx IY) iy' * dy h)%R,
   if b3 then (zmin bx + cut P (k + nz g * mpi bx IZ) iz' * dz h)%R else 0%R)).
  { intros ix' iy' iz' n H1 H2 H3 ->. rewrite at_node by auto. rewrite vnode_cut. reflexivity. }
  unfold vcorners, hexa_corners, quad_corners. destruct b3 eqn:E; cbn [map sub_box x0 x1 y0 y1 z0 z1].
  - rewrite (K ix iy iz) by (try lia; ring). rewrite (K (ix + 1) iy iz) by (try lia; ring).
    rewrite (K (ix + 1) (iy + 1) iz) by (try lia; ring). rewrite (K ix (iy + 1) iz) by (try lia; ring).
    rewrite (K ix iy (iz + 1)) by (try lia; ring). rewrite (K (ix + 1) iy (iz + 1)) by (try lia; ring).
    rewrite (K (ix + 1) (iy + 1) (iz + 1)) by (try lia; ring). rewrite (K ix (iy + 1) (iz + 1)) by (try lia; ring). reflexivity.
  - subst k iz. rewrite (K ix iy 0) by (try lia; ring). rewrite (K (ix + 1) iy 0) by (try lia; ring).
    rewrite (K (ix + 1) (iy + 1) 0) by (try lia; ring). rewrite (K ix (iy + 1) 0) by (try lia; ring). reflexivity.
Qed.

Lemma nbCells_eq : nbCells b3 P g = nx g * ny g * alongz b3 (nz g) * (if b3 then N * N * N else N * N).
Proof. unfold nbCells, nbSubCells, alongz. destruct b3; ring. Qed.
Lemma pairs_length : Z.of_nat (List.length pairs) = nbCells b3 P g.
Proof.
  unfold pairs. rewrite (flat_map_length_const _ _ (Z.to_nat (if b3 then N * N * N else N * N))).
  - rewrite Nat2Z.inj_mul, vcells_length, nbCells_eq. f_equal. rewrite Z2Nat.id; [reflexivity|]. destruct b3; nia.
  - intros c _. rewrite map_length. rewrite <- (Nat2Z.id (List.length _)). rewrite vsub_length by lia. reflexivity.
Qed.
Lemma nbCells_nonneg : 0 <= nbCells b3 P g.
Proof. rewrite <- pairs_length. lia. Qed.
Lemma place_bounds c q : in_range b3 P g c q -> 0 <= place b3 P g c q < nbCells b3 P g.
Proof. intros H. rewrite <- pairs_length. eapply at_bounds. apply at_pairs. exact H. Qed.
Lemma place_onto m : 0 <= m < nbCells b3 P g -> exists c q, in_range b3 P g c q /\ m = place b3 P g c q.
Proof.
  rewrite nbCells_eq. set (S := if b3 then N * N * N else N * N). intros Hm.
  assert (HS0 : 0 < S) by (unfold S; destruct b3; nia).
  set (M := m / S). set (r := m mod S).
  assert (Em : m = S * M + r) by (apply Z.div_mod; lia).
  assert (Hr : 0 <= r < S) by (apply Z.mod_pos_bound; lia).
  assert (HM : 0 <= M < nx g * ny g * alongz b3 (nz g)).
  { split; [apply Z.div_pos; lia|]. apply Z.div_lt_upper_bound; [lia|]. lia. }
  clearbody M r.
  assert (D : forall a b c z, 0 < a -> 0 < b -> 0 < c -> 0 <= z < a * b * c -> exists i j k, 0 <= i < a /\ 0 <= j < b /\ 0 <= k < c /\ z = i + a * (j + b * k)).
  { intros a b c z Ha Hb Hc Hz. exists (z mod a), ((z / a) mod b), (z / a / b).
    split; [apply Z.mod_pos_bound; lia|]. split; [apply Z.mod_pos_bound; lia|]. split.
    - split; [apply Z.div_pos; [apply Z.div_pos|]; lia|]. apply Z.div_lt_upper_bound; [lia|]. apply Z.div_lt_upper_bound; [lia|]. lia.
    - rewrite (Z.div_mod z a) at 1 by lia. rewrite (Z.div_mod (z / a) b) at 1 by lia. ring. }
  destruct (D _ _ _ M Hnx Hny Hnz HM) as [i [j [k [Hi [Hj [Hk EM]]]]]].
  destruct (D N N (alongz b3 N) r) as [ix [iy [iz [Hx [Hy [Hz Er]]]]]]; try lia.
  { unfold alongz. destruct b3; lia. } { unfold alongz, S in *. destruct b3; lia. }
  exists (i, j, k), (ix, iy, iz). split.
  - unfold in_range, alongz in *. repeat split; try lia; destruct b3; lia.
  - unfold place. fold S. rewrite <- EM, <- Er. lia.
Qed.

Lemma at_offsets m : 0 <= m < nbCells b3 P g -> at_ (voffsets b3 P g) m = Some (perCell b3 * (m + 1)).
Proof. intros H. unfold voffsets. rewrite at_map, at_zrange by lia. cbn [option_map]. do 2 f_equal. ring. Qed.
Lemma offsets_length : Z.of_nat (List.length (voffsets b3 P g)) = nbCells b3 P g.
Proof. unfold voffsets. rewrite map_length, zrange_length. pose proof nbCells_nonneg. lia. Qed.
Lemma types_length : Z.of_nat (List.length (vtypes b3 P g)) = nbCells b3 P g.
Proof. unfold vtypes. rewrite map_length, zrange_length. pose proof nbCells_nonneg. lia. Qed.
Lemma at_types m : 0 <= m < nbCells b3 P g -> at_ (vtypes b3 P g) m = Some (if b3 then 12 else 9).
Proof. intros H. unfold vtypes. rewrite at_map, at_zrange by lia. reflexivity. Qed.
Lemma corners_length c q : List.length (vcorners b3 P g c q) = Z.to_nat (perCell b3).
Proof. destruct c as [[i j] k], q as [[ix iy] iz]. unfold vcorners, perCell. destruct b3; reflexivity. Qed.
Lemma connectivity_pairs : vconnectivity b3 P g = flat_map (fun p => vcorners b3 P g (fst p) (snd p)) pairs.
Proof. apply flat_pairs. Qed.
Lemma read_cell_at c q : in_range b3 P g c q ->
  read_cell f (place b3 P g c q) = Some (map Some (if b3 then hexa_corners (sub_box c q) else quad_corners (sub_box c q))).
Proof.
  intros H. pose proof (place_bounds c q H) as B. pose proof (at_pairs c q H) as E. set (m := place b3 P g c q) in *. clearbody m.
  unfold read_cell. cbn [vt_offsets vt_nodes vt_connectivity save_sdm].
  assert (E1 : (if m =? 0 then Some 0 else at_ (voffsets b3 P g) (m - 1)) = Some (perCell b3 * m)).
  { destruct (m =? 0) eqn:Em; [f_equal; lia|]. rewrite at_offsets by lia. do 2 f_equal. lia. }
  rewrite E1, at_offsets by exact B. f_equal.
  replace (perCell b3 * (m + 1) - perCell b3 * m) with (perCell b3) by ring.
  replace (Z.to_nat (perCell b3 * m)) with (Z.to_nat m * Z.to_nat (perCell b3))%nat by (unfold perCell; destruct b3; lia).
  rewrite connectivity_pairs, (slice_flat (fun p => vcorners b3 P g (fst p) (snd p)) _ _ _ (c, q)).
  - apply corners_nodes. exact H.
  - intros y _. apply corners_length.
  - lia.
  - exact E.
Qed.
Lemma cell_is_at c q : in_range b3 P g c q -> cell_is b3 f (place b3 P g c q) (sub_box c q).
Proof. intros H. split; [apply read_cell_at; exact H|]. apply at_types. apply place_bounds. exact H. Qed.

(** ** The solution point lies inside, the value is there. *)
Lemma point_inside c q : in_range b3 P g c q ->
  inner b3 (sub_box c q) (dof_position P g h bx (let '(i, j, k) := c in (gw g + i, gw g + j, gw g + k)) q).
Proof.
  destruct c as [[i j] k], q as [[ix iy] iz]. intros [Hi [Hj [Hk [Hx [Hy Hz]]]]].
  destruct HS as [_ [_ [_ [Dx [Dy Dz]]]]].
  assert (L : forall o d i' n m a, (0 < d)%R -> 0 <= a < N ->
    (o + cut P (i' + n * m) a * d < o + (IZR (gw g + i' + n * m - gw g) + solp P a) * d < o + cut P (i' + n * m) (a + 1) * d)%R).
  { intros o d i' n m a Hd Ha. replace (gw g + i' + n * m - gw g) with (i' + n * m) by ring.
    pose proof (w_below P HP a Ha). pose proof (w_above P HP a Ha). unfold cut.
    split; apply Rplus_lt_compat_l; apply Rmult_lt_compat_r; try exact Hd; lra. }
  unfold inner, dof_position, sub_box. cbn [px py pz x0 x1 y0 y1 z0 z1].
  split; [apply L; auto|]. split; [apply L; auto|]. intros E. destruct b3; [|discriminate E]. apply L; auto.
Qed.
Lemma data_at c q v : in_range b3 P g c q ->
  at_ (vdata b3 P g s v) (place b3 P g c q)
  = Some (s (sloc b3 P aU (let '(i, j, k) := c in (gw g + i, gw g + j, if b3 then gw g + k else 0)) q v)).
Proof.
  destruct c as [[i j] k], q as [[ix iy] iz]. intros [Hi [Hj [Hk [Hx [Hy Hz]]]]]. unfold vdata, place.
  rewrite (at_percell _ (if b3 then N * N * N else N * N) i j k).
  - rewrite at_map, at_vsub by auto. reflexivity.
  - intros c. rewrite map_length. apply vsub_length. lia.
  - auto. - auto. - auto.
  - apply vsub_place; auto.
Qed.
Lemma data_length v : Z.of_nat (List.length (vdata b3 P g s v)) = nbCells b3 P g.
Proof.
  rewrite <- pairs_length. f_equal. unfold vdata, pairs.
  rewrite !(flat_map_length_const _ _ (List.length (vsub b3 N))); [reflexivity| |]; intros c _; apply map_length.
Qed.
Lemma nodes_length : Z.of_nat (List.length (vnodes b3 P g h bx)) = nbNodes b3 P g.
Proof.
  unfold vnodes. rewrite (flat_map_length_const _ _ (List.length (vsub b3 (N + 1)))); [|intros c _; apply map_length].
  rewrite Nat2Z.inj_mul, vcells_length, vsub_length by lia. unfold nbNodes, alongz. destruct b3; ring.
Qed.
Lemma connectivity_length : Z.of_nat (List.length (vconnectivity b3 P g)) = nbCells b3 P g * perCell b3.
Proof.
  rewrite connectivity_pairs, (flat_map_length_const _ _ (Z.to_nat (perCell b3))) by (intros y _; apply corners_length).
  rewrite Nat2Z.inj_mul, pairs_length. f_equal. unfold perCell. destruct b3; reflexivity.
Qed.

(** ** Tiling. *)
Lemma cell_is_inv m b : cell_is b3 f m b -> exists c q, in_range b3 P g c q /\ m = place b3 P g c q /\
  (forall X, within b3 b X <-> within b3 (sub_box c q) X).
Proof.
  intros [H Ht]. pose proof (at_bounds _ _ _ Ht) as B. cbn [vt_types save_sdm] in B. rewrite types_length in B.
  destruct (place_onto m B) as [c [q [Hr Em]]]. exists c, q. split; [exact Hr|]. split; [exact Em|].
  subst m. rewrite read_cell_at in H by exact Hr. injection H as H. generalize dependent (sub_box c q). intros b' H.
  assert (E : x0 b = x0 b' /\ x1 b = x1 b' /\ y0 b = y0 b' /\ y1 b = y1 b' /\ (b3 = true -> z0 b = z0 b' /\ z1 b = z1 b')).
  { destruct b, b'. unfold hexa_corners, quad_corners in H. destruct b3; cbn in *; injection H as; subst; repeat split; try reflexivity; discriminate. }
  destruct E as [E1 [E2 [E3 [E4 E5]]]]. intros X. unfold within. rewrite E1, E2, E3, E4.
  split; intros [U [V W]]; (split; [exact U|split; [exact V|]]); intros Eb; destruct (E5 Eb) as [F1 F2]; specialize (W Eb); rewrite F1, F2 in *; exact W.
Qed.
Lemma in_process_find X : within b3 (process_box g h bx) X -> exists c q, in_range b3 P g c q /\ within b3 (sub_box c q) X.
Proof.
  destruct HS as [_ [_ [_ [Dx [Dy Dz]]]]].
  assert (L : forall o d n lo x, (0 < d)%R -> (o + IZR lo * d <= x < o + IZR (lo + n) * d)%R ->
    exists i a, 0 <= i < n /\ 0 <= a < N /\ (o + cut P (i + lo) a * d <= x < o + cut P (i + lo) (a + 1) * d)%R).
  { intros o d n lo x Hd Hx. destruct (cut_find P HP ((x - o) / d) lo n) as [i [a [Hi [Ha Hc]]]].
    - assert (E : (x - o = (x - o) / d * d)%R) by (field; lra). set (t := ((x - o) / d)%R) in *. clearbody t. split.
      + apply Rmult_le_reg_r with d; lra.
      + apply Rmult_lt_reg_r with d; lra.
    - exists i, a. split; [exact Hi|]. split; [exact Ha|]. apply scale_in; assumption. }
  intros [Hx [Hy Hz]]. cbn [process_box x0 x1 y0 y1 z0 z1] in *.
  destruct (L _ _ _ _ _ Dx Hx) as [i [ix [Hi [Hix Cx]]]]. destruct (L _ _ _ _ _ Dy Hy) as [j [iy [Hj [Hiy Cy]]]].
  destruct b3 eqn:Eb.
  - destruct (L _ _ _ _ _ (Dz eq_refl) (Hz eq_refl)) as [k [iz [Hk [Hiz Cz]]]].
    exists (i, j, k), (ix, iy, iz). split; [cbn; tauto|]. unfold within. cbn. auto.
  - exists (i, j, 0), (ix, iy, 0). split; [cbn; auto 10|]. unfold within. cbn. split; [exact Cx|]. split; [exact Cy|]. discriminate.
Qed.
Lemma sub_box_unique X c q c' q' : in_range b3 P g c q -> in_range b3 P g c' q' ->
  within b3 (sub_box c q) X -> within b3 (sub_box c' q') X -> c = c' /\ q = q'.
Proof.
  destruct c as [[i j] k], q as [[ix iy] iz], c' as [[i' j'] k'], q' as [[ix' iy'] iz'].
  intros [Hi [Hj [Hk [Hx [Hy Hz]]]]] [Hi' [Hj' [Hk' [Hx' [Hy' Hz']]]]] [Cx [Cy Cz]] [Cx' [Cy' Cz']].
  destruct HS as [_ [_ [_ [Dx [Dy Dz]]]]]. cbn [sub_box x0 x1 y0 y1 z0 z1] in *.
  assert (L : forall o d n x i a i' a', (0 < d)%R -> 0 <= a < N -> 0 <= a' < N -> (o + cut P (i + n) a * d <= x < o + cut P (i + n) (a + 1) * d)%R ->
     (o + cut P (i' + n) a' * d <= x < o + cut P (i' + n) (a' + 1) * d)%R -> i = i' /\ a = a').
  { intros o d n x u a u' a' Hd Ha Ha' C C'. apply scale_in in C; [|exact Hd]. apply scale_in in C'; [|exact Hd].
    destruct (cut_unique P HP _ _ _ _ _ Ha Ha' C C') as [E ->]. split; [lia|reflexivity]. }
  destruct (L _ _ _ _ _ _ _ _ Dx Hx Hx' Cx Cx') as [-> ->]. destruct (L _ _ _ _ _ _ _ _ Dy Hy Hy' Cy Cy') as [-> ->].
  destruct b3.
  - destruct (L _ _ _ _ _ _ _ _ (Dz eq_refl) Hz Hz' (Cz eq_refl) (Cz' eq_refl)) as [-> ->]. auto.
  - subst. auto.
Qed.

(** ** Binary files. *)
Variable byte : Type.
Variable real_size : Z.
Variable encf encr : R -> list byte.
Variable enc64 enc8 : Z -> list byte.
Hypothesis Hf : encodes encf 4.
Hypothesis Hr : encodes encr real_size.
Hypothesis H64 : encodes enc64 8.
Hypothesis H8 : encodes enc8 1.
Lemma enc_length {X} (enc : X -> list byte) n l : (forall x, Z.of_nat (List.length (enc x)) = n) ->
  Z.of_nat (List.length (flat_map enc l)) = n * Z.of_nat (List.length l).
Proof.
  intros H. induction l as [|x l IH]; [cbn; lia|]. cbn [flat_map]. rewrite app_length, Nat2Z.inj_add, H, IH. cbn [List.length]. lia.
Qed.
Lemma contents_arrays : contents b3 P g h bx s byte real_size encf encr enc64 enc8
  = map (fun b => (Z.of_nat (List.length b), b)) (file_arrays encf encr enc64 enc8 f).
Proof.
  unfold contents, file_arrays. cbn [save_sdm vt_nodes vt_connectivity vt_offsets vt_types vt_vars]. rewrite map_app. f_equal.
  - cbn [map]. rewrite (enc_length _ 12), (enc_length enc64 8 _ H64), (enc_length enc64 8 _ H64), (enc_length enc8 1 _ H8).
    + rewrite nodes_length, connectivity_length, offsets_length, types_length.
      replace (12 * nbNodes b3 P g) with (4 * nbNodes b3 P g * 3) by ring.
      replace (8 * (nbCells b3 P g * perCell b3)) with (8 * nbCells b3 P g * perCell b3) by ring. reflexivity.
    + intros [[x y] z]. rewrite !app_length, !Nat2Z.inj_add, !Hf. reflexivity.
  - rewrite !map_map. apply map_ext. intros v. cbn [snd]. rewrite (enc_length encr real_size _ Hr), data_length. reflexivity.
Qed.
Lemma increments_arrays : increments b3 P g real_size = map (fun b => 8 + Z.of_nat (List.length b)) (file_arrays encf encr enc64 enc8 f).
Proof.
  pose proof contents_arrays as E. apply (f_equal (map (fun x : Z * list byte => 8 + fst x))) in E. rewrite map_map in E. cbn [fst] in E. rewrite <- E.
  unfold contents, increments. rewrite map_app, map_map. reflexivity.
Qed.
Lemma running_blocks l : forall n b o, at_ l n = Some b -> exists off pre post,
  at_ (running o (map (fun b => 8 + Z.of_nat (List.length b)) l)) n = Some off /\
  flat_map (fun x => block byte enc64 (fst x) (snd x)) (map (fun b => (Z.of_nat (List.length b), b)) l)
  = pre ++ enc64 (Z.of_nat (List.length b)) ++ b ++ post /\ o + Z.of_nat (List.length pre) = off.
Proof.
  induction l as [|a l IH]; intros n b o H; pose proof (at_bounds _ _ _ H) as B; cbn [List.length] in B; [lia|].
  cbn [map flat_map running fst snd]. destruct (Z.eq_dec n 0) as [->|Hn].
  - injection H as <-. eexists. exists []. eexists. split; [reflexivity|]. split; [|cbn; lia].
    cbn [app]. unfold block. rewrite Nat2Z.id, firstn_all, <- app_assoc. reflexivity.
  - assert (SH : forall {X} (x : X) m, at_ (x :: m) n = at_ m (n - 1)).
    { intros X x m. unfold at_. rewrite (proj2 (Z.ltb_ge n 0)), (proj2 (Z.ltb_ge (n - 1) 0)) by lia. replace (Z.to_nat n) with (S (Z.to_nat (n - 1))) by lia. reflexivity. }
    rewrite SH in H. rewrite SH. destruct (IH _ _ (o + (8 + Z.of_nat (List.length a))) H) as [off [pre [post [E1 [E2 E3]]]]].
    exists off, (block byte enc64 (Z.of_nat (List.length a)) a ++ pre), post. split; [exact E1|]. split.
    + rewrite E2, <- app_assoc. reflexivity.
    + unfold block. rewrite Nat2Z.id, firstn_all, !app_length, !Nat2Z.inj_add, H64. lia.
Qed.
End File.
