(** All directions together: ghost cells after the exchange. *)
From Coq Require Import ZArith List Bool Lia.
From Verif Require Import Arith Par ParProofs GridModel BoundaryModel BoundarySpec BoundaryProofs
  HydroState HydroKernels HydroSpec SpmdModel SpmdSpec SpmdProofs MpiModel MpiSpec MpiTopo MpiCopy MpiExchange.
Import ListNotations.
Open Scope Z_scope.

Lemma lockstep_app {S M} P (p1 p2 : list (op S M)) s s' :
  lockstep P (p1 ++ p2) s s' -> exists s1, lockstep P p1 s s1 /\ lockstep P p2 s1 s'.
Proof.
  revert s. induction p1 as [|o p1 IH]; intros s H; cbn in H.
  - exists s. split; [constructor|exact H].
  - inversion H as [|? ? ? sm ? T1 T2]; subst. destruct (IH _ T2) as (s1 & H1 & H2).
    exists s1. split; [econstructor; eauto|exact H2].
Qed.

Lemma div_range (i n m : Z) : 0 < n -> 0 <= i / n < m -> 0 <= i < n * m.
Proof.
  intros Hn [H1 H2]. assert (E := Z.div_mod i n ltac:(lia)). assert (B := Z.mod_pos_bound i n Hn).
  set (q := i / n) in *. assert (0 <= n * q) by (apply Z.mul_nonneg_nonneg; lia).
  assert (n * q + n <= n * m) by (replace (n * q + n) with (n * (q + 1)) by ring; apply Z.mul_le_mono_nonneg_l; lia). lia.
Qed.

Section Fill.
Context {T : Type} {A : Arith T}.
(** Multiplying by 1.0 does not change the result of a multiplication. *)
Hypothesis mul_one : forall x y : T, mul (mul x y) one = mul x y.
Variable tp : topo.
Variable g : grid.
Variable ly : layout.
Variable mhd : bool.
Hypothesis Htp : topo_ok tp.
Hypothesis Hw : 0 < gw g.
Hypothesis Hnx : gw g <= nx g.
Hypothesis Hny : gw g <= ny g.
Hypothesis Hcodes : known_codes g.
Notation P := (nprocs tp).

Lemma split_pos n m w I : 0 < w <= n -> 0 < m -> 0 <= I < n * m ->
  0 <= I / n < m /\ 0 <= I mod n < n /\ (I / n) * n + (w + I mod n) = w + I.
Proof.
  intros Hwn Hm HI. repeat split.
  - apply Z.div_pos; lia.
  - apply Z.div_lt_upper_bound; nia.
  - apply Z.mod_pos_bound; lia.
  - apply Z.mod_pos_bound; lia.
  - pose proof (Z.div_mod I n). nia.
Qed.

Lemma global_pos d r c (d3 : bool) lo hi : gw g <= ndir g d -> dims_ok g d3 d -> (r < P)%nat -> in_arr g d3 c ->
  let I := image lo hi (ndir g d * mdir tp d) (crd tp d r * ndir g d + getc d c - gw g) in
  0 <= I / ndir g d < mdir tp d /\ 0 <= I mod ndir g d < ndir g d /\
  (I / ndir g d) * ndir g d + (gw g + I mod ndir g d) = gw g + I.
Proof.
  intros Hn Hd Hr Hc I. pose proof (crd_range tp Htp d r Hr) as Cr. pose proof (mdir_pos tp Htp d) as Hm.
  pose proof (in_arr_getc g d3 d c Hd Hc) as Gc.
  apply split_pos; [lia|lia|]. unfold I. apply image_interior with (gw g); [nia|]. nia.
Qed.

Lemma along_good d lo hi n q v (x : T) : mul x one = x -> mul (along mhd d lo hi n q v x) one = along mhd d lo hi n q v x.
Proof. intros H. unfold along. destruct (is_ghost n q); auto. Qed.

Lemma fill_mpi2 cur a u (s s' : nat -> pstate T) :
  ~ is_buffer a -> (forall x m, cur (with_mem x m) = cur x) -> (forall r, (r < P)%nat -> cur (s r) = a) ->
  parts2 tp g u a (fun r => p_mem (s r)) ->
  (forall i j v, inside2 (whole tp g) i j -> 0 <= v < nbvar g -> mul (u i j v) one = u i j v) ->
  lockstep P (make_boundaries_mpi2d tp g ly mhd cur) s s' ->
  forall r, (r < P)%nat ->
  s' r = with_mem (s r) (p_mem (s' r)) /\
  (forall l, la l <> a -> ~ is_buffer (la l) -> p_mem (s' r) l = p_mem (s r) l) /\
  (forall i j v, 0 <= i < nx g + 2 * gw g -> 0 <= j < ny g + 2 * gw g -> 0 <= v < nbvar g ->
     p_mem (s' r) (Loc a i j 0 v) = filled2d mhd (whole tp g) u (rx tp r * nx g + i) (ry tp r * ny g + j) v).
Proof.
  intros Hb Hcur Hca Hu Hgood HL r Hr. apply lockstep_app in HL. destruct HL as (s1 & L1 & L2).
  pose proof (stage tp g ly false mhd Htp Hw Hnx Hny I Hcodes XDIR 111 cur a s s1 ltac:(discriminate) Hb Hcur Hca L1) as S1.
  assert (Hca1 : forall r, (r < P)%nat -> cur (s1 r) = a).
  { intros q Hq. destruct (S1 q Hq) as (E & _). rewrite E, Hcur. auto. }
  pose proof (stage tp g ly false mhd Htp Hw Hnx Hny I Hcodes YDIR 211 cur a s1 s' ltac:(discriminate) Hb Hcur Hca1 L2) as S2.
  destruct (S2 r Hr) as (E2 & F2 & V2). destruct (S1 r Hr) as (E1 & F1 & _).
  split; [rewrite E2, E1; reflexivity|]. split; [intros; rewrite F2, F1 by assumption; reflexivity|].
  intros i j v Hi Hj Hv.
  assert (SZ : isize g = nx g + 2 * gw g /\ jsize g = ny g + 2 * gw g)
    by (unfold isize, jsize, imax, imin, jmax, jmin; lia). destruct SZ as (SZ1 & SZ2).
  assert (Hc : in_arr g false (i, j, 0)) by (unfold in_arr; rewrite SZ1, SZ2; auto).
  pose proof (global_pos YDIR r (i, j, 0) false (ky0 g) (ky1 g) Hny ltac:(discriminate) Hr Hc) as (G1 & G2 & G3).
  specialize (V2 (i, j, 0) v Hc Hv). cbv zeta in V2.
  cbn [at_cell setc getc face_lo face_hi dnum ndir mdir crd] in V2, G1, G2, G3.
  fold (ky0 g) (ky1 g) in V2.
  set (IY := image (ky0 g) (ky1 g) (ny g * my tp) (ry tp r * ny g + j - gw g)) in *.
  set (r1 := at_pos tp YDIR r (IY / ny g)) in *.
  assert (Hr1 : (r1 < P)%nat) by (apply at_pos_lt; assumption).
  assert (X1 : rx tp r1 = rx tp r) by (apply (crd_at_pos_other tp Htp YDIR XDIR); [discriminate|assumption]).
  assert (Y1 : ry tp r1 = IY / ny g) by (unfold r1; etransitivity; [apply (crd_at_pos tp Htp YDIR)|apply Z.mod_small; assumption]).
  set (j1 := gw g + IY mod ny g) in *.
  assert (Hc1 : in_arr g false (i, j1, 0)) by (unfold in_arr; rewrite SZ1, SZ2; unfold j1; lia).
  destruct (S1 r1 Hr1) as (_ & _ & V1). specialize (V1 (i, j1, 0) v Hc1 Hv). cbv zeta in V1.
  pose proof (global_pos XDIR r1 (i, j1, 0) false (kx0 g) (kx1 g) Hnx ltac:(discriminate) Hr1 Hc1) as (K1 & K2 & K3).
  cbn [at_cell setc getc face_lo face_hi dnum ndir mdir crd] in V1, K1, K2, K3.
  fold (kx0 g) (kx1 g) in V1. rewrite X1 in V1, K1, K2, K3.
  set (IX := image (kx0 g) (kx1 g) (nx g * mx tp) (rx tp r * nx g + i - gw g)) in *.
  set (r2 := at_pos tp XDIR r1 (IX / nx g)) in *.
  assert (Hr2 : (r2 < P)%nat) by (apply at_pos_lt; assumption).
  assert (X2 : rx tp r2 = IX / nx g) by (unfold r2; etransitivity; [apply (crd_at_pos tp Htp XDIR)|apply Z.mod_small; assumption]).
  assert (Y2 : ry tp r2 = ry tp r1) by (apply (crd_at_pos_other tp Htp XDIR YDIR); [discriminate|assumption]).
  rewrite (Hu r2) in V1 by (auto; unfold j1; lia). rewrite X2, Y2, Y1, K3, G3 in V1.
  assert (IIX : 0 <= IX < nx g * mx tp) by (apply div_range; [lia|assumption]).
  assert (IIY : 0 <= IY < ny g * my tp) by (apply div_range; [lia|assumption]).
  assert (GU : mul (u (gw g + IX) (gw g + IY) v) one = u (gw g + IX) (gw g + IY) v)
    by (apply Hgood; [unfold inside2; cbn [nx ny gw whole]; lia|assumption]).
  specialize (V1 GU). rewrite V1 in V2. rewrite V2 by (apply along_good; assumption).
  reflexivity.
Qed.

Lemma fill_mpi3 cur a u (s s' : nat -> pstate T) :
  gw g <= nz g ->
  ~ is_buffer a -> (forall x m, cur (with_mem x m) = cur x) -> (forall r, (r < P)%nat -> cur (s r) = a) ->
  parts3 tp g u a (fun r => p_mem (s r)) ->
  (forall i j k v, inside3 (whole tp g) i j k -> 0 <= v < nbvar g -> mul (u i j k v) one = u i j k v) ->
  lockstep P (make_boundaries_mpi3d tp g ly mhd cur) s s' ->
  forall r, (r < P)%nat ->
  s' r = with_mem (s r) (p_mem (s' r)) /\
  (forall l, la l <> a -> ~ is_buffer (la l) -> p_mem (s' r) l = p_mem (s r) l) /\
  (forall i j k v, 0 <= i < nx g + 2 * gw g -> 0 <= j < ny g + 2 * gw g -> 0 <= k < nz g + 2 * gw g -> 0 <= v < nbvar g ->
     p_mem (s' r) (Loc a i j k v) =
     filled3d mhd (whole tp g) u (rx tp r * nx g + i) (ry tp r * ny g + j) (rz tp r * nz g + k) v).
Proof.
  intros Hnz Hb Hcur Hca Hu Hgood HL r Hr. apply lockstep_app in HL. destruct HL as (s1 & L1 & L23).
  apply lockstep_app in L23. destruct L23 as (s2 & L2 & L3).
  assert (DO : forall d, dims_ok g true d) by (intros d; cbn; lia).
  pose proof (stage tp g ly true mhd Htp Hw Hnx Hny Hnz Hcodes XDIR 111 cur a s s1 (DO _) Hb Hcur Hca L1) as S1.
  assert (Hca1 : forall r, (r < P)%nat -> cur (s1 r) = a).
  { intros q Hq. destruct (S1 q Hq) as (E & _). rewrite E, Hcur. auto. }
  pose proof (stage tp g ly true mhd Htp Hw Hnx Hny Hnz Hcodes YDIR 211 cur a s1 s2 (DO _) Hb Hcur Hca1 L2) as S2.
  assert (Hca2 : forall r, (r < P)%nat -> cur (s2 r) = a).
  { intros q Hq. destruct (S2 q Hq) as (E & _). rewrite E, Hcur. auto. }
  pose proof (stage tp g ly true mhd Htp Hw Hnx Hny Hnz Hcodes ZDIR 311 cur a s2 s' (DO _) Hb Hcur Hca2 L3) as S3.
  destruct (S3 r Hr) as (E3 & F3 & V3). destruct (S2 r Hr) as (E2 & F2 & _). destruct (S1 r Hr) as (E1 & F1 & _).
  split; [rewrite E3, E2, E1; reflexivity|]. split; [intros; rewrite F3, F2, F1 by assumption; reflexivity|].
  intros i j k v Hi Hj Hk Hv.
  assert (SZ : isize g = nx g + 2 * gw g /\ jsize g = ny g + 2 * gw g /\ ksize g = nz g + 2 * gw g)
    by (unfold isize, jsize, ksize, imax, imin, jmax, jmin, kmax, kmin; lia). destruct SZ as (SZ1 & SZ2 & SZ3).
  assert (Hc : in_arr g true (i, j, k)) by (unfold in_arr; rewrite SZ1, SZ2, SZ3; auto).
  pose proof (global_pos ZDIR r (i, j, k) true (kz0 g) (kz1 g) Hnz (DO _) Hr Hc) as (P1 & P2 & P3).
  specialize (V3 (i, j, k) v Hc Hv). cbv zeta in V3.
  cbn [at_cell setc getc face_lo face_hi dnum ndir mdir crd] in V3, P1, P2, P3.
  fold (kz0 g) (kz1 g) in V3.
  set (IZ := image (kz0 g) (kz1 g) (nz g * mz tp) (rz tp r * nz g + k - gw g)) in *.
  set (r0 := at_pos tp ZDIR r (IZ / nz g)) in *.
  assert (Hr0 : (r0 < P)%nat) by (apply at_pos_lt; assumption).
  assert (X0 : rx tp r0 = rx tp r) by (apply (crd_at_pos_other tp Htp ZDIR XDIR); [discriminate|assumption]).
  assert (Y0 : ry tp r0 = ry tp r) by (apply (crd_at_pos_other tp Htp ZDIR YDIR); [discriminate|assumption]).
  assert (Z0 : rz tp r0 = IZ / nz g) by (unfold r0; etransitivity; [apply (crd_at_pos tp Htp ZDIR)|apply Z.mod_small; assumption]).
  set (k1 := gw g + IZ mod nz g) in *.
  assert (Hc0 : in_arr g true (i, j, k1)) by (unfold in_arr; rewrite SZ1, SZ2, SZ3; unfold k1; lia).
  destruct (S2 r0 Hr0) as (_ & _ & V2). specialize (V2 (i, j, k1) v Hc0 Hv). cbv zeta in V2.
  pose proof (global_pos YDIR r0 (i, j, k1) true (ky0 g) (ky1 g) Hny (DO _) Hr0 Hc0) as (G1 & G2 & G3).
  cbn [at_cell setc getc face_lo face_hi dnum ndir mdir crd] in V2, G1, G2, G3.
  fold (ky0 g) (ky1 g) in V2. rewrite Y0 in V2, G1, G2, G3.
  set (IY := image (ky0 g) (ky1 g) (ny g * my tp) (ry tp r * ny g + j - gw g)) in *.
  set (r1 := at_pos tp YDIR r0 (IY / ny g)) in *.
  assert (Hr1 : (r1 < P)%nat) by (apply at_pos_lt; assumption).
  assert (X1 : rx tp r1 = rx tp r0) by (apply (crd_at_pos_other tp Htp YDIR XDIR); [discriminate|assumption]).
  assert (Z1 : rz tp r1 = rz tp r0) by (apply (crd_at_pos_other tp Htp YDIR ZDIR); [discriminate|assumption]).
  assert (Y1 : ry tp r1 = IY / ny g) by (unfold r1; etransitivity; [apply (crd_at_pos tp Htp YDIR)|apply Z.mod_small; assumption]).
  set (j1 := gw g + IY mod ny g) in *.
  assert (Hc1 : in_arr g true (i, j1, k1)) by (unfold in_arr; rewrite SZ1, SZ2, SZ3; unfold j1, k1; lia).
  destruct (S1 r1 Hr1) as (_ & _ & V1). specialize (V1 (i, j1, k1) v Hc1 Hv). cbv zeta in V1.
  pose proof (global_pos XDIR r1 (i, j1, k1) true (kx0 g) (kx1 g) Hnx (DO _) Hr1 Hc1) as (K1 & K2 & K3).
  cbn [at_cell setc getc face_lo face_hi dnum ndir mdir crd] in V1, K1, K2, K3.
  fold (kx0 g) (kx1 g) in V1. rewrite X1, X0 in V1, K1, K2, K3.
  set (IX := image (kx0 g) (kx1 g) (nx g * mx tp) (rx tp r * nx g + i - gw g)) in *.
  set (r2 := at_pos tp XDIR r1 (IX / nx g)) in *.
  assert (Hr2 : (r2 < P)%nat) by (apply at_pos_lt; assumption).
  assert (X2 : rx tp r2 = IX / nx g) by (unfold r2; etransitivity; [apply (crd_at_pos tp Htp XDIR)|apply Z.mod_small; assumption]).
  assert (Y2 : ry tp r2 = ry tp r1) by (apply (crd_at_pos_other tp Htp XDIR YDIR); [discriminate|assumption]).
  assert (Z2 : rz tp r2 = rz tp r1) by (apply (crd_at_pos_other tp Htp XDIR ZDIR); [discriminate|assumption]).
  rewrite (Hu r2) in V1 by (auto; unfold j1, k1; lia). rewrite X2, Y2, Y1, Z2, Z1, Z0, K3, G3, P3 in V1.
  assert (IIX : 0 <= IX < nx g * mx tp) by (apply div_range; [lia|assumption]).
  assert (IIY : 0 <= IY < ny g * my tp) by (apply div_range; [lia|assumption]).
  assert (IIZ : 0 <= IZ < nz g * mz tp) by (apply div_range; [lia|assumption]).
  assert (GU : mul (u (gw g + IX) (gw g + IY) (gw g + IZ) v) one = u (gw g + IX) (gw g + IY) (gw g + IZ) v)
    by (apply Hgood; [unfold inside3; cbn [nx ny nz gw whole]; lia|assumption]).
  specialize (V1 GU). rewrite V1 in V2. specialize (V2 (along_good _ _ _ _ _ _ _ GU)).
  rewrite V2 in V3. specialize (V3 (along_good _ _ _ _ _ _ _ (along_good _ _ _ _ _ _ _ GU))).
  rewrite V3. reflexivity.
Qed.

(** ** The exchange as a program: matched and productive *)
Lemma exchange_dir_matched d3 cur d tag o :
  In o (exchange_dir (T:=T) tp g ly d3 mhd cur (face_lo d) (face_hi d) tag) -> matched P o.
Proof.
  intros [<-|[<-|[<-|[<-|[<-|[]]]]]]; cbn [matched launch exchange barrier]; auto;
    intros r Hr; destruct (neighbors_inverse tp Htp d r Hr) as (N1 & N2 & N3 & N4); auto.
Qed.
Lemma exchange_dir_productive d3 cur d tag o :
  In o (exchange_dir (T:=T) tp g ly d3 mhd cur (face_lo d) (face_hi d) tag) -> productive P o.
Proof.
  intros [<-|[<-|[<-|[<-|[<-|[]]]]]]; cbn [productive launch exchange barrier]; auto.
  - intros r s _. eexists. eexists. split; [apply run_kernels_seq|reflexivity].
  - intros r s _. eexists. eexists. split; [apply run_kernels_seq|reflexivity].
  - intros ms _. eexists. reflexivity.
Qed.
Lemma boundaries2_matched cur o : In o (make_boundaries_mpi2d (T:=T) tp g ly mhd cur) -> matched P o.
Proof. intros H. apply in_app_iff in H. destruct H as [H|H]; [apply (exchange_dir_matched false cur XDIR 111)|apply (exchange_dir_matched false cur YDIR 211)]; exact H. Qed.
Lemma boundaries2_productive cur o : In o (make_boundaries_mpi2d (T:=T) tp g ly mhd cur) -> productive P o.
Proof. intros H. apply in_app_iff in H. destruct H as [H|H]; [apply (exchange_dir_productive false cur XDIR 111)|apply (exchange_dir_productive false cur YDIR 211)]; exact H. Qed.
Lemma boundaries3_matched cur o : In o (make_boundaries_mpi3d (T:=T) tp g ly mhd cur) -> matched P o.
Proof.
  intros H. apply in_app_iff in H. destruct H as [H|H]; [|apply in_app_iff in H; destruct H as [H|H]];
    [apply (exchange_dir_matched true cur XDIR 111)|apply (exchange_dir_matched true cur YDIR 211)|apply (exchange_dir_matched true cur ZDIR 311)]; exact H.
Qed.
Lemma boundaries3_productive cur o : In o (make_boundaries_mpi3d (T:=T) tp g ly mhd cur) -> productive P o.
Proof.
  intros H. apply in_app_iff in H. destruct H as [H|H]; [|apply in_app_iff in H; destruct H as [H|H]];
    [apply (exchange_dir_productive true cur XDIR 111)|apply (exchange_dir_productive true cur YDIR 211)|apply (exchange_dir_productive true cur ZDIR 311)]; exact H.
Qed.
End Fill.
