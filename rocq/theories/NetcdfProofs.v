(** The contents of netCDF files. *)
From Coq Require Import ZArith List Bool String Permutation Lia.
From Verif Require Import Arith Par ParProofs GridModel MpiModel MpiSpec MpiTopo IoModel IoSpec IoProofs IoFile IoMpi NetcdfModel.
Import ListNotations.
Open Scope Z_scope.

(** ** Positions in nested loops *)
Lemma flat_nth {A B} (f : A -> list B) n l a b x y : (forall a, In a l -> List.length (f a) = n) -> (b < n)%nat ->
  nth_error l a = Some x -> nth_error (f x) b = Some y -> nth_error (flat_map f l) (a * n + b) = Some y.
Proof.
  revert a. induction l as [|z l IH]; intros a Hl Hb Ha Hy; [destruct a; discriminate Ha|].
  cbn [flat_map]. destruct a as [|a].
  - injection Ha as ->. rewrite nth_error_app1 by (rewrite Hl by (left; reflexivity); lia). exact Hy.
  - rewrite nth_error_app2; rewrite (Hl z) by (left; reflexivity); [|lia].
    replace (S a * n + b - n)%nat with (a * n + b)%nat by lia. apply IH; auto. intros; apply Hl; right; auto.
Qed.
Lemma zrange_nth n i : 0 <= i < n -> nth_error (zrange 0 n) (Z.to_nat i) = Some i.
Proof.
  intros H. unfold zrange. rewrite nth_error_map. rewrite (nth_error_nth' _ 0%nat) by (rewrite seq_length; lia).
  rewrite seq_nth by lia. cbn. f_equal. lia.
Qed.
Lemma zrange_len n : List.length (zrange 0 n) = Z.to_nat n.
Proof. unfold zrange. rewrite map_length, seq_length. f_equal. lia. Qed.
Lemma flat_len {A B} (f : A -> list B) n l : (forall a, List.length (f a) = n) -> List.length (flat_map f l) = (List.length l * n)%nat.
Proof. intros H. induction l; cbn; [reflexivity|]. rewrite app_length, IHl, H. reflexivity. Qed.

Lemma nested {B} (f : Z -> Z -> Z -> B) A b c x y z : 0 <= x < A -> 0 <= y < b -> 0 <= z < c ->
  nth_error (flat_map (fun x => flat_map (fun y => map (fun z => f x y z) (zrange 0 c)) (zrange 0 b)) (zrange 0 A)) (Z.to_nat ((x * b + y) * c + z))
  = Some (f x y z).
Proof.
  intros Hx Hy Hz.
  assert (L : forall x, List.length (flat_map (fun y => map (fun z => f x y z) (zrange 0 c)) (zrange 0 b)) = (Z.to_nat b * Z.to_nat c)%nat).
  { intros x0. rewrite (flat_len _ (Z.to_nat c)); [rewrite zrange_len; reflexivity|]. intros. rewrite map_length, zrange_len. reflexivity. }
  replace (Z.to_nat ((x * b + y) * c + z)) with (Z.to_nat x * (Z.to_nat b * Z.to_nat c) + (Z.to_nat y * Z.to_nat c + Z.to_nat z))%nat by nia.
  apply (flat_nth _ _ _ _ _ x); [intros; apply L|nia|apply zrange_nth; auto|].
  apply (flat_nth _ _ _ _ _ y); [intros; rewrite map_length, zrange_len; reflexivity|lia|apply zrange_nth; auto|].
  rewrite nth_error_map, zrange_nth by auto. reflexivity.
Qed.

Lemma appended {T} (val : Z * Z * Z -> T) l d n0 a q : 0 <= a -> nth_error l (Z.to_nat a) = Some q ->
  fst (fold_left (fun (d : buf T * Z) c => (bupd (fst d) (snd d) (val c), snd d + 1)) l (d, n0)) (n0 + a) = val q.
Proof.
  revert d n0 a. induction l as [|z l IH]; intros d n0 a Ha E; [destruct (Z.to_nat a); discriminate E|].
  cbn [fold_left fst snd]. destruct (Z.eq_dec a 0) as [->|N].
  - injection E as ->. assert (K : forall l d n1, n0 + 0 < n1 -> fst (fold_left (fun (d : buf T * Z) c => (bupd (fst d) (snd d) (val c), snd d + 1)) l (d, n1)) (n0 + 0) = d (n0 + 0)).
    { clear. induction l as [|z l IH]; intros d n1 H; [reflexivity|]. cbn [fold_left fst snd]. rewrite IH by lia. unfold bupd. destruct (Z.eqb_spec (n0 + 0) n1); [lia|reflexivity]. }
    rewrite K by lia. unfold bupd. rewrite Z.add_0_r, Z.eqb_refl. reflexivity.
  - replace (n0 + a) with (n0 + 1 + (a - 1)) by lia. apply IH; [lia|].
    replace (Z.to_nat a) with (S (Z.to_nat (a - 1))) in E by lia. exact E.
Qed.

Section File.
Context {TT T : Type}.
Variable b3 mhd : bool.
Variable ly : layout.
Variable g : grid.
Variable tp : topo.
Hypothesis Hg : io_grid b3 mhd g.
Hypothesis Htp : io_topo b3 tp.
Let Htp' : topo_ok tp. Proof. destruct Htp as (? & ? & ? & _). repeat split; auto. Qed.

(** Extent of the part of process [r]. *)
Definition sx (r : nat) : Z := fst (fst (nc_stops g tp r)).
Definition sy (r : nat) : Z := snd (fst (nc_stops g tp r)).
Definition sz (r : nat) : Z := snd (nc_stops g tp r).

(** The cell of the local array that lands at place (i, j, k) of the part. *)
Definition moved (r : nat) (i j k : Z) : Z * Z * Z :=
  match ly with
  | LayoutRight => (i, j, k)
  | LayoutLeft =>
      let n := i + sx r * (j + sy r * k) in let s := if b3 then sz r else 1 in
      (n / (sy r * s), (n / s) mod sy r, n mod s)
  end.

Lemma stops_pos r : 0 < sx r /\ 0 < sy r /\ (b3 = true -> 0 < sz r).
Proof.
  destruct Hg as (Hx & Hy & Hz & Hw & _). unfold sx, sy, sz, nc_stops. destruct (coords tp r) as [[cx cy] cz]. cbn [fst snd].
  destruct (_ =? _), (_ =? _), (_ =? _); repeat split; try lia; intros Hb; specialize (Hz Hb); lia.
Qed.

Lemma buffer_at (m d : buf T) r v i j k : in3 b3 (sx r) (sy r) (sz r) i j k ->
  nc_buffer b3 ly g tp m d r v (offset (dims_of b3 (sz r) (sy r) (sx r)) (dims_of b3 k j i)) =
  let '(i', j', k') := moved r i j k in elem b3 ly g m i' j' k' v.
Proof.
  intros (Hi & Hj & Hk). rewrite offset_dims. destruct (stops_pos r) as (Px & Py & Pz).
  assert (E : i + sx r * (j + sy r * kz b3 k) = i + sx r * (j + sy r * k)) by (unfold kz; destruct b3; [reflexivity|subst k; reflexivity]).
  rewrite E. set (n := i + sx r * (j + sy r * k)).
  assert (Hn : 0 <= n < sx r * sy r * (if b3 then sz r else 1)).
  { unfold n. destruct b3; [|subst k]; [assert (0 <= j + sy r * k /\ j + sy r * k + 1 <= sy r * sz r) by (assert (sy r * (k + 1) <= sy r * sz r) by (apply Z.mul_le_mono_nonneg_l; lia); split; [apply Z.add_nonneg_nonneg; [lia|apply Z.mul_nonneg_nonneg; lia]|lia]); nia|nia]. }
  unfold nc_buffer, elem. destruct (nc_stops g tp r) as [[a b] c] eqn:S.
  assert (Sx : sx r = a) by (unfold sx; rewrite S; reflexivity). assert (Sy : sy r = b) by (unfold sy; rewrite S; reflexivity).
  assert (Sz : sz r = c) by (unfold sz; rewrite S; reflexivity). 
  pose (val := fun q : Z * Z * Z => let '(i, j, k) := q in m (voff b3 ly g i j k v)).
  assert (F : forall l d0, fold_left (fun (d : buf T * Z) (c : Z * Z * Z) => let '(i, j, k) := c in (bupd (fst d) (snd d) (m (voff b3 ly g i j k v)), snd d + 1)) l d0
     = fold_left (fun (d : buf T * Z) c => (bupd (fst d) (snd d) (val c), snd d + 1)) l d0).
  { induction l as [|[[x y] z] l IH]; intros d0; [reflexivity|]. cbn [fold_left]. rewrite IH. reflexivity. }
  rewrite F. change n with (0 + n). unfold moved. fold n.
  assert (HS : 0 < (if b3 then sz r else 1)) by (destruct b3; auto; lia).
  destruct ly; unfold nc_loop.
  - (* LayoutLeft *)
    set (s := if b3 then sz r else 1) in *.
    replace (if b3 then c else 1) with s by (unfold s; rewrite Sz; reflexivity). rewrite <- Sx, <- Sy.
    rewrite (appended val _ _ 0 n (n / (sy r * s), (n / s) mod sy r, n mod s)); [reflexivity|lia|].
    pose proof (Z.mod_pos_bound n s HS) as M1. pose proof (Z.mod_pos_bound (n / s) (sy r) Py) as M2.
    assert (D1 : n = s * (n / s) + n mod s) by (apply Z.div_mod; lia).
    assert (D2 : n / s = sy r * (n / s / sy r) + (n / s) mod sy r) by (apply Z.div_mod; lia).
    assert (D3 : n / (sy r * s) = n / s / sy r) by (rewrite Z.div_div by lia; f_equal; lia).
    assert (0 <= n / s / sy r < sx r).
    { split; [apply Z.div_pos; [apply Z.div_pos; lia|lia]|]. apply Z.div_lt_upper_bound; [lia|]. apply Z.div_lt_upper_bound; [lia|]. nia. }
    rewrite D3. pose proof (nested (fun x y z => (x, y, z)) (sx r) (sy r) s (n / s / sy r) ((n / s) mod sy r) (n mod s) H M2 M1) as N.
    replace ((n / s / sy r * sy r + (n / s) mod sy r) * s + n mod s) with n in N by nia. exact N.
  - (* LayoutRight *)
    rewrite (appended val _ _ 0 n (i, j, k)); [reflexivity|lia|].
    pose proof (nested (fun z y x => (x, y, z)) (if b3 then c else 1) b a k j i) as N.
    replace ((k * b + j) * a + i) with n in N by (unfold n; rewrite Sx, Sy; ring).
    apply N; try lia. destruct b3; [lia|subst k; lia].
Qed.

(** The process that writes position [X] of a direction. *)
Definition own (n m X : Z) : Z := Z.min (X / n) (m - 1).
Definition part (n m q : Z) : Z := if q =? m - 1 then n + 2 * gw g else n.
Lemma own_here n m q i : 0 < n -> 0 <= q < m -> 0 <= i < part n m q -> own n m (q * n + i) = q.
Proof.
  unfold part, own. intros Hn Hq Hi. rewrite Z.div_add_l by lia. destruct (Z.eqb_spec q (m - 1)).
  - assert (0 <= i / n) by (apply Z.div_pos; lia). lia.
  - rewrite Z.div_small by lia. lia.
Qed.
Lemma own_cover n m X : 0 < n -> 0 < m -> 0 <= gw g -> 0 <= X < m * n + 2 * gw g ->
  0 <= own n m X < m /\ 0 <= X - own n m X * n < part n m (own n m X).
Proof.
  intros Hn Hm Hw HX. unfold own, part. assert (0 <= X / n) by (apply Z.div_pos; lia).
  pose proof (Z.mod_pos_bound X n Hn). pose proof (Z.div_mod X n ltac:(lia)).
  split; [lia|]. destruct (Z.eqb_spec (Z.min (X / n) (m - 1)) (m - 1)) as [E|E].
  - rewrite E. split; [|lia]. assert (m - 1 <= X / n) by lia. nia.
  - replace (Z.min (X / n) (m - 1)) with (X / n) by lia. lia.
Qed.
Lemma sx_part r : sx r = part (nx g) (mx tp) (rx tp r).
Proof. unfold sx, nc_stops, part, rx. destruct (coords tp r) as [[a b] c]. reflexivity. Qed.
Lemma sy_part r : sy r = part (ny g) (my tp) (ry tp r).
Proof. unfold sy, nc_stops, part, ry. destruct (coords tp r) as [[a b] c]. reflexivity. Qed.
Lemma sz_part r : sz r = part (nz g) (mz tp) (rz tp r).
Proof. unfold sz, nc_stops, part, rz. destruct (coords tp r) as [[a b] c]. reflexivity. Qed.

Definition wx : Z := mx tp * nx g + 2 * gw g.
Definition wy : Z := my tp * ny g + 2 * gw g.
Definition wz : Z := mz tp * nz g + 2 * gw g.
Lemma nc_space_eq r : nc_space b3 g tp r = Space (dims_of b3 wz wy wx)
  (dims_of b3 (rz tp r * nz g, 1, 1, sz r) (ry tp r * ny g, 1, 1, sy r) (rx tp r * nx g, 1, 1, sx r)).
Proof. unfold nc_space, sx, sy, sz, rx, ry, rz. destruct (nc_stops g tp r) as [[a b] c]. destruct (coords tp r) as [[x y] z]. reflexivity. Qed.
Lemma nc_memory_eq r : nc_memory b3 g tp r = Space (dims_of b3 (sz r) (sy r) (sx r)) (dims_of b3 (0, 1, 1, sz r) (0, 1, 1, sy r) (0, 1, 1, sx r)).
Proof. unfold nc_memory, sx, sy, sz. destruct (nc_stops g tp r) as [[a b] c]. reflexivity. Qed.
Lemma part_in n m q : 0 < n -> 0 <= q < m -> 0 <= gw g -> q * n + part n m q <= m * n + 2 * gw g.
Proof. intros. unfold part. destruct (Z.eqb_spec q (m - 1)); nia. Qed.

(** The value prescribed at a position of the file. *)
Definition nc_val (m : nat -> buf T) (v X Y Z0 : Z) : T :=
  let r := cart_rank tp (own (nx g) (mx tp) X, own (ny g) (my tp) Y, if b3 then own (nz g) (mz tp) Z0 else 0) in
  let '(i, j, k) := moved r (X - rx tp r * nx g) (Y - ry tp r * ny g) (if b3 then Z0 - rz tp r * nz g else 0) in elem b3 ly g (m r) i j k v.
Lemma nc_val_at m v r i j k : (r < nprocs tp)%nat -> in3 b3 (sx r) (sy r) (sz r) i j k ->
  nc_val m v (rx tp r * nx g + i) (ry tp r * ny g + j) (kz b3 (rz tp r * nz g + k)) = let '(i', j', k') := moved r i j k in elem b3 ly g (m r) i' j' k' v.
Proof.
  intros Hr (Hi & Hj & Hk). destruct Hg as (Hx & Hy & Hz & Hw & _). destruct (coords_range tp Htp' r Hr) as (Cx & Cy & Cz).
  rewrite sx_part in Hi. rewrite sy_part in Hj. rewrite sz_part in Hk. unfold nc_val. rewrite !own_here by auto.
  assert (E : (if b3 then own (nz g) (mz tp) (kz b3 (rz tp r * nz g + k)) else 0) = rz tp r).
  { unfold kz. destruct b3 eqn:Eb; [apply own_here; auto|]. destruct Htp as (_ & _ & _ & E1). rewrite E1 in Cz by auto. lia. }
  rewrite E, rank_of_coords by auto. replace (rx tp r * nx g + i - rx tp r * nx g) with i by lia.
  replace (ry tp r * ny g + j - ry tp r * ny g) with j by lia.
  assert (E2 : (if b3 then kz b3 (rz tp r * nz g + k) - rz tp r * nz g else 0) = k) by (unfold kz; destruct b3; lia).
  rewrite E2. reflexivity.
Qed.

Lemma nc_collective fill (m : nat -> buf T) (junk : nat -> Z -> buf T) v ds :
  collective (H5Dcreate fill (nc_space b3 g tp 0))
    (map (fun r => write_list (H5Dcreate fill (nc_space b3 g tp r)) (nc_memory b3 g tp r) (nc_space b3 g tp r) (nc_buffer b3 ly g tp (m r) (junk r v) r v))
       (List.seq 0 (nprocs tp))) ds ->
  ds_dims ds = dims_of b3 wz wy wx /\
  forall i j k, in3 b3 wx wy wz i j k -> ds_val ds (offset (dims_of b3 wz wy wx) (dims_of b3 k j i)) = nc_val m v i j (kz b3 k).
Proof.
  intros Hs. pose proof Hg as (Hx & Hy & Hz & Hw & _).
  set (FD := dims_of b3 wz wy wx).
  pose (H := fun q : list Z => match q with [k; j; i] => nc_val m v i j k | [j; i] => nc_val m v i j 0 | _ => fill end).
  assert (HH : forall i j k, H (dims_of b3 k j i) = nc_val m v i j (kz b3 k)) by (intros; unfold kz; destruct b3; reflexivity).
  unfold H5Dcreate in Hs. rewrite nc_space_eq in Hs. cbn [sp_dims] in Hs. fold FD in Hs.
  assert (B : forall r p, (r < nprocs tp)%nat ->
    In p (write_list (DS (sp_dims (nc_space b3 g tp r)) (fun _ => fill)) (nc_memory b3 g tp r) (nc_space b3 g tp r) (nc_buffer b3 ly g tp (m r) (junk r v) r v)) <->
    exists i j k, in3 b3 (sx r) (sy r) (sz r) i j k /\
      p = (offset FD (dims_of b3 (rz tp r * nz g + k) (ry tp r * ny g + j) (rx tp r * nx g + i)),
           nc_val m v (rx tp r * nx g + i) (ry tp r * ny g + j) (kz b3 (rz tp r * nz g + k)))).
  { intros r p Hr. destruct (coords_range tp Htp' r Hr) as (Cx & Cy & Cz). destruct (stops_pos r) as (Px & Py & Pz).
    pose proof (part_in (nx g) (mx tp) (rx tp r) Hx Cx Hw) as Ix. pose proof (part_in (ny g) (my tp) (ry tp r) Hy Cy Hw) as Iy.
    rewrite <- sx_part in Ix. rewrite <- sy_part in Iy.
    assert (Iz : b3 = true -> rz tp r * nz g + sz r <= wz).
    { intros Hb. pose proof (part_in (nz g) (mz tp) (rz tp r) (Hz Hb) Cz Hw) as Iz. rewrite <- sz_part in Iz. exact Iz. }
    rewrite nc_space_eq, nc_memory_eq. cbn [sp_dims]. fold FD.
    pose proof (write_list_box (DS FD (fun _ => fill)) (dims_of b3 (sz r) (sy r) (sx r)) _ FD _ (dims_of b3 (sz r) (sy r) (sx r)) _ _ (nc_buffer b3 ly g tp (m r) (junk r v) r v) p
      (slab_block b3 0 0 0 (sz r) (sy r) (sx r)) (slab_block b3 (rz tp r * nz g) (ry tp r * ny g) (rx tp r * nx g) (sz r) (sy r) (sx r))) as WL.
    assert (F1 : fits (dims_of b3 (sz r) (sy r) (sx r)) (dims_of b3 (0, 1, 1, sz r) (0, 1, 1, sy r) (0, 1, 1, sx r)) = true)
      by (apply fits_block; try lia; intros Hb; specialize (Pz Hb); lia).
    assert (F2 : fits FD (dims_of b3 (rz tp r * nz g, 1, 1, sz r) (ry tp r * ny g, 1, 1, sy r) (rx tp r * nx g, 1, 1, sx r)) = true).
    { unfold FD. apply fits_block; unfold wx, wy in *; try nia. intros Hb. specialize (Pz Hb). specialize (Iz Hb). specialize (Hz Hb). split; [nia|lia]. }
    rewrite (WL F1 F2 eq_refl).
    assert (V : forall i j k, in3 b3 (sx r) (sy r) (sz r) i j k ->
      nc_buffer b3 ly g tp (m r) (junk r v) r v (offset (dims_of b3 (sz r) (sy r) (sx r)) (vadd (dims_of b3 0 0 0) (dims_of b3 k j i))) =
      nc_val m v (rx tp r * nx g + i) (ry tp r * ny g + j) (kz b3 (rz tp r * nz g + k))).
    { intros i j k Hin. rewrite vadd_dims, !Z.add_0_l, buffer_at by auto. symmetry. apply nc_val_at; auto. }
    split.
    - intros (q & Hq & ->). apply inbox_dims_inv in Hq as (i & j & k & -> & Hin). exists i, j, k. split; auto.
      rewrite V by auto. rewrite vadd_dims. reflexivity.
    - intros (i & j & k & Hin & ->). exists (dims_of b3 k j i). split; [apply inbox_dims; auto|].
      rewrite V by auto. rewrite vadd_dims. reflexivity. }
  eapply (collective_holds fill FD (nprocs tp) _ H) in Hs.
  - destruct Hs as (D & V). split; [exact D|]. intros i j k Hin. rewrite V by (apply inbox_dims; auto). apply HH.
  - intros r p Hr Hp. apply (B r p Hr) in Hp as (i & j & k & Hin & ->).
    exists (dims_of b3 (rz tp r * nz g + k) (ry tp r * ny g + j) (rx tp r * nx g + i)).
    split; [|rewrite HH; reflexivity].
    destruct (coords_range tp Htp' r Hr) as (Cx & Cy & Cz). destruct Hin as (I & J & K).
    pose proof (part_in (nx g) (mx tp) (rx tp r) Hx Cx Hw) as Ix. pose proof (part_in (ny g) (my tp) (ry tp r) Hy Cy Hw) as Iy.
    rewrite <- sx_part in Ix. rewrite <- sy_part in Iy.
    apply inbox_dims. split; [unfold wx; nia|]. split; [unfold wy; nia|].
    destruct b3 eqn:Eb; [|].
    + pose proof (part_in (nz g) (mz tp) (rz tp r) (Hz eq_refl) Cz Hw) as Iz. rewrite <- sz_part in Iz. specialize (Hz eq_refl). unfold wz. nia.
    + destruct Htp as (_ & _ & _ & E1). rewrite E1 in Cz by auto. assert (E0 : rz tp r = 0) by lia. rewrite E0. try rewrite Eb in K. lia.
  - intros q Hq. apply inbox_dims_inv in Hq as (X & Y & Z0 & -> & (HX & HY & HZ)).
    destruct Htp as (Mx & My & Mz & Mz1).
    destruct (own_cover (nx g) (mx tp) X Hx Mx Hw HX) as (Qx & I). destruct (own_cover (ny g) (my tp) Y Hy My Hw HY) as (Qy & J).
    set (qx := own (nx g) (mx tp) X) in *. set (qy := own (ny g) (my tp) Y) in *.
    set (qz := if b3 then own (nz g) (mz tp) Z0 else 0).
    assert (Qz : 0 <= qz < mz tp /\ (if b3 then 0 <= Z0 - qz * nz g < part (nz g) (mz tp) qz else Z0 - qz * nz g = 0)).
    { unfold qz. destruct b3; [apply own_cover; auto|]. lia. }
    destruct Qz as (Qz & K).
    destruct (coords_rank_in tp Htp' qx qy qz Qx Qy Qz) as (Ex & Ey & Ez).
    exists (cart_rank tp (qx, qy, qz)). split; [apply cart_rank_lt; apply Htp'|].
    apply B; [apply cart_rank_lt; apply Htp'|]. exists (X - qx * nx g), (Y - qy * ny g), (Z0 - qz * nz g).
    split; [split; [rewrite sx_part, Ex; exact I|split; [rewrite sy_part, Ey; exact J|rewrite sz_part, Ez; destruct b3; exact K]]|].
    rewrite HH, Ex, Ey, Ez. replace (qx * nx g + (X - qx * nx g)) with X by lia. replace (qy * ny g + (Y - qy * ny g)) with Y by lia.
    replace (qz * nz g + (Z0 - qz * nz g)) with Z0 by lia. reflexivity.
Qed.

Lemma nc_fields_all v : In v (nc_fields b3 mhd) <-> 0 <= v < nbvar g.
Proof.
  destruct Hg as (_ & _ & _ & _ & ->). destruct b3, mhd; cbn; unfold ID, IP, IU, IV, IW, IA, IB, IC; lia.
Qed.
Lemma nc_names_inj v w : In v (nc_fields b3 mhd) -> In w (nc_fields b3 mhd) -> nc_names v = nc_names w -> v = w.
Proof.
  assert (F : forall x, In x (nc_fields b3 mhd) -> x = 0 \/ x = 1 \/ x = 2 \/ x = 3 \/ x = 4 \/ x = 5 \/ x = 6 \/ x = 7)
    by (intros x; destruct b3, mhd; cbn; unfold ID, IP, IU, IV, IW, IA, IB, IC; lia).
  intros Hv Hw. destruct (F v Hv) as [->|[->|[->|[->|[->|[->|[->| ->]]]]]]];
  destruct (F w Hw) as [->|[->|[->|[->|[->|[->|[->| ->]]]]]]]; cbn; congruence.
Qed.
Lemma nc_fields_NoDup : NoDup (nc_fields b3 mhd).
Proof. destruct b3, mhd; cbn; repeat constructor; cbn; unfold ID, IP, IU, IV, IW, IA, IB, IC; lia. Qed.
Lemma nc_defined_all : nc_defined b3 mhd (nbvar g) = true.
Proof. destruct Hg as (_ & _ & _ & _ & ->). destruct b3, mhd; reflexivity. Qed.

Lemma nc_file fill (m : nat -> buf T) (junk : nat -> Z -> buf T) step (time : TT) o :
  save_nc b3 mhd ly g tp (nbvar g) fill m junk step time o ->
  exists sets, o = NcFile sets step time /\
  forall v, 0 <= v < nbvar g -> exists ds, find_set sets (nc_names v) = Some ds /\ ds_dims ds = dims_of b3 wz wy wx /\
  forall i j k, in3 b3 wx wy wz i j k -> ds_val ds (i + wx * (j + wy * k)) = nc_val m v i j k.
Proof.
  unfold save_nc. rewrite nc_defined_all. intros (sets & -> & N & C). exists sets. split; [reflexivity|].
  intros v Hv. apply nc_fields_all in Hv. destruct (In_nth_error _ _ Hv) as (n & Hn).
  assert (L : nth_error sets n <> None).
  { rewrite nth_error_Some. rewrite <- (map_length fst), N, map_length. apply nth_error_Some. rewrite Hn. discriminate. }
  destruct (nth_error sets n) as [nd|] eqn:Hs; [clear L|congruence].
  specialize (C n v nd Hn Hs). apply nc_collective in C as (D & V). exists (snd nd). split.
  - eapply find_set_nth; eauto; [|apply nc_fields_NoDup]. intros w Hw E. apply nc_names_inj; auto.
  - split; [exact D|]. intros i j k Hin. specialize (V i j k Hin). rewrite offset_dims in V.
    assert (K : kz b3 k = k) by (destruct Hin as (_ & _ & K); unfold kz; destruct b3; [reflexivity|auto]).
    rewrite K in V. exact V.
Qed.

Lemma nc_part fill (m : nat -> buf T) (junk : nat -> Z -> buf T) step (time : TT) o :
  save_nc b3 mhd ly g tp (nbvar g) fill m junk step time o ->
  exists sets, o = NcFile sets step time /\
  forall v, 0 <= v < nbvar g -> exists ds, find_set sets (nc_names v) = Some ds /\ ds_dims ds = dims_of b3 wz wy wx /\
  forall r i j k, (r < nprocs tp)%nat -> in3 b3 (sx r) (sy r) (sz r) i j k ->
  ds_val ds (rx tp r * nx g + i + wx * (ry tp r * ny g + j + wy * (rz tp r * nz g + k))) =
  let '(i', j', k') := moved r i j k in elem b3 ly g (m r) i' j' k' v.
Proof.
  intros H. apply nc_file in H as (sets & -> & F). exists sets. split; [reflexivity|]. intros v Hv.
  destruct (F v Hv) as (ds & E & D & V). exists ds. split; [exact E|]. split; [exact D|]. intros r i j k Hr Hin.
  pose proof Hg as (Hx & Hy & Hz & Hw & _). destruct (coords_range tp Htp' r Hr) as (Cx & Cy & Cz). pose proof Hin as (I & J & K).
  pose proof (part_in (nx g) (mx tp) (rx tp r) Hx Cx Hw) as Ix. pose proof (part_in (ny g) (my tp) (ry tp r) Hy Cy Hw) as Iy.
  rewrite <- sx_part in Ix. rewrite <- sy_part in Iy.
  assert (IN : in3 b3 wx wy wz (rx tp r * nx g + i) (ry tp r * ny g + j) (rz tp r * nz g + k)).
  { split; [unfold wx; nia|]. split; [unfold wy; nia|].
    destruct b3 eqn:Eb.
    + pose proof (part_in (nz g) (mz tp) (rz tp r) (Hz eq_refl) Cz Hw) as Iz. rewrite <- sz_part in Iz. specialize (Hz eq_refl). unfold wz. nia.
    + destruct Htp as (_ & _ & _ & E1). rewrite E1 in Cz by auto. assert (E0 : rz tp r = 0) by lia. rewrite E0. try rewrite Eb in K. lia. }
  rewrite V by exact IN. rewrite <- nc_val_at by auto. f_equal.
  destruct IN as (_ & _ & IN). unfold kz. destruct b3; auto.
Qed.
End File.
