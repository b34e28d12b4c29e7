(** The values in VTK files. *)
From Coq Require Import ZArith List Bool String Lia.
From Verif Require Import Par ParProofs GridModel MpiModel MpiSpec MpiTopo IoModel IoSpec VtkModel VtkSpec.
Import ListNotations.
Open Scope Z_scope.

Lemma at_app_l {A} (l r : list A) n : n < Z.of_nat (List.length l) -> at_ (l ++ r) n = at_ l n.
Proof. intros H. unfold at_. destruct (n <? 0) eqn:E; [reflexivity|]. apply Z.ltb_ge in E. apply nth_error_app1. lia. Qed.
Lemma at_app_r {A} (l r : list A) n : 0 <= n -> at_ (l ++ r) (Z.of_nat (List.length l) + n) = at_ r n.
Proof.
  intros H. unfold at_. rewrite (proj2 (Z.ltb_ge _ _)) by lia. rewrite (proj2 (Z.ltb_ge n 0)) by lia.
  rewrite nth_error_app2 by lia. f_equal. lia.
Qed.
Lemma at_zrange a b q : 0 <= q < b - a -> at_ (zrange a b) q = Some (a + q).
Proof.
  intros H. unfold at_, zrange. rewrite (proj2 (Z.ltb_ge _ _)) by lia.
  rewrite nth_error_map.
  assert (E : nth_error (List.seq 0 (Z.to_nat (b - a))) (Z.to_nat q) = Some (Z.to_nat q)).
  { rewrite (nth_error_nth' _ 0%nat) by (rewrite seq_length; lia). rewrite seq_nth by lia. f_equal. }
  rewrite E. cbn. f_equal. lia.
Qed.
Lemma at_map {A B} (f : A -> B) l n : at_ (map f l) n = option_map f (at_ l n).
Proof. unfold at_. destruct (n <? 0); [reflexivity|]. apply nth_error_map. Qed.

Lemma flat_map_length_const {A B} (f : A -> list B) l n : (forall x, In x l -> List.length (f x) = n) ->
  List.length (flat_map f l) = (List.length l * n)%nat.
Proof. induction l as [|x l IH]; intros H; cbn; [reflexivity|]. rewrite app_length, (H x) by (left; reflexivity). rewrite IH; [reflexivity|]. intros y Hy. apply H. right. exact Hy. Qed.

Lemma at_flat {A B} (f : A -> list B) l n q r x : (forall y, In y l -> Z.of_nat (List.length (f y)) = n) ->
  0 <= q -> 0 <= r < n -> at_ l q = Some x -> at_ (flat_map f l) (q * n + r) = at_ (f x) r.
Proof.
  revert q. induction l as [|y l IH]; intros q H Hq Hr Hx.
  - unfold at_ in Hx. destruct (q <? 0); [discriminate|]. destruct (Z.to_nat q); discriminate.
  - cbn [flat_map]. destruct (Z.eq_dec q 0) as [->|Hq0].
    + cbn in Hx. injection Hx as ->. rewrite Z.mul_0_l, Z.add_0_l. apply at_app_l. rewrite H by (left; reflexivity). lia.
    + replace (q * n + r) with (Z.of_nat (List.length (f y)) + ((q - 1) * n + r)) by (rewrite (H y) by (left; reflexivity); ring).
      assert (0 <= (q - 1) * n) by (apply Z.mul_nonneg_nonneg; lia).
      rewrite at_app_r by lia. apply IH; auto; [intros; apply H; right; auto|lia|].
      rewrite <- Hx. unfold at_. rewrite (proj2 (Z.ltb_ge _ _)) by lia. rewrite (proj2 (Z.ltb_ge q 0)) by lia.
      replace (Z.to_nat q) with (S (Z.to_nat (q - 1))) by lia. reflexivity.
Qed.

Section Vtk.
Context {T : Type}.
Variable b3 : bool.
Variable g : grid.
Hypothesis Hx : 0 < nx g.
Hypothesis Hy : 0 < ny g.
Hypothesis Hz : b3 = true -> 0 < nz g.
Hypothesis Hw : 0 <= gw g.
Variable U : Z -> Z -> Z -> Z -> T.

Local Notation nzf := (layers b3 g).

Lemma bounds : imin g + gw g = gw g /\ imax g - gw g + 1 = gw g + nx g /\ jmin g + gw g = gw g /\ jmax g - gw g + 1 = gw g + ny g /\
  kmin g + gw g = gw g /\ kmax g - gw g + 1 = gw g + nz g.
Proof. unfold imin, imax, jmin, jmax, kmin, kmax. lia. Qed.

Lemma row_length v j k : Z.of_nat (List.length (map (fun i => U i j k v) (zrange (gw g) (gw g + nx g)))) = nx g.
Proof. rewrite map_length, zrange_length. lia. Qed.
Definition plane v k := flat_map (fun j => map (fun i => U i j k v) (zrange (gw g) (gw g + nx g))) (zrange (gw g) (gw g + ny g)).
Lemma plane_length v k : Z.of_nat (List.length (plane v k)) = nx g * ny g.
Proof.
  unfold plane. rewrite (flat_map_length_const _ _ (Z.to_nat (nx g))); [rewrite zrange_length; nia|].
  intros j _. pose proof (row_length v j k). lia.
Qed.
Lemma binary_values_eq v : binary_values b3 g U v = if b3 then flat_map (plane v) (zrange (gw g) (gw g + nz g)) else plane v 0.
Proof. unfold binary_values. destruct bounds as (-> & -> & -> & -> & -> & ->). reflexivity. Qed.

Lemma binary_length v : Z.of_nat (List.length (binary_values b3 g U v)) = nx g * ny g * nzf.
Proof.
  rewrite binary_values_eq. unfold layers. destruct b3; [|rewrite plane_length; ring].
  rewrite (flat_map_length_const _ _ (Z.to_nat (nx g * ny g))); [rewrite zrange_length; specialize (Hz eq_refl); nia|].
  intros k _. pose proof (plane_length v k). lia.
Qed.

Lemma plane_at v i j k : 0 <= i < nx g -> 0 <= j < ny g -> at_ (plane v k) (i + nx g * j) = Some (U (gw g + i) (gw g + j) k v).
Proof.
  intros Hi Hj. unfold plane. replace (i + nx g * j) with (j * nx g + i) by ring.
  rewrite (at_flat _ _ (nx g) j i (gw g + j)); try lia.
  - rewrite at_map, at_zrange by lia. reflexivity.
  - intros y _. apply row_length.
  - apply at_zrange. lia.
Qed.

Lemma binary_at v i j k : 0 <= i < nx g -> 0 <= j < ny g -> 0 <= k < nzf ->
  at_ (binary_values b3 g U v) (i + nx g * (j + ny g * k)) = Some (U (gw g + i) (gw g + j) (if b3 then gw g + k else 0) v).
Proof.
  intros Hi Hj Hk. rewrite binary_values_eq. unfold layers in Hk. destruct b3.
  - replace (i + nx g * (j + ny g * k)) with (k * (nx g * ny g) + (i + nx g * j)) by ring.
    rewrite (at_flat _ _ (nx g * ny g) k (i + nx g * j) (gw g + k)).
    + apply plane_at; auto.
    + intros y _. apply plane_length.
    + lia.
    + nia.
    + apply at_zrange. lia.
  - replace k with 0 by lia. rewrite Z.mul_0_r, Z.add_0_r. apply plane_at; auto.
Qed.

(** The ASCII loop gives the same list. *)
Lemma flat_map_app' {A B} (f : A -> list B) l1 l2 : flat_map f (l1 ++ l2) = flat_map f l1 ++ flat_map f l2.
Proof. induction l1; cbn; [reflexivity|]. rewrite IHl1, app_assoc. reflexivity. Qed.
Lemma flat_map_ext_in {A B} (f h : A -> list B) l : (forall x, In x l -> f x = h x) -> flat_map f l = flat_map h l.
Proof. induction l; intros H; cbn; [reflexivity|]. rewrite H, IHl; auto; [intros; apply H; right|left]; auto. Qed.
Lemma flat_map_nil {A B} (f : A -> list B) l : (forall x, In x l -> f x = []) -> flat_map f l = [].
Proof. induction l; intros H; cbn; [reflexivity|]. rewrite H, IHl; auto; [intros; apply H; right|left]; auto. Qed.
Lemma flat_map_flat_map {A B C} (f : B -> list C) (h : A -> list B) l : flat_map f (flat_map h l) = flat_map (fun x => flat_map f (h x)) l.
Proof. induction l; cbn; [reflexivity|]. rewrite flat_map_app', IHl. reflexivity. Qed.
Lemma flat_map_map {A B C} (f : B -> list C) (h : A -> B) l : flat_map f (map h l) = flat_map (fun x => f (h x)) l.
Proof. induction l; cbn; [reflexivity|]. rewrite IHl. reflexivity. Qed.
Lemma flat_map_single {A B} (h : A -> B) l : flat_map (fun x => [h x]) l = map h l.
Proof. induction l; cbn; [reflexivity|]. rewrite IHl. reflexivity. Qed.

Lemma zrange_app a m b : a <= m <= b -> zrange a b = zrange a m ++ zrange m b.
Proof.
  intros H. replace m with (a + Z.of_nat (Z.to_nat (m - a))) in * by lia. set (n := Z.to_nat (m - a)) in *. clearbody n.
  revert a H. induction n as [|n IH]; intros a H.
  - rewrite (zrange_nil a (a + Z.of_nat 0)) by lia. cbn [app]. f_equal. lia.
  - rewrite (zrange_cons a b) by lia. rewrite (zrange_cons a (a + _)) by lia. cbn [app]. f_equal.
    replace (a + Z.of_nat (S n)) with (a + 1 + Z.of_nat n) by lia. apply IH. lia.
Qed.
Lemma zrange_shift a b t : zrange (a + t) (b + t) = map (fun i => i + t) (zrange a b).
Proof. unfold zrange. rewrite map_map. replace (b + t - (a + t)) with (b - a) by lia. apply map_ext. intros. lia. Qed.
Lemma zrange_prod n m : 0 <= n -> 0 <= m -> zrange 0 (n * m) = flat_map (fun j => map (fun i => i + j * n) (zrange 0 n)) (zrange 0 m).
Proof.
  intros Hn Hm. pattern m. apply natlike_ind; auto.
  - rewrite Z.mul_0_r. reflexivity.
  - intros x Hx0 IH. rewrite (zrange_snoc 0 (Z.succ x)) by lia. rewrite flat_map_app'. cbn [flat_map].
    replace (Z.succ x - 1) with x by lia. rewrite <- IH, app_nil_r, <- zrange_shift.
    rewrite (zrange_app 0 (n * x)) by nia. f_equal. f_equal; ring.
Qed.

(** A loop with a test keeps the part of the range where the test holds. *)
Lemma guard_range {A} (f : Z -> list A) (p : Z -> bool) lo hi n : 0 <= lo -> hi <= n -> lo <= hi ->
  (forall i, 0 <= i < n -> p i = ((lo <=? i) && (i <? hi))%bool) ->
  flat_map (fun i => if p i then f i else []) (zrange 0 n) = flat_map f (zrange lo hi).
Proof.
  intros H0 H1 H2 Hp. rewrite (zrange_app 0 lo n) by lia. rewrite (zrange_app lo hi n) by lia. rewrite !flat_map_app'.
  rewrite (flat_map_nil _ (zrange 0 lo)), (flat_map_nil _ (zrange hi n)).
  - cbn [app]. rewrite app_nil_r. apply flat_map_ext_in. intros x Hx'. apply In_zrange in Hx'. rewrite Hp by lia.
    rewrite (proj2 (Z.leb_le _ _)), (proj2 (Z.ltb_lt _ _)) by lia. reflexivity.
  - intros x Hx'. apply In_zrange in Hx'. rewrite Hp by lia. rewrite (proj2 (Z.ltb_ge x hi)) by lia. rewrite andb_false_r. reflexivity.
  - intros x Hx'. apply In_zrange in Hx'. rewrite Hp by lia. rewrite (proj2 (Z.leb_gt lo x)) by lia. reflexivity.
Qed.

Lemma lebs a b x : (a <=? x) && (x <=? b) = (a <=? x) && (x <? b + 1).
Proof. f_equal. destruct (Z.leb_spec x b), (Z.ltb_spec x (b + 1)); try reflexivity; lia. Qed.

Lemma flat_if {A B} (c : bool) (f : A -> list B) l : flat_map (fun x => if c then f x else []) l = if c then flat_map f l else [].
Proof. destruct c; [reflexivity|]. apply flat_map_nil. reflexivity. Qed.

Lemma ascii_binary v : ascii_values b3 g U v = binary_values b3 g U v.
Proof.
  rewrite binary_values_eq. unfold ascii_values. destruct bounds as (B1 & B2 & B3 & B4 & B5 & B6).
  assert (Si : isize g = nx g + 2 * gw g) by (unfold isize, imax, imin; lia).
  assert (Sj : jsize g = ny g + 2 * gw g) by (unfold jsize, jmax, jmin; lia).
  assert (Sk : ksize g = nz g + 2 * gw g) by (unfold ksize, kmax, kmin; lia).
  assert (D : forall i j n, 0 <= i < n -> (i + j * n) / n = j)
    by (intros i j n Hi; rewrite Z.div_add by lia; rewrite Z.div_small by lia; lia).
  destruct b3.
  - specialize (Hz eq_refl). rewrite (zrange_prod (isize g * jsize g)) by nia.
    rewrite flat_map_flat_map. unfold plane.
    rewrite <- (guard_range (fun k => flat_map (fun j => map (fun i => U i j k v) (zrange (gw g) (gw g + nx g))) (zrange (gw g) (gw g + ny g)))
      (fun k => (kmin g + gw g <=? k) && (k <=? kmax g - gw g)) (gw g) (gw g + nz g) (ksize g)); try lia.
    apply flat_map_ext_in. intros k Hk. apply In_zrange in Hk.
    rewrite flat_map_map, (zrange_prod (isize g)) by lia. rewrite flat_map_flat_map.
    destruct ((kmin g + gw g <=? k) && (k <=? kmax g - gw g)) eqn:Ek.
    + rewrite <- (guard_range (fun j => map (fun i => U i j k v) (zrange (gw g) (gw g + nx g)))
        (fun j => (jmin g + gw g <=? j) && (j <=? jmax g - gw g)) (gw g) (gw g + ny g) (jsize g)); try lia.
      apply flat_map_ext_in. intros j Hj. apply In_zrange in Hj. rewrite flat_map_map.
      rewrite <- flat_map_single.
      transitivity (flat_map (fun i => if (imin g + gw g <=? i) && (i <=? imax g - gw g) then
         (if (jmin g + gw g <=? j) && (j <=? jmax g - gw g) then [U i j k v] else []) else []) (zrange 0 (isize g))).
      * apply flat_map_ext_in. intros i Hi. apply In_zrange in Hi.
        assert (E1 : 0 <= i + j * isize g < isize g * jsize g) by nia.
        rewrite (D _ k _ E1). replace (i + j * isize g + k * (isize g * jsize g) - k * (isize g * jsize g)) with (i + j * isize g) by ring.
        rewrite (D _ j _ Hi). replace (i + j * isize g + k * (isize g * jsize g) - j * isize g - k * (isize g * jsize g)) with i by ring.
        rewrite Ek. rewrite andb_true_l. destruct ((jmin g + gw g <=? j) && (j <=? jmax g - gw g)); cbn [andb]; [reflexivity|destruct ((imin g + gw g <=? i) && (i <=? imax g - gw g)); reflexivity].
      * rewrite (guard_range (fun i => if (jmin g + gw g <=? j) && (j <=? jmax g - gw g) then [U i j k v] else [])
          (fun i => (imin g + gw g <=? i) && (i <=? imax g - gw g)) (gw g) (gw g + nx g) (isize g)); try lia.
        apply flat_if.
    + apply flat_map_nil. intros j Hj. apply In_zrange in Hj. rewrite flat_map_map. apply flat_map_nil. intros i Hi. apply In_zrange in Hi.
      assert (E1 : 0 <= i + j * isize g < isize g * jsize g) by nia. rewrite (D _ k _ E1). rewrite Ek. reflexivity.
  - rewrite (zrange_prod (isize g)) by lia. rewrite flat_map_flat_map. unfold plane.
    rewrite <- (guard_range (fun j => map (fun i => U i j 0 v) (zrange (gw g) (gw g + nx g)))
        (fun j => (jmin g + gw g <=? j) && (j <=? jmax g - gw g)) (gw g) (gw g + ny g) (jsize g)); try lia.
    apply flat_map_ext_in. intros j Hj. apply In_zrange in Hj. rewrite flat_map_map. rewrite <- flat_map_single.
    transitivity (flat_map (fun i => if (imin g + gw g <=? i) && (i <=? imax g - gw g) then
         (if (jmin g + gw g <=? j) && (j <=? jmax g - gw g) then [U i j 0 v] else []) else []) (zrange 0 (isize g))).
    + apply flat_map_ext_in. intros i Hi. apply In_zrange in Hi.
      rewrite (D _ j _ Hi). replace (i + j * isize g - j * isize g) with i by ring.
      destruct ((jmin g + gw g <=? j) && (j <=? jmax g - gw g)); cbn [andb]; [reflexivity|destruct ((imin g + gw g <=? i) && (i <=? imax g - gw g)); reflexivity].
    + rewrite (guard_range (fun i => if (jmin g + gw g <=? j) && (j <=? jmax g - gw g) then [U i j 0 v] else [])
          (fun i => (imin g + gw g <=? i) && (i <=? imax g - gw g)) (gw g) (gw g + nx g) (isize g)); try lia.
      apply flat_if.
Qed.

(** ** Bytes *)
Variable byte : Type.
Variable s : Z.
Variable enc : T -> list byte.
Variable enc64 : Z -> list byte.
Hypothesis Hs : 0 < s.
Hypothesis enc_size : forall x, Z.of_nat (List.length (enc x)) = s.
Hypothesis enc64_size : forall n, Z.of_nat (List.length (enc64 n)) = 8.

Lemma imul_some a b x : imul (Some a) (Some b) = Some x -> x = a * b.
Proof. cbn. destruct (_ && _); [|discriminate]. intros H. injection H as <-. reflexivity. Qed.
Lemma imul_ok a b : 0 <= a * b <= int_max -> imul (Some a) (Some b) = Some (a * b).
Proof. intros H. cbn. rewrite (proj2 (Z.leb_le _ _)), (proj2 (Z.leb_le _ _)) by (unfold int_max in *; lia). reflexivity. Qed.

Lemma imul_inv a b x : imul a b = Some x -> exists y z, a = Some y /\ b = Some z /\ x = y * z.
Proof. destruct a, b; try discriminate. intros H. apply imul_some in H. eauto. Qed.

Lemma offset_value v o : offset_of b3 g s v = Some o -> o = v * (8 + nx g * ny g * nzf * s).
Proof.
  unfold offset_of, layers. destruct b3.
  - destruct (imul (imul (imul _ _) _) _) as [n|] eqn:E; [|discriminate]. intros H. injection H as <-.
    apply imul_inv in E. destruct E as (y & z & E & Ez & ->). injection Ez as <-.
    apply imul_inv in E. destruct E as (y' & z & E & Ez & ->). injection Ez as <-. apply imul_some in E. subst. ring.
  - destruct (imul (imul _ _) _) as [n|] eqn:E; [|discriminate]. intros H. injection H as <-.
    apply imul_inv in E. destruct E as (y' & z & E & Ez & ->). injection Ez as <-. apply imul_some in E. subst. ring.
Qed.
Lemma nzf_pos : 0 < nzf.
Proof. unfold layers. destruct b3; auto. lia. Qed.
Lemma offset_defined v : 0 <= v -> v * (nx g * ny g * nzf) <= int_max -> offset_of b3 g s v = Some (v * (8 + nx g * ny g * nzf * s)).
Proof.
  intros Hv H. pose proof nzf_pos as P. unfold offset_of.
  assert (A : 0 <= v * nx g <= int_max) by (split; [nia|]; assert (1 <= ny g * nzf) by nia; nia).
  assert (B : 0 <= v * nx g * ny g <= int_max) by (split; [nia|]; assert (1 <= nzf) by lia; nia).
  rewrite (imul_ok v) by assumption. rewrite (imul_ok (v * nx g)) by assumption.
  unfold layers in *. destruct b3; [rewrite imul_ok by nia|]; f_equal; ring.
Qed.
Lemma words_value n : nbOfWords b3 g s = Some n -> n = nx g * ny g * nzf * s.
Proof.
  unfold nbOfWords, layers. destruct b3.
  - destruct (imul (imul _ _) _) as [m|] eqn:E; [|discriminate]. intros H. injection H as <-.
    apply imul_inv in E. destruct E as (y' & z & E & Ez & ->). injection Ez as <-. apply imul_some in E. subst. ring.
  - destruct (imul _ _) as [m|] eqn:E; [|discriminate]. intros H. injection H as <-. apply imul_some in E. subst. ring.
Qed.
Lemma words_defined : nx g * ny g * nzf <= int_max -> nbOfWords b3 g s = Some (nx g * ny g * nzf * s).
Proof.
  intros H. pose proof nzf_pos as P. unfold nbOfWords.
  assert (B : 0 <= nx g * ny g <= int_max) by (split; [nia|]; nia). rewrite imul_ok by assumption.
  unfold layers in *. destruct b3; [rewrite imul_ok by nia|]; f_equal; ring.
Qed.

Lemma block_length v n : Z.of_nat (List.length (enc64 n ++ flat_map enc (binary_values b3 g U v))) = 8 + nx g * ny g * nzf * s.
Proof.
  rewrite app_length, (flat_map_length_const _ _ (Z.to_nat s)) by (intros x _; pose proof (enc_size x); lia).
  pose proof (enc64_size n). pose proof (binary_length v). nia.
Qed.

(** The appended data: block [v] starts at [v (8 + n s)] and holds the size and the values. *)
Lemma appended_block data v r : appended_data b3 g U byte s enc enc64 = Some data -> 0 <= v < nbvar g ->
  0 <= r < 8 + nx g * ny g * nzf * s ->
  at_ data (v * (8 + nx g * ny g * nzf * s) + r) = at_ (enc64 (nx g * ny g * nzf * s) ++ flat_map enc (binary_values b3 g U v)) r.
Proof.
  unfold appended_data. destruct (nbOfWords b3 g s) as [n|] eqn:E; [|discriminate]. apply words_value in E. subst n.
  intros H Hv Hr. injection H as <-.
  apply (at_flat (fun iVar => enc64 _ ++ flat_map enc (binary_values b3 g U iVar))); try lia.
  - intros y _. apply block_length.
  - apply at_zrange. lia.
Qed.
Lemma appended_length data : appended_data b3 g U byte s enc enc64 = Some data -> 0 <= nbvar g ->
  Z.of_nat (List.length data) = nbvar g * (8 + nx g * ny g * nzf * s).
Proof.
  unfold appended_data. destruct (nbOfWords b3 g s) as [n|] eqn:E; [|discriminate]. intros H Hv. injection H as <-.
  pose proof (block_length 0 n) as L0.
  rewrite (flat_map_length_const _ _ (Z.to_nat (8 + nx g * ny g * nzf * s))); [rewrite zrange_length; nia|].
  intros x _. pose proof (block_length x n). lia.
Qed.

Lemma value_bytes v i j k b : 0 <= i < nx g -> 0 <= j < ny g -> 0 <= k < nzf -> 0 <= b < s ->
  at_ (enc64 (nx g * ny g * nzf * s) ++ flat_map enc (binary_values b3 g U v)) (8 + (s * (i + nx g * (j + ny g * k)) + b))
  = at_ (enc (U (gw g + i) (gw g + j) (if b3 then gw g + k else 0) v)) b.
Proof.
  intros Hi Hj Hk Hb. rewrite <- (enc64_size (nx g * ny g * nzf * s)).
  assert (0 <= i + nx g * (j + ny g * k)) by nia.
  rewrite at_app_r by nia. rewrite (Z.mul_comm s). apply at_flat; auto. apply binary_at; auto.
Qed.
Lemma header_bytes v b : 0 <= b < 8 ->
  at_ (enc64 (nx g * ny g * nzf * s) ++ flat_map enc (binary_values b3 g U v)) b = at_ (enc64 (nx g * ny g * nzf * s)) b.
Proof. intros Hb. apply at_app_l. rewrite enc64_size. lia. Qed.
End Vtk.
