(** The process grid: ranks and positions correspond one to one, and the
    neighbours across opposite faces are inverse to each other. *)
From Coq Require Import ZArith List Bool Lia.
From Verif Require Import GridModel MpiModel MpiSpec.
Open Scope Z_scope.

Section Topo.
Variable tp : topo.
Hypothesis Htp : topo_ok tp.

Lemma nprocs_Z : Z.of_nat (nprocs tp) = mx tp * my tp * mz tp.
Proof. destruct Htp as (H1 & H2 & H3). unfold nprocs. rewrite Z2Nat.id; nia. Qed.

Lemma coords_range r : (r < nprocs tp)%nat ->
  0 <= rx tp r < mx tp /\ 0 <= ry tp r < my tp /\ 0 <= rz tp r < mz tp.
Proof.
  intros Hr. destruct Htp as (H1 & H2 & H3). pose proof nprocs_Z as HP.
  unfold rx, ry, rz, coords. repeat split.
  - apply Z.div_pos; nia.
  - apply Z.div_lt_upper_bound; nia.
  - apply Z.mod_pos_bound; lia.
  - apply Z.mod_pos_bound; lia.
  - apply Z.mod_pos_bound; lia.
  - apply Z.mod_pos_bound; lia.
Qed.

Lemma num_range a b c X Y Z0 : 0 <= X < a -> 0 <= Y < b -> 0 <= Z0 < c ->
  0 <= (X * b + Y) * c + Z0 < a * b * c.
Proof.
  intros HX HY HZ. assert (0 <= X * b + Y) by nia. assert (X * b + Y + 1 <= a * b) by nia. nia.
Qed.

Lemma rank_of_coords r : (r < nprocs tp)%nat -> cart_rank tp (rx tp r, ry tp r, rz tp r) = r.
Proof.
  intros Hr. destruct (coords_range r Hr) as (R1 & R2 & R3). destruct Htp as (H1 & H2 & H3).
  unfold cart_rank. rewrite !Z.mod_small by assumption.
  apply Nat2Z.inj. rewrite Z2Nat.id by (pose proof (num_range _ _ _ _ _ _ R1 R2 R3); lia).
  unfold rx, ry, rz, coords in *. set (z := Z.of_nat r) in *.
  assert (E : z / (my tp * mz tp) = z / mz tp / my tp) by (rewrite Z.mul_comm, Z.div_div by lia; reflexivity).
  rewrite E. pose proof (Z.div_mod (z / mz tp) (my tp)). pose proof (Z.div_mod z (mz tp)). nia.
Qed.

Lemma cart_rank_lt x y z : (cart_rank tp (x, y, z) < nprocs tp)%nat.
Proof.
  destruct Htp as (H1 & H2 & H3). apply Nat2Z.inj_lt. rewrite nprocs_Z. unfold cart_rank.
  pose proof (Z.mod_pos_bound x (mx tp) H1). pose proof (Z.mod_pos_bound y (my tp) H2).
  pose proof (Z.mod_pos_bound z (mz tp) H3).
  match goal with |- context [Z.to_nat ?e] => assert (N : 0 <= e < mx tp * my tp * mz tp) by (apply num_range; assumption) end.
  rewrite Z2Nat.id by lia. lia.
Qed.

Lemma coords_rank x y z : let r := cart_rank tp (x, y, z) in
  rx tp r = x mod mx tp /\ ry tp r = y mod my tp /\ rz tp r = z mod mz tp.
Proof.
  destruct Htp as (H1 & H2 & H3). unfold rx, ry, rz, coords, cart_rank.
  pose proof (Z.mod_pos_bound x (mx tp) H1) as X. pose proof (Z.mod_pos_bound y (my tp) H2) as Y.
  pose proof (Z.mod_pos_bound z (mz tp) H3) as Zb. set (X0 := x mod mx tp) in *. set (Y0 := y mod my tp) in *.
  set (Z0 := z mod mz tp) in *. pose proof (num_range _ _ _ _ _ _ X Y Zb). rewrite Z2Nat.id by lia.
  assert (E1 : ((X0 * my tp + Y0) * mz tp + Z0) / mz tp = X0 * my tp + Y0)
    by (symmetry; apply Z.div_unique with Z0; nia).
  repeat split.
  - symmetry. apply Z.div_unique with (Y0 * mz tp + Z0); nia.
  - rewrite E1. symmetry. apply Z.mod_unique with X0; nia.
  - symmetry. apply Z.mod_unique with (X0 * my tp + Y0); nia.
Qed.

Lemma coords_rank_in x y z : 0 <= x < mx tp -> 0 <= y < my tp -> 0 <= z < mz tp ->
  let r := cart_rank tp (x, y, z) in rx tp r = x /\ ry tp r = y /\ rz tp r = z.
Proof.
  intros Hx Hy Hz. destruct (coords_rank x y z) as (E1 & E2 & E3). cbv zeta.
  rewrite E1, E2, E3, !Z.mod_small by assumption. auto.
Qed.

(** Coordinates along a direction. *)
Definition crd (d : direction) (r : nat) : Z := match d with XDIR => rx tp r | YDIR => ry tp r | ZDIR => rz tp r end.
Definition mdir (d : direction) : Z := match d with XDIR => mx tp | YDIR => my tp | ZDIR => mz tp end.
Definition at_pos (d : direction) (r : nat) (x : Z) : nat :=
  match d with
  | XDIR => cart_rank tp (x, ry tp r, rz tp r)
  | YDIR => cart_rank tp (rx tp r, x, rz tp r)
  | ZDIR => cart_rank tp (rx tp r, ry tp r, x)
  end.
Definition face_lo (d : direction) : face := match d with XDIR => FACE_XMIN | YDIR => FACE_YMIN | ZDIR => FACE_ZMIN end.
Definition face_hi (d : direction) : face := match d with XDIR => FACE_XMAX | YDIR => FACE_YMAX | ZDIR => FACE_ZMAX end.

Lemma neighbor_lo d r : neighbor tp (face_lo d) r = at_pos d r (crd d r - 1).
Proof. unfold neighbor, at_pos, crd, rx, ry, rz. destruct (coords tp r) as [[x y] z]. destruct d; reflexivity. Qed.
Lemma neighbor_hi d r : neighbor tp (face_hi d) r = at_pos d r (crd d r + 1).
Proof. unfold neighbor, at_pos, crd, rx, ry, rz. destruct (coords tp r) as [[x y] z]. destruct d; reflexivity. Qed.

Lemma mdir_pos d : 0 < mdir d.
Proof. destruct Htp as (? & ? & ?). destruct d; assumption. Qed.
Lemma crd_range d r : (r < nprocs tp)%nat -> 0 <= crd d r < mdir d.
Proof. intros Hr. destruct (coords_range r Hr) as (? & ? & ?). destruct d; assumption. Qed.
Lemma at_pos_lt d r x : (at_pos d r x < nprocs tp)%nat.
Proof. destruct d; apply cart_rank_lt. Qed.
Lemma at_pos_mod d r x : at_pos d r x = at_pos d r (x mod mdir d).
Proof.
  destruct Htp as (? & ? & ?).
  destruct d; unfold at_pos, mdir, cart_rank; rewrite Z.mod_mod by lia; reflexivity.
Qed.
Lemma at_pos_self d r : (r < nprocs tp)%nat -> at_pos d r (crd d r) = r.
Proof. intros Hr. destruct d; apply rank_of_coords; assumption. Qed.
Lemma crd_at_pos d r x : crd d (at_pos d r x) = x mod mdir d.
Proof. destruct d; unfold crd, at_pos, mdir; apply coords_rank. Qed.
Lemma crd_at_pos_other d e r x : d <> e -> (r < nprocs tp)%nat -> crd e (at_pos d r x) = crd e r.
Proof.
  intros Hde Hr. destruct (coords_range r Hr) as (R1 & R2 & R3).
  destruct d, e; try congruence; unfold crd, at_pos; cbn [mdir];
    match goal with |- ?c tp (cart_rank tp (?a, ?b, ?d)) = _ =>
      destruct (coords_rank a b d) as (E1 & E2 & E3) end;
    rewrite ?E1, ?E2, ?E3; apply Z.mod_small; assumption.
Qed.
Lemma at_pos_at_pos d r x y : (r < nprocs tp)%nat -> at_pos d (at_pos d r x) y = at_pos d r y.
Proof.
  intros Hr.
  assert (O : forall e, d <> e -> crd e (at_pos d r x) = crd e r) by (intros; apply crd_at_pos_other; assumption).
  destruct d; unfold at_pos at 1; cbn [at_pos];
    [pose proof (O YDIR) as O1; pose proof (O ZDIR) as O2
    |pose proof (O XDIR) as O1; pose proof (O ZDIR) as O2
    |pose proof (O XDIR) as O1; pose proof (O YDIR) as O2];
    unfold crd, at_pos in O1, O2; rewrite O1, O2 by discriminate; reflexivity.
Qed.

Lemma neighbors_inverse d r : (r < nprocs tp)%nat ->
  (neighbor tp (face_lo d) r < nprocs tp)%nat /\ (neighbor tp (face_hi d) r < nprocs tp)%nat /\
  neighbor tp (face_hi d) (neighbor tp (face_lo d) r) = r /\
  neighbor tp (face_lo d) (neighbor tp (face_hi d) r) = r.
Proof.
  intros Hr. pose proof (mdir_pos d) as Hm.
  rewrite !neighbor_lo, !neighbor_hi.
  repeat split; try apply at_pos_lt.
  - rewrite at_pos_at_pos, crd_at_pos by assumption. rewrite at_pos_mod, Zplus_mod_idemp_l.
    replace (crd d r - 1 + 1) with (crd d r) by lia. rewrite <- at_pos_mod. apply at_pos_self; assumption.
  - rewrite at_pos_at_pos, crd_at_pos by assumption. rewrite at_pos_mod, Zminus_mod_idemp_l.
    replace (crd d r + 1 - 1) with (crd d r) by lia. rewrite <- at_pos_mod. apply at_pos_self; assumption.
Qed.

Lemma neighborsBC_lo g d r : neighborsBC tp g r (face_lo d) = if crd d r =? 0 then bc g (face_lo d) else BC_COPY.
Proof. unfold neighborsBC, crd, rx, ry, rz. destruct (coords tp r) as [[x y] z]. destruct d; reflexivity. Qed.
Lemma neighborsBC_hi g d r : neighborsBC tp g r (face_hi d) = if crd d r =? mdir d - 1 then bc g (face_hi d) else BC_COPY.
Proof. unfold neighborsBC, crd, mdir, rx, ry, rz. destruct (coords tp r) as [[x y] z]. destruct d; reflexivity. Qed.
End Topo.
