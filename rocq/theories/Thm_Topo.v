(** C93: the start of a distributed run. *)
From Coq Require Import ZArith List Bool Lia.
From Verif Require Import MpiModel TopoModel.
Import ListNotations.
Open Scope Z_scope.

(** The places of the grid of processes: one layer in 2D. *)
Definition in_grid (three_d : bool) (tp : topo) (c : Z * Z * Z) : Prop :=
  let '(x, y, z) := c in 0 <= x < mx tp /\ 0 <= y < my tp /\ 0 <= z < (if three_d then mz tp else 1).
(** All processes of the run get past the creation of the communicator. *)
Definition starts (three_d : bool) (tp : topo) (nProcs : Z) : Prop :=
  forall r, 0 <= r < nProcs -> exists c, place three_d tp nProcs r = Some c.
(** The grid has as many places as there are processes. *)
Definition matches (three_d : bool) (tp : topo) (nProcs : Z) : Prop :=
  1 <= mx tp /\ 1 <= my tp /\ (three_d = true -> 1 <= mz tp) /\
  nProcs = mx tp * my tp * (if three_d then mz tp else 1).

Lemma create_pos b3 tp n : cart_create (cart_dims b3 tp) n = true <->
  1 <= mx tp /\ 1 <= my tp /\ (b3 = true -> 1 <= mz tp) /\ mx tp * my tp * (if b3 then mz tp else 1) <= n.
Proof.
  unfold cart_create, cart_dims, product. destruct b3; cbn [forallb fold_right]; rewrite !andb_true_iff, !Z.leb_le.
  - split; [intros ((A & B & C & _) & D)|intros (A & B & C & D)]; repeat split; auto; try lia; try (rewrite Z.mul_1_r, Z.mul_assoc in *; lia).
  - split; [intros ((A & B & _) & D)|intros (A & B & C & D)]; repeat split; auto; try lia; try discriminate.
Qed.
Lemma place_eq b3 tp n r : 1 <= mx tp -> 1 <= my tp -> (b3 = true -> 1 <= mz tp) ->
  let m := if b3 then mz tp else 1 in mx tp * my tp * m <= n -> 0 <= r ->
  place b3 tp n r = if r <? mx tp * my tp * m
    then Some ((r / (my tp * m)) mod mx tp, (r / m) mod my tp, if b3 then r mod m else 0) else None.
Proof.
  intros X Y Z m L R. unfold place. cbv zeta. rewrite (proj2 (create_pos b3 tp n)) by auto.
  unfold m, cart_dims, product. destruct b3; cbn [fold_right cart_coords product]; unfold product; cbn [fold_right].
  - rewrite !Z.mul_1_r, Z.mul_assoc, Z.div_1_r. reflexivity.
  - rewrite !Z.mul_1_r, Z.div_1_r. reflexivity.
Qed.

(** A run gets past its start exactly if the grid matches the number of processes;
    otherwise some process stops with an MPI error. *)
Theorem C93_starts : forall three_d tp nProcs, 1 <= nProcs ->
  starts three_d tp nProcs <-> matches three_d tp nProcs.
Proof.
  intros b3 tp n Hn. split.
  - intros S. assert (C : cart_create (cart_dims b3 tp) n = true).
    { destruct (S 0) as [c E]; [lia|]. unfold place in E. destruct (cart_create _ n); [reflexivity|discriminate E]. }
    apply create_pos in C. destruct C as (X & Y & Z & L). repeat split; auto.
    destruct (Z.eq_dec n (mx tp * my tp * (if b3 then mz tp else 1))) as [E|N]; [exact E|exfalso].
    destruct (S (n - 1)) as [c E]; [lia|]. rewrite place_eq in E by (auto; lia).
    destruct (n - 1 <? _) eqn:B; [|discriminate E]. apply Z.ltb_lt in B. lia.
  - intros (X & Y & Z & E) r Hr. rewrite place_eq by (auto; lia).
    destruct (r <? _) eqn:B; [eauto|]. apply Z.ltb_ge in B. lia.
Qed.
Print Assumptions C93_starts.

(** Then every process has a place of the grid, and every place one process. *)
Theorem C93_places : forall three_d tp nProcs, matches three_d tp nProcs ->
  (forall r c, 0 <= r < nProcs -> place three_d tp nProcs r = Some c -> in_grid three_d tp c) /\
  (forall c, in_grid three_d tp c -> exists r, 0 <= r < nProcs /\ place three_d tp nProcs r = Some c /\
     forall r', 0 <= r' < nProcs -> place three_d tp nProcs r' = Some c -> r' = r).
Proof.
  intros b3 tp n (X & Y & Z & E). set (m := if b3 then mz tp else 1) in *.
  assert (M : 1 <= m) by (unfold m; destruct b3; [auto|lia]).
  assert (P : forall r, 0 <= r < n -> place b3 tp n r =
      Some ((r / (my tp * m)) mod mx tp, (r / m) mod my tp, r mod m)).
  { intros r Hr. rewrite place_eq by (auto; fold m; lia). fold m. destruct (r <? _) eqn:B; [|apply Z.ltb_ge in B; lia].
    unfold m. destruct b3; [reflexivity|]. now rewrite Z.mod_1_r. }
  split.
  - intros r c Hr Pc. rewrite P in Pc by assumption. injection Pc as <-. unfold in_grid. fold m.
    repeat split; try (apply Z.mod_pos_bound; lia).
  - intros [[x y] z] (Hx & Hy & Hz). fold m in Hz. set (r := (x * my tp + y) * m + z).
    assert (Hr : 0 <= r < n).
    { unfold r. rewrite E. assert (x * my tp + y < mx tp * my tp) by nia. assert (0 <= x * my tp + y) by nia. nia. }
    assert (D1 : r / m = x * my tp + y) by (unfold r; rewrite Z.div_add_l by lia; rewrite (Z.div_small z m) by lia; lia).
    assert (D2 : r mod m = z) by (unfold r; rewrite Z.add_comm, Z.mod_add by lia; apply Z.mod_small; lia).
    exists r. split; [exact Hr|]. split.
    + rewrite P by assumption. rewrite D2, (Z.mul_comm (my tp) m), <- Z.div_div, D1 by lia.
      rewrite Z.div_add_l by lia. rewrite (Z.div_small y) by lia. rewrite Z.add_0_r, (Z.mod_small x) by lia.
      rewrite Z.add_comm, Z.mod_add by lia. rewrite Z.mod_small by lia. reflexivity.
    + intros r' Hr' Pr. rewrite P in Pr by assumption.
      assert (Pr' := f_equal (fun o => match o with Some c => c | None => (0, 0, 0) end) Pr). cbv beta iota in Pr'.
      assert (E1 := f_equal (fun c => fst (fst c)) Pr'). assert (E2 := f_equal (fun c => snd (fst c)) Pr').
      assert (E3 := f_equal snd Pr'). cbn [fst snd] in E1, E2, E3. clear Pr Pr'.
      rewrite (Z.mul_comm (my tp) m), <- Z.div_div in E1 by lia.
      assert (Q : 0 <= r' / m) by (apply Z.div_pos; lia).
      assert (B : r' / m / my tp < mx tp).
      { apply Z.div_lt_upper_bound; [lia|]. apply Z.div_lt_upper_bound; [lia|]. rewrite E in Hr'. nia. }
      assert (B0 : 0 <= r' / m / my tp) by (apply Z.div_pos; lia).
      rewrite (Z.mod_small (r' / m / my tp)) in E1 by lia.
      pose proof (Z.div_mod r' m ltac:(lia)) as F1. pose proof (Z.div_mod (r' / m) (my tp) ltac:(lia)) as F2.
      rewrite E3 in F1. rewrite E1, E2 in F2. unfold r. rewrite F1, F2. ring.
Qed.
Print Assumptions C93_places.

(** In 3D the message tells exactly the runs whose positive grid does not match. *)
Theorem C93_message_3d : forall tp nProcs, 1 <= mx tp -> 1 <= my tp -> 1 <= mz tp -> 1 <= nProcs ->
  message tp nProcs = false <-> starts true tp nProcs.
Proof.
  intros tp n X Y Z Hn. rewrite C93_starts by assumption. unfold matches, message.
  rewrite negb_false_iff, Z.eqb_eq. intuition.
Qed.
Print Assumptions C93_message_3d.
(** Not so in 2D with more than one process along z: the message is missing where
    the run cannot start, and appears where it starts. *)
Theorem C93_message_2d_refuted : forall tp, 1 <= mx tp -> 1 <= my tp -> 2 <= mz tp ->
  (message tp (mx tp * my tp * mz tp) = false /\ ~ starts false tp (mx tp * my tp * mz tp)) /\
  (message tp (mx tp * my tp) = true /\ starts false tp (mx tp * my tp)).
Proof.
  intros tp X Y Z. assert (0 < mx tp * my tp) by nia. split; split.
  - unfold message. now rewrite Z.eqb_refl.
  - rewrite C93_starts by nia. intros (_ & _ & _ & E). nia.
  - unfold message. destruct (Z.eqb_spec (mx tp * my tp) (mx tp * my tp * mz tp)); [nia|reflexivity].
  - rewrite C93_starts by nia. unfold matches. repeat split; try lia.
Qed.
Print Assumptions C93_message_2d_refuted.

Example C93_case : matches true (Topo 2 3 4) 24 /\ place true (Topo 2 3 4) 24 23 = Some (1, 2, 3) /\
  place true (Topo 2 3 4) 24 5 = Some (0, 1, 1) /\ place true (Topo 2 3 4) 25 24 = None /\
  place false (Topo 2 3 1) 6 4 = Some (1, 1, 0) /\ place true (Topo 2 3 4) 20 0 = None.
Proof. repeat split; cbn; lia || reflexivity. Qed.

(** The places are those that the theorems on distributed runs (C12-C15) use. *)
Theorem C93_coords : forall three_d tp nProcs r, matches three_d tp nProcs -> (three_d = false -> mz tp = 1) ->
  0 <= r < nProcs -> place three_d tp nProcs r = Some (coords tp (Z.to_nat r)).
Proof.
  intros b3 tp n r (X & Y & Z & E) E2 Hr. assert (M : (if b3 then mz tp else 1) = mz tp) by (destruct b3; [reflexivity|symmetry; auto]).
  assert (M1 : 1 <= mz tp) by (destruct b3; [auto|rewrite E2; auto; lia]).
  rewrite place_eq by (auto; lia). rewrite M in *. destruct (r <? _) eqn:B; [|apply Z.ltb_ge in B; lia].
  unfold coords. rewrite Z2Nat.id by lia. rewrite (Z.mod_small (r / (my tp * mz tp))).
  - destruct b3; [reflexivity|]. rewrite E2 by reflexivity. now rewrite Z.mod_1_r.
  - split; [apply Z.div_pos; nia|]. apply Z.div_lt_upper_bound; [nia|]. rewrite E in Hr. nia.
Qed.
Print Assumptions C93_coords.
