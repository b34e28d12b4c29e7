From Coq Require Import ZArith Reals Lia Lra.
From Verif Require Import Arith GridModel MpiModel MpiSpec GeomModel.
Open Scope Z_scope.

Lemma same_size {T} {A : Arith T} (xmin xmax : T) n m : dx_mpi xmin xmax n m = dx_serial xmin xmax (n * m).
Proof. reflexivity. Qed.
Lemma same_centre {T} {A : Arith T} (xmin dx : T) w n pos i N :
  centre xmin dx w n pos i = centre xmin dx w N 0 (pos * n + i).
Proof. unfold centre. do 4 f_equal. lia. Qed.
Lemma same_sdm {T} {A : Arith T} (xmin dx : T) w n pos i N pt :
  sdm_position xmin dx w n pos i pt = sdm_position xmin dx w N 0 (pos * n + i) pt.
Proof. unfold sdm_position. do 4 f_equal. lia. Qed.

Open Scope R_scope.
Lemma centre_mid xmin xmax n m w pos i : (0 < n)%Z -> (0 < m)%Z ->
  let I := (pos * n + i - w)%Z in let N := (n * m)%Z in
  centre xmin (dx_mpi xmin xmax n m) w n pos i = (left_edge xmin xmax N I + left_edge xmin xmax N (I + 1)) / 2.
Proof.
  intros Hn Hm I N. unfold centre, dx_mpi, left_edge. cbn [add sub mul div two lit RArith].
  assert (HN : 0 < IZR N) by (apply IZR_lt; unfold N; nia). fold N.
  replace (i + n * pos - w)%Z with I by (unfold I; lia). rewrite plus_IZR. field. lra.
Qed.
Lemma sdm_in_cell xmin xmax n m w pos i pt : (0 < n)%Z -> (0 < m)%Z ->
  let I := (pos * n + i - w)%Z in let N := (n * m)%Z in
  let x := sdm_position xmin (dx_mpi xmin xmax n m) w n pos i pt in
  x = left_edge xmin xmax N I + pt * (left_edge xmin xmax N (I + 1) - left_edge xmin xmax N I).
Proof.
  intros Hn Hm I N x. unfold x, sdm_position, dx_mpi, left_edge. cbn [add sub mul div two lit RArith].
  assert (HN : 0 < IZR N) by (apply IZR_lt; unfold N; nia). fold N.
  replace (i + n * pos - w)%Z with I by (unfold I; lia). rewrite plus_IZR. field. lra.
Qed.
