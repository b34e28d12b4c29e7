(** C77: the disk with a softened source is not in balance. *)
From Coq Require Import List Bool Reals Lra ZArith Lia.
From Coquelicot Require Import Coquelicot.
From Verif Require Import Arith HydroState Physics MhdInit HydroInit HydroInitSpec HydroInitProofs FlowSpec FlowExact FlowProblems FlowDisk FlowSoft.
Import ListNotations.
Local Open Scope R_scope.

(** Finding: with a softening length the rotation of the 2D disk does not balance
    pressure and gravity, at any point of the positive x axis within the inner radius. *)
Theorem C77_disk_softened_refuted : forall gam q so t x z a,
  dk_xc q = 0 /\ dk_yc q = 0 -> ps_x so = 0 /\ ps_y so = 0 /\ ps_z so = 0 -> ps_eps so <> 0 ->
  0 < x < dk_radius q -> x < dk_radius_inner q ->
  / 1000000 < dk_rho q so (dk_pos false q (Point x 0 z)) -> 0 < dk_omega2 q so (dk_pos false q (Point x 0 z)) ->
  prescribed_gravity false (HDisk q so) (Point x 0 z) a ->
  ~ solves gam a (fun _ x y z => disk_gas false q so (Point x y z)) t x 0 z.
Proof. intros. apply soft_unbalanced; auto; lra. Qed.
Print Assumptions C77_disk_softened_refuted.

(** Radius 5, inner radius 4, softening length 4; the point (3, 0). *)
Example C77_disk_softened_case :
  let q := Disk 5 4 0 0 0 1 100 1 1 in let so := Source 0 0 0 125 4 in
  / 1000000 < dk_rho q so (dk_pos false q (Point 3 0 0)) /\ 0 < dk_omega2 q so (dk_pos false q (Point 3 0 0)).
Proof.
  intros q so.
  assert (R3 : radius 3 0 = 3) by (unfold radius; rewrite Rmult_0_l, Rplus_0_r; apply sqrt_square; lra).
  assert (S5 : sft so 3 0 = 5).
  { unfold sft. cbn [so ps_eps]. replace (3 * 3 + 0 * 0 + 4 * 4) with (5 * 5) by ring. apply sqrt_square. lra. }
  split.
  - rewrite raw_rho; cbn [q dk_xc dk_yc dk_radius dk_radius_inner]; try lra.
    unfold rho_s. rewrite S5. cbn [q dk_density dk_radius]. replace (5 / 5) with 1 by field.
    rewrite ln_1, Rmult_0_r, exp_0. eapply Rlt_le_trans; [|apply Rmax_l]. lra.
  - rewrite raw_om; cbn [q dk_xc dk_yc dk_radius_inner]; try lra.
    unfold om_s. rewrite S5. unfold cin. cbn [q so ps_GM dk_sound dk_radius dk_radius_inner].
    assert (W : sqrt (4 / 5) * sqrt (4 / 5) = 4 / 5) by (apply sqrt_sqrt; lra).
    assert (P : 0 < sqrt (4 / 5)) by (apply sqrt_lt_R0; lra).
    replace (1 / sqrt (4 / 5) / 5 * (1 / sqrt (4 / 5) / 5)) with (/ (25 * (sqrt (4 / 5) * sqrt (4 / 5)))) by (field; lra).
    rewrite W. lra.
Qed.
