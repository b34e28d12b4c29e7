(** Theorems about the MPI build (properties C08, C12-C15). *)
From Coq Require Import ZArith QArith List Bool Reals Lia Lra Permutation.
From Verif Require Import Arith Par ParProofs GridModel BoundaryModel BoundarySpec HydroState RiemannModel HydroPoint HydroKernels
  HydroSpec Physics ReduceModel DtProofs LoopModel LoopSpec LoopProofs LoopHydro Float64
  SpmdModel SpmdSpec SpmdProofs MpiModel MpiSpec MpiTopo MpiExchange MpiFill MpiRun MpiDt MpiLive
  GeomModel GeomProofs MpiFloat Thm_Riemann Thm_Symmetry.
Import ListNotations.
Open Scope Z_scope.

(** ** C08: geometry *)
(** Cell sizes, cell centres and solution points of a process are those of the
    single-process run with nx*mx cells, in any arithmetic. *)
Theorem C08_cell_size : forall (T : Type) (A : Arith T) (xmin xmax : T) n m,
  dx_mpi xmin xmax n m = dx_serial xmin xmax (n * m).
Proof. intros T A. exact same_size. Qed.
Print Assumptions C08_cell_size.
Theorem C08_centre : forall (T : Type) (A : Arith T) (xmin xmax : T) n m w pos i,
  centre xmin (dx_mpi xmin xmax n m) w n pos i = centre xmin (dx_serial xmin xmax (n * m)) w (n * m) 0 (pos * n + i).
Proof. intros T A xmin xmax n m w pos i. exact (same_centre xmin _ w n pos i (n * m)). Qed.
Print Assumptions C08_centre.
Theorem C08_sdm_point : forall (T : Type) (A : Arith T) (xmin xmax : T) n m w pos i pt,
  sdm_position xmin (dx_mpi xmin xmax n m) w n pos i pt =
  sdm_position xmin (dx_serial xmin xmax (n * m)) w (n * m) 0 (pos * n + i) pt.
Proof. intros T A xmin xmax n m w pos i pt. exact (same_sdm xmin _ w n pos i (n * m) pt). Qed.
Print Assumptions C08_sdm_point.
(** In exact arithmetic they are where they should be: cell i of the process at
    position pos is the cell number pos*n + i - w of the box. *)
Theorem C08_centre_is_midpoint : forall xmin xmax n m w pos i, 0 < n -> 0 < m ->
  let I := pos * n + i - w in let N := n * m in
  centre xmin (dx_mpi xmin xmax n m) w n pos i = ((left_edge xmin xmax N I + left_edge xmin xmax N (I + 1)) / 2)%R.
Proof. exact centre_mid. Qed.
Print Assumptions C08_centre_is_midpoint.
Theorem C08_sdm_point_in_cell : forall xmin xmax n m w pos i pt, 0 < n -> 0 < m ->
  let I := pos * n + i - w in let N := n * m in
  sdm_position xmin (dx_mpi xmin xmax n m) w n pos i pt =
  (left_edge xmin xmax N I + pt * (left_edge xmin xmax N (I + 1) - left_edge xmin xmax N I))%R.
Proof. exact sdm_in_cell. Qed.
Print Assumptions C08_sdm_point_in_cell.
(** The two-dimensional four-quadrant problem of the SDM solver evaluates its
    initial condition half a cell away from the solution points. *)
Theorem C08_four_quadrant_refuted : exists (xmin xmax : R) n m w pos i (pt : R), 0 < n /\ 0 < m /\ (0 <= pt <= 1)%R /\
  let I := pos * n + i - w in let N := n * m in
  (left_edge xmin xmax N (I + 1) < sdm_position_four_quadrant xmin (dx_mpi xmin xmax n m) w n pos i pt)%R.
Proof.
  exists 0%R, 1%R, 4, 1, 0, 0, 0, (3 / 4)%R. split; [lia|]. split; [lia|]. split; [lra|].
  unfold left_edge, sdm_position_four_quadrant, dx_mpi. cbn. lra.
Qed.
Print Assumptions C08_four_quadrant_refuted.
(** Data set by a function of the cell centre are distributed: processes hold
    the parts of the array of the single process. *)
Theorem C08_initial_data : forall (T : Type) (A : Arith T) tp g (xmin xmax ymin ymax : T) (init : T -> T -> Z -> T) a (mem : nat -> store T),
  (forall r i j v, (r < nprocs tp)%nat ->
     mem r (Loc a i j 0 v) = init (centre xmin (dx_mpi xmin xmax (nx g) (mx tp)) (gw g) (nx g) (rx tp r) i)
                                  (centre ymin (dx_mpi ymin ymax (ny g) (my tp)) (gw g) (ny g) (ry tp r) j) v) ->
  let W := whole tp g in
  parts2 tp g (fun I J v => init (centre xmin (dx_serial xmin xmax (nx W)) (gw W) (nx W) 0 I)
                                 (centre ymin (dx_serial ymin ymax (ny W)) (gw W) (ny W) 0 J) v) a mem.
Proof.
  intros T A tp g xmin xmax ymin ymax init a mem H W r i j v Hr Hi Hj Hv. rewrite (H r i j v Hr).
  rewrite (C08_centre T A xmin), (C08_centre T A ymin). reflexivity.
Qed.
Print Assumptions C08_initial_data.
Example C08_a_cell : (centre 0 (dx_mpi 0 1 4 3) 2 4 2 3 = 19 / 24)%R /\ left_edge 0 1 12 9 = (9 / 12)%R.
Proof. unfold centre, dx_mpi, left_edge. cbn. split; lra. Qed.

(** ** C12: the ghost cell exchange *)
(** Any arithmetic in which products are not changed by a multiplication by
    one: exact arithmetic and rounded arithmetic. *)
Theorem C12_exchange_2d : forall (T : Type) (A : Arith T), (forall x y : T, mul (mul x y) one = mul x y) ->
  forall tp g ly mhd a u (s : nat -> pstate T) rendezvous m c,
  topo_ok tp -> 0 < gw g -> gw g <= nx g -> gw g <= ny g -> known_codes g -> a = aU \/ a = aU2 ->
  parts2 tp g u a (fun r => p_mem (s r)) ->
  (forall i j v, inside2 (whole tp g) i j -> 0 <= v < nbvar g -> mul (u i j v) one = u i j v) ->
  let prg := make_boundaries_mpi2d tp g ly mhd (fun _ => a) in
  steps (nprocs tp) prg rendezvous m (start s) c -> completed (nprocs tp) prg c ->
  forall r i j v, (r < nprocs tp)%nat -> 0 <= i < isize g -> 0 <= j < jsize g -> 0 <= v < nbvar g ->
  p_mem (st (ranks c r)) (Loc a i j 0 v) = filled2d mhd (whole tp g) u (rx tp r * nx g + i) (ry tp r * ny g + j) v.
Proof.
  intros T A H1 tp g ly mhd a u s rv m c Htp Hw Hx Hy Hc Ha Hp Hgood prg Hst Hdone r i j v Hr Hi Hj Hv.
  destruct (spmd_result (nprocs tp) prg) with (rv := rv) (m := m) (s := s) (c := c) as (s' & L & E); auto.
  { intros o Ho. eapply boundaries2_matched; eauto. }
  { intros o Ho. eapply boundaries2_productive; eauto. }
  rewrite (E r Hr).
  assert (Hb : ~ is_buffer a) by (intros ([] & [H|H]); destruct Ha as [-> | ->]; discriminate).
  destruct (fill_mpi2 H1 tp g ly mhd Htp Hw Hx Hy Hc (fun _ => a) a u s s' Hb ltac:(reflexivity) ltac:(reflexivity) Hp Hgood L r Hr) as (_ & _ & V).
  apply V; auto; unfold isize, jsize, imax, jmax, imin, jmin in *; lia.
Qed.
Print Assumptions C12_exchange_2d.
Theorem C12_exchange_3d : forall (T : Type) (A : Arith T), (forall x y : T, mul (mul x y) one = mul x y) ->
  forall tp g ly mhd a u (s : nat -> pstate T) rendezvous m c,
  topo_ok tp -> 0 < gw g -> gw g <= nx g -> gw g <= ny g -> gw g <= nz g -> known_codes g -> a = aU \/ a = aU2 ->
  parts3 tp g u a (fun r => p_mem (s r)) ->
  (forall i j k v, inside3 (whole tp g) i j k -> 0 <= v < nbvar g -> mul (u i j k v) one = u i j k v) ->
  let prg := make_boundaries_mpi3d tp g ly mhd (fun _ => a) in
  steps (nprocs tp) prg rendezvous m (start s) c -> completed (nprocs tp) prg c ->
  forall r i j k v, (r < nprocs tp)%nat -> 0 <= i < isize g -> 0 <= j < jsize g -> 0 <= k < ksize g -> 0 <= v < nbvar g ->
  p_mem (st (ranks c r)) (Loc a i j k v) =
  filled3d mhd (whole tp g) u (rx tp r * nx g + i) (ry tp r * ny g + j) (rz tp r * nz g + k) v.
Proof.
  intros T A H1 tp g ly mhd a u s rv m c Htp Hw Hx Hy Hz Hc Ha Hp Hgood prg Hst Hdone r i j k v Hr Hi Hj Hk Hv.
  destruct (spmd_result (nprocs tp) prg) with (rv := rv) (m := m) (s := s) (c := c) as (s' & L & E); auto.
  { intros o Ho. eapply boundaries3_matched; eauto. }
  { intros o Ho. eapply boundaries3_productive; eauto. }
  rewrite (E r Hr).
  assert (Hb : ~ is_buffer a) by (intros ([] & [H|H]); destruct Ha as [-> | ->]; discriminate).
  destruct (fill_mpi3 H1 tp g ly mhd Htp Hw Hx Hy Hc (fun _ => a) a u s s' Hz Hb ltac:(reflexivity) ltac:(reflexivity) Hp Hgood L r Hr) as (_ & _ & V).
  apply V; auto; unfold isize, jsize, ksize, imax, jmax, kmax, imin, jmin, kmin in *; lia.
Qed.
Print Assumptions C12_exchange_3d.
(** A boundary code that is not one of the four types is treated as periodic by
    a single process but wraps around the part of one process in MPI runs. *)
Theorem C12_unknown_code_refuted : exists tp g ly a u (s : nat -> pstate Q) rendezvous m c,
  topo_ok tp /\ 0 < gw g /\ gw g <= nx g /\ gw g <= ny g /\ (a = aU \/ a = aU2) /\
  parts2 tp g u a (fun r => p_mem (s r)) /\
  let prg := make_boundaries_mpi2d tp g ly false (fun _ => a) in
  steps (nprocs tp) prg rendezvous m (start s) c /\ completed (nprocs tp) prg c /\
  exists r i j v, (r < nprocs tp)%nat /\ 0 <= i < isize g /\ 0 <= j < jsize g /\ 0 <= v < nbvar g /\
  p_mem (st (ranks c r)) (Loc a i j 0 v) <> filled2d false (whole tp g) u (rx tp r * nx g + i) (ry tp r * ny g + j) v.
Proof.
  assert (Htp : topo_ok (Topo 2 1 1)) by (repeat split; reflexivity).
  destruct (execution_exists 2 (make_boundaries_mpi2d (Topo 2 1 1) odd_grid LayoutLeft false (fun _ => aU)) true odd_start) as (m & c & Hst & Hd).
  { intros o Ho. eapply (boundaries2_matched (Topo 2 1 1)); eauto. }
  { intros o Ho. eapply (boundaries2_productive (Topo 2 1 1)); eauto. }
  exists (Topo 2 1 1), odd_grid, LayoutLeft, aU, odd_field, odd_start, true, m, c.
  split; [exact Htp|]. split; [reflexivity|]. split; [cbn; lia|]. split; [cbn; lia|]. split; [auto|].
  split; [intros r i j v _ _ _ _; reflexivity|]. split; [exact Hst|]. split; [exact Hd|].
  destruct (spmd_result 2 (make_boundaries_mpi2d (Topo 2 1 1) odd_grid LayoutLeft false (fun _ => aU))) with (rv := true) (m := m) (s := odd_start) (c := c) as (s' & L & E); auto.
  { intros o Ho. eapply (boundaries2_matched (Topo 2 1 1)); eauto. }
  { intros o Ho. eapply (boundaries2_productive (Topo 2 1 1)); eauto. }
  exists 0%nat, 0, 3, 0. split; [cbn; lia|]. split; [cbn; lia|]. split; [cbn; lia|]. split; [cbn; lia|].
  rewrite (E 0%nat) by lia. exact (unknown_code_any s' L).
Qed.
Print Assumptions C12_unknown_code_refuted.

Lemma R_unit : @unit_stable R RArith.
Proof. repeat split; intros x y; cbn; apply Rmult_1_r. Qed.
Lemma B64_unit : @unit_stable R B64.
Proof. repeat split; intros x y; cbn [mul add sub one B64]; rewrite Rmult_1_r; apply rnd_id, rnd_double. Qed.

(** Six processes; walls at the bottom and top, periodic in x. *)
Definition six : topo := Topo 2 3 1.
Definition six_start (r : nat) : pstate R :=
  PS (fun l => shear (Loc (la l) (rx six r * nx channel2 + li l) (ry six r * ny channel2 + lj l) (lk l) (lv l))) 0%R 0%R 0%R 0.
Example C12_hypotheses_hold : exists m c,
  let prg := make_boundaries_mpi2d (A := RArith) six channel2 LayoutRight false (fun _ => aU) in
  topo_ok six /\ 0 < gw channel2 /\ gw channel2 <= nx channel2 /\ gw channel2 <= ny channel2 /\ known_codes channel2 /\
  (forall x y : R, mul (mul x y) one = mul x y) /\ (forall x : R, mul x one = x) /\
  parts2 six channel2 (fun i j v => shear (Loc aU i j 0 v)) aU (fun r => p_mem (six_start r)) /\
  steps (nprocs six) prg false m (start six_start) c /\ completed (nprocs six) prg c.
Proof.
  assert (Htp : topo_ok six) by (repeat split; reflexivity).
  destruct (execution_exists (nprocs six) (make_boundaries_mpi2d (A := RArith) six channel2 LayoutRight false (fun _ => aU)) false six_start) as (m & c & H1 & H2).
  { intros o Ho. eapply boundaries2_matched; eauto. }
  { intros o Ho. eapply boundaries2_productive; eauto. }
  exists m, c. cbv zeta. split; [exact Htp|]. split; [reflexivity|]. split; [cbn; lia|]. split; [cbn; lia|].
  split; [intros f; destruct f; cbn; auto|]. split; [apply R_unit|]. split; [intros x; apply Rmult_1_r|].
  split; [intros r i j v _ _ _ _; reflexivity|]. auto.
Qed.

(** ** C13: no deadlock, no mixed-up messages *)
(** Every execution is finite, an unfinished execution can always be continued
    (even if no message is ever buffered), and the results of any execution are
    those of the synchronous execution in which each receive gets the message
    that was sent for it.  For one exchange and for a run of n iterations. *)
Section C13.
Context {T : Type} {A : Arith T}.
Definition reliable (tp : topo) (prg : list (op (pstate T) (msg T))) : Prop :=
  forall rendezvous m s c, steps (nprocs tp) prg rendezvous m (start s) c ->
    (m <= nprocs tp * (4 * length prg + 2) + length prg)%nat /\
    (completed (nprocs tp) prg c \/ exists c', step (nprocs tp) prg true c c') /\
    (completed (nprocs tp) prg c -> exists s', lockstep (nprocs tp) prg s s' /\
       forall r, (r < nprocs tp)%nat -> st (ranks c r) = s' r).
Lemma reliable_any tp prg : (forall o, In o prg -> matched (nprocs tp) o) -> (forall o, In o prg -> productive (nprocs tp) o) -> reliable tp prg.
Proof.
  intros Hm Hp rv m s c Hst. split; [eapply spmd_bound; eauto|]. split; [eapply spmd_progress; eauto|].
  intros Hc. eapply spmd_result; eauto.
Qed.
End C13.
Theorem C13_exchange : forall (T : Type) (A : Arith T) tp g ly mhd (cur : pstate T -> Z), topo_ok tp ->
  reliable tp (make_boundaries_mpi2d tp g ly mhd cur) /\ reliable tp (make_boundaries_mpi3d tp g ly mhd cur).
Proof.
  intros T A tp g ly mhd cur Htp. split; apply reliable_any; intros o Ho.
  - eapply boundaries2_matched; eauto. - eapply boundaries2_productive; eauto.
  - eapply boundaries3_matched; eauto. - eapply boundaries3_productive; eauto.
Qed.
Print Assumptions C13_exchange.
Theorem C13_iterations : forall (T : Type) (A : Arith T) tp g ly lowest (p : hparams T) ge impl c d3 n, topo_ok tp ->
  reliable tp (iterations_mpi tp g ly lowest p ge impl c d3 n).
Proof.
  intros T A tp g ly lowest p ge impl c d3 n Htp. apply reliable_any; intros o Ho.
  - eapply iterations_matched; eauto. - eapply iterations_productive; eauto.
Qed.
Print Assumptions C13_iterations.
(** Neighbours are mutual, also with one or two processes in a direction. *)
Theorem C13_neighbours_mutual : forall tp r, topo_ok tp -> (r < nprocs tp)%nat ->
  forall f f', In (f, f') [(FACE_XMIN, FACE_XMAX); (FACE_XMAX, FACE_XMIN); (FACE_YMIN, FACE_YMAX);
                           (FACE_YMAX, FACE_YMIN); (FACE_ZMIN, FACE_ZMAX); (FACE_ZMAX, FACE_ZMIN)] ->
  (neighbor tp f r < nprocs tp)%nat /\ neighbor tp f' (neighbor tp f r) = r.
Proof.
  intros tp r Htp Hr f f' H.
  destruct (neighbors_inverse tp Htp XDIR r Hr) as (X1 & X2 & X3 & X4).
  destruct (neighbors_inverse tp Htp YDIR r Hr) as (Y1 & Y2 & Y3 & Y4).
  destruct (neighbors_inverse tp Htp ZDIR r Hr) as (Z1 & Z2 & Z3 & Z4).
  cbn [face_lo face_hi] in *.
  repeat match goal with H : In _ _ |- _ => destruct H as [H|H]; [inversion H; subst; auto|] end. destruct H.
Qed.
Print Assumptions C13_neighbours_mutual.
Example C13_two_processes : neighbor (Topo 2 1 1) FACE_XMIN 0 = 1%nat /\ neighbor (Topo 2 1 1) FACE_XMAX 0 = 1%nat /\
  neighbor (Topo 2 1 1) FACE_YMIN 0 = 0%nat /\ neighbor (Topo 3 2 1) FACE_XMAX 5 = 1%nat.
Proof. repeat split. Qed.
Example C13_hypotheses_hold : exists m c,
  let prg := iterations_mpi six channel2 LayoutRight (-1000)%R (gas RIEMANN_HLLC) false 0 (LConf 1%R 100 0 1) false 3 in
  steps (nprocs six) prg true m (start six_start) c /\ completed (nprocs six) prg c.
Proof.
  assert (Htp : topo_ok six) by (repeat split; reflexivity). apply execution_exists.
  - intros o Ho. eapply iterations_matched; eauto. - intros o Ho. eapply iterations_productive; eauto.
Qed.

(** ** C14: the time step *)
(** Exact arithmetic or double precision: all processes get the same time step,
    the smallest of the local ones, shortened at the end time. *)
Definition exact_or_double (A : Arith R) : Prop := A = RArith \/ A = B64.
Lemma eod_lt A : exact_or_double A -> forall x y, @ltb R A x y = true <-> (x < y)%R.
Proof. intros [-> | ->] x y; cbn; destruct (Rlt_dec x y); split; auto; discriminate. Qed.
Lemma eod_max A : exact_or_double A -> forall x y, @maxv R A x y = Rmax x y.
Proof. intros [-> | ->] x y; reflexivity. Qed.
Lemma eod_unit A : exact_or_double A -> @unit_stable R A.
Proof. intros [-> | ->]; [apply R_unit|apply B64_unit]. Qed.
Lemma eod_div A (k : R) : exact_or_double A -> (0 <= k)%R -> forall x y, (0 < x < y)%R -> (@div R A k y <= @div R A k x)%R.
Proof.
  intros HA Hk x y [H1 H2]. assert (Q : (k / y <= k / x)%R).
  { apply Rmult_le_compat_l; [exact Hk|]. apply Rinv_le_contravar; lra. }
  destruct HA as [-> | ->]; cbn [div RArith B64]; [exact Q|apply rnd_le; exact Q].
Qed.

Theorem C14_global_dt : forall A, exact_or_double A -> forall tp g lowest (p : hparams R) ge (c : lconf R) d3 (s : nat -> pstate R) rendezvous m z,
  topo_ok tp ->
  let prg := compute_dt_mpi g lowest p ge c d3 in
  steps (nprocs tp) prg rendezvous m (start s) z -> completed (nprocs tp) prg z ->
  exists (local : nat -> R) d,
    (forall r, (r < nprocs tp)%nat ->
       if d3 then compute_dt_local3 p g lowest ge (p_mem (s r)) (current (p_it (s r))) (local r)
       else compute_dt_local2 p g lowest ge (p_mem (s r)) (current (p_it (s r))) (local r)) /\
    (forall r, (r < nprocs tp)%nat -> d <= local r)%R /\ (exists r, (r < nprocs tp)%nat /\ d = local r) /\
    forall r, (r < nprocs tp)%nat -> p_dt (st (ranks z r)) = shortened (l_tEnd c) (p_t (s r)) d /\
      p_mem (st (ranks z r)) = p_mem (s r) /\ p_t (st (ranks z r)) = p_t (s r).
Proof.
  intros A HA tp g lowest p ge c d3 s rv m z Htp prg Hst Hd.
  destruct (spmd_result (nprocs tp) prg) with (rv := rv) (m := m) (s := s) (c := z) as (s' & L & E); auto.
  { intros o Ho. eapply dt_matched; eauto. } { intros o Ho. eapply dt_productive; eauto. }
  apply lock_dt in L; [|exact Htp]. destruct L as (dl & d & L1 & (l & L2 & L3) & L4).
  destruct (combined_min (eod_lt A HA) l d L3) as [I1 I2].
  exists dl, d. split; [exact L1|]. split; [|split].
  - intros r Hr. apply I2. eapply Permutation_in; [apply Permutation_sym; exact L2|]. apply in_map, in_seq. lia.
  - assert (X : In d (map dl (List.seq 0 (nprocs tp)))) by (eapply Permutation_in; eauto).
    apply in_map_iff in X. destruct X as (r & X1 & X2). apply in_seq in X2. exists r. split; [lia|auto].
  - intros r Hr. rewrite (E r Hr), (L4 r Hr). cbn [p_dt p_mem p_t]. auto.
Qed.
Print Assumptions C14_global_dt.
(** It is the time step that a single process computes for the whole domain. *)
Theorem C14_equals_serial_2d : forall A, exact_or_double A -> forall tp g lowest (p : hparams R) ge G u d,
  topo_ok tp -> hydro_grid2 g -> (lowest <= 0)%R -> (0 <= cfl p)%R ->
  (forall i j, inside2 (whole tp g) i j -> (0 < rate_at2 p ge G u i j)%R) ->
  mpi_cfl2 tp g lowest p ge G u d -> cfl2 p (whole tp g) lowest ge G u d.
Proof.
  intros A HA tp g lowest p ge G u d Htp Hg Hl Hc Hpos H.
  eapply (mpi_to_serial2 (eod_max A HA) (eod_lt A HA)); eauto. apply eod_div; auto.
Qed.
Print Assumptions C14_equals_serial_2d.
Theorem C14_equals_serial_3d : forall A, exact_or_double A -> forall tp g lowest (p : hparams R) ge G u d,
  topo_ok tp -> hydro_grid3 g -> (lowest <= 0)%R -> (0 <= cfl p)%R ->
  (forall i j k, inside3 (whole tp g) i j k -> (0 < rate_at3 p ge G u i j k)%R) ->
  mpi_cfl3 tp g lowest p ge G u d -> cfl3 p (whole tp g) lowest ge G u d.
Proof.
  intros A HA tp g lowest p ge G u d Htp Hg Hl Hc Hpos H.
  eapply (mpi_to_serial3 (eod_max A HA) (eod_lt A HA)); eauto. apply eod_div; auto.
Qed.
Print Assumptions C14_equals_serial_3d.
(** In a single-precision build the reduction of dt_local = 1 on two processes
    can give 0. *)
Theorem C14_single_precision_refuted : exists junk global,
  allreduce_float [one_d; one_d] junk global /\ value one_d = 1%R /\ value global = 0%R.
Proof. exact float_build. Qed.
Print Assumptions C14_single_precision_refuted.

(** ** C15: distributed runs *)
(** Positive signal rates in every state of the single-process run; the case in
    exact arithmetic. *)
Lemma rates_pos2 (p : hparams R) ge G u i j : params_ok p -> (0 < dx p)%R -> (0 < dy p)%R -> (0 < rate_at2 p ge G u i j)%R.
Proof.
  intros Hp Hx Hy. unfold rate_at2. cbv zeta. destruct ge.
  - rewrite invdtg2. apply gc_pos; [apply wave2_pos; exact Hp|]. unfold Rmin; destruct Rle_dec; lra.
  - apply rate2_pos; assumption.
Qed.
Lemma rates_pos3 (p : hparams R) ge G u i j k : params_ok p -> (0 < dx p)%R -> (0 < dy p)%R -> (0 < dz p)%R -> (0 < rate_at3 p ge G u i j k)%R.
Proof.
  intros Hp Hx Hy Hz. unfold rate_at3. cbv zeta. destruct ge.
  - rewrite invdtg3. apply gc_pos; [apply wave3_pos; exact Hp|]. unfold Rmin; repeat destruct Rle_dec; lra.
  - apply rate3_pos; assumption.
Qed.

(** Exact arithmetic and double precision.  [good2] in double precision: the
    initial values are doubles. *)
Theorem C15_distributed_run_2d : forall A, exact_or_double A ->
  forall tp g ly lowest (p : hparams R) ge impl c n (s s' : sim R R) (sp : nat -> pstate R) rendezvous m z,
  topo_ok tp -> hydro_grid2 g -> known_codes g -> impl = 0 \/ impl = 1 -> slope_ok p -> riemann_ok2 p ->
  (lowest <= 0)%R -> (0 <= cfl p)%R -> 0 <= m_iteration s ->
  let W := whole tp g in
  let serial := loop c (hydro_dt2 p W lowest ge) (hydro_step2 p W ge impl) in
  let prg := iterations_mpi tp g ly lowest p ge impl c false n in
  good2 tp g (fun i j v => mem s (Loc (current (m_iteration s)) i j 0 v)) ->
  (forall k s1, (k < n)%nat -> serial k s s1 -> forall i j, inside2 W i j ->
     (0 < rate_at2 p ge (fun i j d => mem s (Loc aG i j 0 d)) (fun i j v => mem s1 (Loc (current (m_iteration s1)) i j 0%Z v)) i j)%R) ->
  distributed2 tp g ge s sp ->
  steps (nprocs tp) prg rendezvous m (start sp) z -> completed (nprocs tp) prg z ->
  serial n s s' ->
  distributed2 tp g ge s' (fun r => st (ranks z r)).
Proof.
  intros A HA tp g ly lowest p ge impl c n s s' sp rv m z Htp Hg Hc Hi Hs Hr Hl Hcfl H0 W serial prg Hgood Hpos Hd Hst Hdone Hserial.
  destruct (spmd_result (nprocs tp) prg) with (rv := rv) (m := m) (s := sp) (c := z) as (s1 & L & E); auto.
  { intros o Ho. eapply iterations_matched; eauto. } { intros o Ho. eapply iterations_productive; eauto. }
  assert (D : distributed2 tp g ge s' s1).
  { exact (same_run2 (eod_max A HA) (eod_lt A HA) p lowest ge Hl (eod_div A (cfl p) HA Hcfl) (eod_unit A HA) tp g ly impl c n sp s1 s s'
      Htp Hg Hc Hi Hs Hr H0 Hgood Hpos Hd L Hserial). }
  destruct D as (D1 & D2 & D3). split; [|split].
  - intros r Hrk. rewrite (E r Hrk). apply D1; exact Hrk.
  - intros r i j v Hrk Hi' Hj Hv. cbn beta. rewrite (E r Hrk). apply D2; assumption.
  - intros Hge r i j d Hrk Hi' Hj. cbn beta. rewrite (E r Hrk). apply D3; assumption.
Qed.
Print Assumptions C15_distributed_run_2d.
Theorem C15_distributed_run_3d : forall A, exact_or_double A ->
  forall tp g ly lowest (p : hparams R) ge impl c n (s s' : sim R R) (sp : nat -> pstate R) rendezvous m z,
  topo_ok tp -> hydro_grid3 g -> known_codes g -> impl = 0 \/ impl = 1 -> slope_ok p -> riemann_ok3 p ->
  (lowest <= 0)%R -> (0 <= cfl p)%R -> 0 <= m_iteration s ->
  let W := whole tp g in
  let serial := loop c (hydro_dt3 p W lowest ge) (hydro_step3 p W ge impl) in
  let prg := iterations_mpi tp g ly lowest p ge impl c true n in
  good3 tp g (fun i j k v => mem s (Loc (current (m_iteration s)) i j k v)) ->
  (forall q s1, (q < n)%nat -> serial q s s1 -> forall i j k, inside3 W i j k ->
     (0 < rate_at3 p ge (fun i j k d => mem s (Loc aG i j k d)) (fun i j k v => mem s1 (Loc (current (m_iteration s1)) i j k v)) i j k)%R) ->
  distributed3 tp g ge s sp ->
  steps (nprocs tp) prg rendezvous m (start sp) z -> completed (nprocs tp) prg z ->
  serial n s s' ->
  distributed3 tp g ge s' (fun r => st (ranks z r)).
Proof.
  intros A HA tp g ly lowest p ge impl c n s s' sp rv m z Htp Hg Hc Hi Hs Hr Hl Hcfl H0 W serial prg Hgood Hpos Hd Hst Hdone Hserial.
  destruct (spmd_result (nprocs tp) prg) with (rv := rv) (m := m) (s := sp) (c := z) as (s1 & L & E); auto.
  { intros o Ho. eapply iterations_matched; eauto. } { intros o Ho. eapply iterations_productive; eauto. }
  assert (D : distributed3 tp g ge s' s1).
  { exact (same_run3 (eod_max A HA) (eod_lt A HA) p lowest ge Hl (eod_div A (cfl p) HA Hcfl) (eod_unit A HA) tp g ly impl c n sp s1 s s'
      Htp Hg Hc Hi Hs Hr H0 Hgood Hpos Hd L Hserial). }
  destruct D as (D1 & D2 & D3). split; [|split].
  - intros r Hrk. rewrite (E r Hrk). apply D1; exact Hrk.
  - intros r i j k v Hrk Hi' Hj Hk Hv. cbn beta. rewrite (E r Hrk). apply D2; assumption.
  - intros Hge r i j k d Hrk Hi' Hj Hk. cbn beta. rewrite (E r Hrk). apply D3; assumption.
Qed.
Print Assumptions C15_distributed_run_3d.
(** In exact arithmetic no condition on the states is needed. *)
Theorem C15_exact_2d : forall tp g ly lowest (p : hparams R) ge impl c n (s s' : sim R R) (sp : nat -> pstate R) rendezvous m z,
  topo_ok tp -> hydro_grid2 g -> known_codes g -> impl = 0 \/ impl = 1 -> slope_ok p -> riemann_ok2 p -> params_ok p ->
  (0 < dx p)%R -> (0 < dy p)%R -> (lowest <= 0)%R -> (0 <= cfl p)%R -> 0 <= m_iteration s ->
  let W := whole tp g in
  let prg := iterations_mpi tp g ly lowest p ge impl c false n in
  distributed2 tp g ge s sp ->
  steps (nprocs tp) prg rendezvous m (start sp) z -> completed (nprocs tp) prg z ->
  loop c (hydro_dt2 p W lowest ge) (hydro_step2 p W ge impl) n s s' ->
  distributed2 tp g ge s' (fun r => st (ranks z r)).
Proof.
  intros tp g ly lowest p ge impl c n s s' sp rv m z H1 H2 H3 H4 H5 H6 H7 H8 H9 H10 H11 H12 W prg Hd Hst Hdone Hl.
  eapply (C15_distributed_run_2d RArith (or_introl eq_refl) tp g ly lowest p ge impl c n s s' sp rv m z); eauto.
  - intros i j v _ _. apply Rmult_1_r.
  - intros k s1 _ _ i j _. apply rates_pos2; assumption.
Qed.
Print Assumptions C15_exact_2d.
Theorem C15_exact_3d : forall tp g ly lowest (p : hparams R) ge impl c n (s s' : sim R R) (sp : nat -> pstate R) rendezvous m z,
  topo_ok tp -> hydro_grid3 g -> known_codes g -> impl = 0 \/ impl = 1 -> slope_ok p -> riemann_ok3 p -> params_ok p ->
  (0 < dx p)%R -> (0 < dy p)%R -> (0 < dz p)%R -> (lowest <= 0)%R -> (0 <= cfl p)%R -> 0 <= m_iteration s ->
  let W := whole tp g in
  let prg := iterations_mpi tp g ly lowest p ge impl c true n in
  distributed3 tp g ge s sp ->
  steps (nprocs tp) prg rendezvous m (start sp) z -> completed (nprocs tp) prg z ->
  loop c (hydro_dt3 p W lowest ge) (hydro_step3 p W ge impl) n s s' ->
  distributed3 tp g ge s' (fun r => st (ranks z r)).
Proof.
  intros tp g ly lowest p ge impl c n s s' sp rv m z H1 H2 H3 H4 H5 H6 H7 H8 H9 H9' H10 H11 H12 W prg Hd Hst Hdone Hl.
  eapply (C15_distributed_run_3d RArith (or_introl eq_refl) tp g ly lowest p ge impl c n s s' sp rv m z); eauto.
  - intros i j k v _ _. apply Rmult_1_r.
  - intros q s1 _ _ i j k _. apply rates_pos3; assumption.
Qed.
Print Assumptions C15_exact_3d.
(** All processes leave the loop after the same iteration, the one after which a
    single process leaves it. *)
Theorem C15_finish_together : forall (T : Type) (A : Arith T) tp g ge (c : lconf T) (s : sim T T) (sp : nat -> pstate T),
  distributed2 tp g ge s sp \/ distributed3 tp g ge s sp -> forall r, (r < nprocs tp)%nat -> finished_mpi c (sp r) = finished c s.
Proof.
  intros T A tp g ge c s sp [[H _]|[H _]] r Hr; destruct (H r Hr) as [E1 E2]; unfold finished_mpi, finished; rewrite E1, E2; reflexivity.
Qed.
Print Assumptions C15_finish_together.

Definition one_start : sim R R := Sim 0%R 0%R 0 0 (fun l => shear l) [].
Example C15_hypotheses_hold : exists m z s' n,
  let p := gas RIEMANN_HLLC in let c := LConf 1%R 100 0 1 in let W := whole six channel2 in
  let prg := iterations_mpi six channel2 LayoutRight (-1000)%R p true 0 c false n in
  topo_ok six /\ hydro_grid2 channel2 /\ known_codes channel2 /\ slope_ok p /\ riemann_ok2 p /\ params_ok p /\
  (0 < dx p)%R /\ (0 < dy p)%R /\ (0 <= cfl p)%R /\ distributed2 six channel2 true one_start six_start /\
  steps (nprocs six) prg true m (start six_start) z /\ completed (nprocs six) prg z /\
  loop c (hydro_dt2 p W (-1000)%R true) (hydro_step2 p W true 0) n one_start s' /\ (0 < n)%nat /\ finished c s' = true.
Proof.
  assert (Htp : topo_ok six) by (repeat split; reflexivity).
  destruct (loop_total (LConf 1%R 100 0 1) (hydro_dt2 (gas RIEMANN_HLLC) (whole six channel2) (-1000)%R true)
    (hydro_step2 (gas RIEMANN_HLLC) (whole six channel2) true 0)) with (s := one_start) as (n & s' & L1 & L2).
  { discriminate. } { apply hydro_dt2_total. } { apply hydro_step2_total. }
  destruct (execution_exists (nprocs six) (iterations_mpi six channel2 LayoutRight (-1000)%R (gas RIEMANN_HLLC) true 0 (LConf 1%R 100 0 1) false n) true six_start) as (m & z & H1 & H2).
  { intros o Ho. eapply iterations_matched; eauto. } { intros o Ho. eapply iterations_productive; eauto. }
  exists m, z, s', n. cbv zeta. split; [exact Htp|]. split; [unfold hydro_grid2; cbn; lia|].
  split; [intros f; destruct f; cbn; auto|]. split; [apply gas_slope|]. split; [cbn; auto|].
  unfold params_ok, gas. cbn [gamma0 smallr smallp smallc dx dy dz cfl]. split; [lra|]. split; [lra|]. split; [lra|]. split; [lra|].
  split. { split; [intros r _; split; reflexivity|]. split; [intros r i j v _ _ _ _; reflexivity|].
    intros _ r i j d _ _ _. reflexivity. }
  split; [exact H1|]. split; [exact H2|]. split; [exact L1|]. split; [|exact L2].
  destruct n; [|lia]. exfalso. inversion L1; subst. revert L2. unfold finished. cbn. destruct Rle_dec as [H|H]; [|discriminate].
  exfalso. revert H. cbn. lra.
Qed.
