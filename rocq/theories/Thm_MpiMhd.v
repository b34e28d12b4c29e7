(** Distributed runs of the MHD solver (properties C13-C15). *)
From Coq Require Import ZArith List Bool Reals Lia Lra Permutation.
From Verif Require Import Arith Par ParProofs GridModel BoundaryModel BoundarySpec HydroState RiemannModel HydroPoint HydroKernels
  HydroSpec ReduceModel LoopModel LoopSpec LoopProofs Float64 SpmdModel SpmdSpec SpmdProofs MpiModel MpiSpec MpiTopo MpiFill MpiDt MpiLive
  MhdState MhdPoint MhdKernels2 MhdKernels3 MhdSpec MhdSpec3 MhdPhysics MhdLoop2 MhdLoop3 RestartMhdWitness MpiMhd MpiMhdProofs
  Thm_Mpi Thm_RestartMhd.
Import ListNotations.
Open Scope Z_scope.

(** ** C13: no deadlock, no mixed-up messages *)
Theorem C13_iterations_mhd : forall (T : Type) (A : Arith T) tp g ly lowest (p : mparams T) impl c d3 n, topo_ok tp ->
  reliable tp (miterations_mpi tp g ly lowest p impl c d3 n).
Proof.
  intros T A tp g ly lowest p impl c d3 n Htp. apply reliable_any; intros o Ho.
  - eapply miterations_matched; eauto. - eapply miterations_productive; eauto.
Qed.
Print Assumptions C13_iterations_mhd.

(** ** C14: the time step, exact arithmetic or double precision *)
Theorem C14_global_dt_mhd : forall A, exact_or_double A -> forall tp g lowest (p : mparams R) (c : lconf R) d3 (s : nat -> pstate R) rendezvous m z,
  topo_ok tp ->
  let prg := mcompute_dt_mpi g lowest p c d3 in
  steps (nprocs tp) prg rendezvous m (start s) z -> completed (nprocs tp) prg z ->
  exists (local : nat -> R) d,
    (forall r, (r < nprocs tp)%nat ->
       if d3 then mcompute_dt_local3 p g lowest (p_mem (s r)) (local r) else mcompute_dt_local2 p g lowest (p_mem (s r)) (local r)) /\
    (forall r, (r < nprocs tp)%nat -> d <= local r)%R /\ (exists r, (r < nprocs tp)%nat /\ d = local r) /\
    forall r, (r < nprocs tp)%nat -> p_dt (st (ranks z r)) = shortened (l_tEnd c) (p_t (s r)) d /\
      p_mem (st (ranks z r)) = p_mem (s r) /\ p_t (st (ranks z r)) = p_t (s r).
Proof.
  intros A HA tp g lowest p c d3 s rv m z Htp prg Hst Hd.
  destruct (spmd_result (nprocs tp) prg) with (rv := rv) (m := m) (s := s) (c := z) as (s' & L & E); auto.
  { intros o Ho. eapply mdt_matched; eauto. } { intros o Ho. eapply mdt_productive; eauto. }
  apply mlock_dt in L; [|exact Htp]. destruct L as (dl & d & L1 & (l & L2 & L3) & L4).
  destruct (combined_min (eod_lt A HA) l d L3) as [I1 I2].
  exists dl, d. split; [exact L1|]. split; [|split].
  - intros r Hr. apply I2. eapply Permutation_in; [apply Permutation_sym; exact L2|]. apply in_map, in_seq. lia.
  - assert (X : In d (map dl (List.seq 0 (nprocs tp)))) by (eapply Permutation_in; eauto).
    apply in_map_iff in X. destruct X as (r & X1 & X2). apply in_seq in X2. exists r. split; [lia|auto].
  - intros r Hr. rewrite (E r Hr), (L4 r Hr). cbn [p_dt p_mem p_t]. auto.
Qed.
Print Assumptions C14_global_dt_mhd.

(** ** C15: distributed runs, exact arithmetic *)
(** [distributed2]: same time, same iteration number, and the current array of every
    process is its part of that of the single process (all eight components). *)
Theorem C15_mhd_2d : forall tp g ly lowest (p : mparams R) impl c n (s s' : sim R R) (sp : nat -> pstate R) rendezvous m z,
  topo_ok tp -> mhd_grid2 g -> known_codes g -> variant_ok2 p impl -> mslope_ok p -> mriemann_ok p -> mhd_params_ok p ->
  (0 < dx (mh p))%R -> (0 < dy (mh p))%R -> (0 < cfl (mh p))%R -> (lowest <= 0)%R -> 0 <= m_iteration s ->
  let W := whole tp g in
  let prg := miterations_mpi tp g ly lowest p impl c false n in
  distributed2 tp g false s sp ->
  steps (nprocs tp) prg rendezvous m (start sp) z -> completed (nprocs tp) prg z ->
  loop c (mhd_dt2 p W lowest) (mhd_step2 p W impl) n s s' ->
  distributed2 tp g false s' (fun r => st (ranks z r)).
Proof.
  intros tp g ly lowest p impl c n s s' sp rv m z Htp Hg Hc Hi Hs Hr Hp Hx Hy Hcfl Hl H0 W prg Hd Hst Hdone Hserial.
  destruct (spmd_result (nprocs tp) prg) with (rv := rv) (m := m) (s := sp) (c := z) as (s1 & L & E); auto.
  { intros o Ho. eapply miterations_matched; eauto. } { intros o Ho. eapply miterations_productive; eauto. }
  destruct (msame_run2 tp g ly lowest p impl c Htp Hg Hc Hi Hs Hr Hp Hx Hy Hcfl Hl n sp s1 s s' H0 Hd L Hserial) as (D1 & D2 & D3).
  split; [|split; [|discriminate]].
  - intros r Hrk. rewrite (E r Hrk). apply D1; exact Hrk.
  - intros r i j v Hrk Hi' Hj Hv. cbn beta. rewrite (E r Hrk). apply D2; assumption.
Qed.
Print Assumptions C15_mhd_2d.
Theorem C15_mhd_3d : forall tp g ly lowest (p : mparams R) impl c n (s s' : sim R R) (sp : nat -> pstate R) rendezvous m z,
  topo_ok tp -> mhd_grid3 g -> known_codes g -> variant_ok3 p impl -> mriemann_ok p -> no_rotation p -> mhd_params_ok p ->
  (0 < dx (mh p))%R -> (0 < dy (mh p))%R -> (0 < dz (mh p))%R -> (0 < cfl (mh p))%R -> (lowest <= 0)%R -> 0 <= m_iteration s ->
  let W := whole tp g in
  let prg := miterations_mpi tp g ly lowest p impl c true n in
  distributed3 tp g false s sp ->
  steps (nprocs tp) prg rendezvous m (start sp) z -> completed (nprocs tp) prg z ->
  loop c (mhd_dt3 p W lowest) (mhd_step3 p W impl) n s s' ->
  distributed3 tp g false s' (fun r => st (ranks z r)).
Proof.
  intros tp g ly lowest p impl c n s s' sp rv m z Htp Hg Hc Hi Hr Hn Hp Hx Hy Hz Hcfl Hl H0 W prg Hd Hst Hdone Hserial.
  destruct (spmd_result (nprocs tp) prg) with (rv := rv) (m := m) (s := sp) (c := z) as (s1 & L & E); auto.
  { intros o Ho. eapply miterations_matched; eauto. } { intros o Ho. eapply miterations_productive; eauto. }
  destruct (msame_run3 tp g ly lowest p impl c Htp Hg Hc Hi Hr Hn Hp Hx Hy Hz Hcfl Hl n sp s1 s s' H0 Hd L Hserial) as (D1 & D2 & D3).
  split; [|split; [|discriminate]].
  - intros r Hrk. rewrite (E r Hrk). apply D1; exact Hrk.
  - intros r i j k v Hrk Hi' Hj Hk Hv. cbn beta. rewrite (E r Hrk). apply D2; assumption.
Qed.
Print Assumptions C15_mhd_3d.

(** ** Cases meeting the hypotheses: stripes of two densities in an oblique field on
    processes of a grid of 2 x 3 (2D) and 2 x 1 x 2 (3D), until the end of the run. *)
Definition mhd_start (tp : topo) (r : nat) : pstate R :=
  PS (fun l => mstripes (Loc (la l) (rx tp r * nx mbox + li l) (ry tp r * ny mbox + lj l) (rz tp r * nz mbox + lk l) (lv l))) 0%R 0%R 0%R 0.
Definition mhd_one : sim R R := Sim 0%R 0%R 0 0 (fun l => mstripes l) [].
Definition boxes : topo := Topo 2 1 2.
Lemma mbox_codes : known_codes mbox.
Proof. intros f. cbn. auto. Qed.
Lemma some_steps (c : lconf R) dtl god s' : run c dtl god mhd_one s' -> l_nOutput c = 0 -> exists n, loop c dtl god n mhd_one s' /\ finished c s' = true.
Proof.
  intros [n s1 L F ->] H. assert (E : forall s : sim R R, edge_save c s = s) by (intros s; unfold edge_save; rewrite H; reflexivity).
  rewrite E in *. exists n. auto.
Qed.
Example C15_mhd_hypotheses_hold_2d : exists m z s' n,
  let c := LConf 1%R 100 0 1 in let W := whole six mbox in
  let prg := miterations_mpi six mbox LayoutRight (-1000)%R mplasma 2 c false n in
  topo_ok six /\ mhd_grid2 mbox /\ known_codes mbox /\ variant_ok2 mplasma 2 /\ mslope_ok mplasma /\ mriemann_ok mplasma /\ mhd_params_ok mplasma /\
  (0 < dx (mh mplasma))%R /\ (0 < dy (mh mplasma))%R /\ (0 < cfl (mh mplasma))%R /\ distributed2 six mbox false mhd_one (mhd_start six) /\
  steps (nprocs six) prg true m (start (mhd_start six)) z /\ completed (nprocs six) prg z /\
  loop c (mhd_dt2 mplasma W (-1000)%R) (mhd_step2 mplasma W 2) n mhd_one s' /\ (0 < n)%nat /\ finished c s' = true.
Proof.
  assert (Htp : topo_ok six) by (repeat split; reflexivity). destruct C73_mhd_settings as (Q1 & Q2 & Q3 & Q4 & Q5 & Q6).
  destruct (C17_terminates_mhd_2d R RArith mplasma (whole six mbox) (-1000)%R 2 (LConf 1%R 100 0 1) ltac:(discriminate) mhd_one) as (s' & Hrun).
  apply some_steps in Hrun; [|reflexivity]. destruct Hrun as (n & L1 & L2).
  destruct (execution_exists (nprocs six) (miterations_mpi six mbox LayoutRight (-1000)%R mplasma 2 (LConf 1%R 100 0 1) false n) true (mhd_start six)) as (m & z & H1 & H2).
  { intros o Ho. eapply miterations_matched; eauto. } { intros o Ho. eapply miterations_productive; eauto. }
  exists m, z, s', n. cbv zeta. split; [exact Htp|]. split; [apply Q3|]. split; [exact mbox_codes|]. split; [exact Q5|]. split; [exact Q4|].
  split; [exact Q1|]. split; [exact Q2|]. split; [cbn; lra|]. split; [cbn; lra|]. split; [cbn; lra|].
  split. { split; [intros r _; split; reflexivity|]. split; [intros r i j v _ _ _ _; reflexivity|discriminate]. }
  split; [exact H1|]. split; [exact H2|]. split; [exact L1|]. split; [|exact L2].
  destruct n; [|lia]. exfalso. inversion L1; subst. revert L2. unfold finished. cbn. destruct Rle_dec as [H|H]; [|discriminate].
  exfalso. revert H. cbn. lra.
Qed.
Example C15_mhd_hypotheses_hold_3d : exists m z s' n,
  let c := LConf 1%R 100 0 1 in let W := whole boxes mbox in
  let prg := miterations_mpi boxes mbox LayoutRight (-1000)%R mplasma 0 c true n in
  topo_ok boxes /\ mhd_grid3 mbox /\ known_codes mbox /\ variant_ok3 mplasma 0 /\ mriemann_ok mplasma /\ no_rotation mplasma /\ mhd_params_ok mplasma /\
  (0 < dz (mh mplasma))%R /\ distributed3 boxes mbox false mhd_one (mhd_start boxes) /\
  steps (nprocs boxes) prg true m (start (mhd_start boxes)) z /\ completed (nprocs boxes) prg z /\
  loop c (mhd_dt3 mplasma W (-1000)%R) (mhd_step3 mplasma W 0) n mhd_one s' /\ (0 < n)%nat /\ finished c s' = true.
Proof.
  assert (Htp : topo_ok boxes) by (repeat split; reflexivity). destruct C73_mhd_settings as (Q1 & Q2 & Q3 & Q4 & Q5 & Q6).
  destruct (C17_terminates_mhd_3d R RArith mplasma (whole boxes mbox) (-1000)%R 0 (LConf 1%R 100 0 1) ltac:(discriminate) mhd_one) as (s' & Hrun).
  apply some_steps in Hrun; [|reflexivity]. destruct Hrun as (n & L1 & L2).
  destruct (execution_exists (nprocs boxes) (miterations_mpi boxes mbox LayoutRight (-1000)%R mplasma 0 (LConf 1%R 100 0 1) true n) true (mhd_start boxes)) as (m & z & H1 & H2).
  { intros o Ho. eapply miterations_matched; eauto. } { intros o Ho. eapply miterations_productive; eauto. }
  exists m, z, s', n. cbv zeta. split; [exact Htp|]. split; [apply Q3|]. split; [exact mbox_codes|]. split; [left; reflexivity|].
  split; [exact Q1|]. split; [unfold no_rotation; cbn; destruct Rlt_dec; [exfalso; lra|reflexivity]|]. split; [exact Q2|]. split; [cbn; lra|].
  split. { split; [intros r _; split; reflexivity|]. split; [intros r i j k v _ _ _ _; reflexivity|discriminate]. }
  split; [exact H1|]. split; [exact H2|]. split; [exact L1|]. split; [|exact L2].
  destruct n; [|lia]. exfalso. inversion L1; subst. revert L2. unfold finished. cbn. destruct Rle_dec as [H|H]; [|discriminate].
  exfalso. revert H. cbn. lra.
Qed.
