(** Result files exist, restarted solvers exist, and a run that reaches its end time. *)
From Coq Require Import ZArith List Bool Reals Lia Lra.
From Verif Require Import Arith Par ParProofs GridModel BoundaryModel BoundarySpec BoundaryProofs HydroState HydroPoint HydroKernels HydroField
  HydroSpec HydroProofs2 HydroConserve HydroExec Physics PointProofs ReduceModel DtProofs IoModel IoSpec IoProofs IoRound LoopModel LoopSpec LoopProofs LoopHydro
  RestartModel RestartProofs.
Import ListNotations.
Open Scope Z_scope.

Section Exists.
Context {TT T : Type} {AT : Arith TT} {A : Arith T}.
Variables (b3 mhd : bool) (g : grid) (io : ioconf).

Definition all_elems : list (Z * Z * Z * Z) :=
  list_prod (list_prod (list_prod (zrange 0 (isize g)) (zrange 0 (jsize g))) (if b3 then zrange 0 (ksize g) else [0])) (zrange 0 (nbvar g)).
Lemma In_all i j k v : In (i, j, k, v) all_elems <-> in_array b3 g i j k /\ 0 <= v < nbvar g.
Proof.
  unfold all_elems, in_array. rewrite !in_prod_iff, !In_zrange. destruct b3; [rewrite In_zrange|cbn [In]]; intuition lia.
Qed.
Definition buffer_of (ly : layout) (a : Z) (m : store T) : buf T := fun n =>
  match find (fun q => let '(i, j, k, v) := q in voff b3 ly g i j k v =? n) all_elems with
  | Some (i, j, k, v) => m (Loc a i j k v) | None => zero end.
Lemma buffer_of_spec ly a m i j k v : in_array b3 g i j k -> 0 <= v < nbvar g -> buffer_of ly a m (voff b3 ly g i j k v) = m (Loc a i j k v).
Proof.
  intros H Hv. unfold buffer_of. destruct (find _ _) as [[[[i' j'] k'] v']|] eqn:E.
  - apply find_some in E. destruct E as (E1 & E2). apply In_all in E1. apply Z.eqb_eq in E2.
    destruct (voff_inj b3 ly g i' j' k' v' i j k v) as (-> & -> & -> & ->); tauto.
  - pose proof (find_none _ _ E (i, j, k, v) (proj2 (In_all i j k v) (conj H Hv))) as F. cbv beta iota in F. rewrite Z.eqb_refl in F. discriminate.
Qed.

Lemma file_exists ly (sn : snap TT T) : exists f, snapshot_file b3 mhd g io ly sn f.
Proof.
  eexists. exists zero, (buffer_of ly (sn_array sn) (sn_mem sn)), (fun _ => zero). split; [|reflexivity].
  intros. apply buffer_of_spec; auto. unfold in_array. auto.
Qed.
Lemma restart_exists ly reset (f : h5file TT T) : exists r, restarted b3 g io ly reset f r.
Proof.
  pose (r := load b3 false io ly g f (fun _ => zero) (fun _ => zero)).
  pose (m1 := fun l => if la l =? aU then fst (fst r) (voff b3 ly g (li l) (lj l) (lk l) (lv l)) else zero).
  pose proof (run_kernels_seq (if b3 then make_boundaries_serial3d false g aU else make_boundaries_serial2d false g aU) m1) as Hm.
  set (m2 := fold_left _ _ _) in Hm.
  eexists. apply (Restarted b3 g io ly reset f (fun _ => zero) m1 m2 zero r); auto.
  - intros l H. unfold m1. apply Z.eqb_neq in H. rewrite H. reflexivity.
Qed.
End Exists.

Open Scope R_scope.
(** Two densities side by side, at rest, with equal temperatures; the end time
    comes before the end of the first time step. *)
Definition stripes : store R := fun l =>
  let d := if Z.even (li l) then 2 else 4 in
  if (la l =? aG)%Z then 0 else if (lv l =? ID)%Z then d else if (lv l =? IP)%Z then 3 * d else 0.
Definition rgas : hparams R := HParams R 1.4 1 1 (1/10) 1 1 1 1 1 1 1 RIEMANN_HLLC.
Definition rbox : grid := Grid 4 5 1 2 4 (fun _ => 3%Z).
Definition rconf : lconf R := LConf (1/10) 1000 10 100.
Definition rstart : sim R R := Sim 0 0 0 0 stripes [].

Lemma stripes_rate i j : 0 < rate2 rgas (load_hs2 stripes aU i j) <= 4.
Proof.
  split; [apply rate2_pos; unfold params_ok, rgas; cbn; lra|].
  unfold rate2, signal_rate2, load_hs2, stripes. cbn [la li lj lk lv].
  change (aU =? aG)%Z with false. change (ID =? ID)%Z with true. change (IP =? ID)%Z with false. change (IP =? IP)%Z with true.
  change (IU =? ID)%Z with false. change (IU =? IP)%Z with false. change (IV =? ID)%Z with false. change (IV =? IP)%Z with false. cbv iota.
  set (d := if Z.even i then 2 else 4). assert (Hd : d = 2 \/ d = 4) by (unfold d; destruct (Z.even i); auto). clearbody d.
  unfold computePrimitives2, sound_speed, rgas. cbn [hD hP hU hV hW snd gamma0 smallr smallp dx dy maxv mul div sub add one half sqr zero RArith].
  rewrite (Rmax_left d 1) by lra.
  replace (0 / d) with 0 by (field; lra). rewrite Rabs_R0.
  replace (3 * d / d) with 3 by (field; lra).
  rewrite (Rmax_left ((1.4 - 1) * d * (3 - / 2 * (0 * 0 + 0 * 0))) (d * 1)) by lra.
  replace (1.4 * ((1.4 - 1) * d * (3 - / 2 * (0 * 0 + 0 * 0))) / d) with 1.68 by (destruct Hd as [->| ->]; lra).
  assert (R_sqrt.sqrt 1.68 <= 2).
  { replace 2 with (R_sqrt.sqrt (2 * 2)) by (apply R_sqrt.sqrt_square; lra). apply R_sqrt.sqrt_le_1; lra. }
  lra.
Qed.

Lemma stripes_dt d : hydro_dt2 rgas rbox (-1000) false aU stripes d -> / 4 <= d.
Proof.
  intros (r & Hr & ->). cbn [div cfl rgas RArith].
  pose (f := fun c : Z * Z * Z => let '(i, j, _) := c in if interior2 rbox i j then Some (rate2 rgas (load_hs2 stripes aU i j)) else None).
  destruct (reduces_max (-1000) (dt_body2 rgas rbox false stripes aU) f) with (items := cells2 rbox) (r := r) as [M1 M2]; auto.
  - intros [[i j] k] acc. unfold dt_body2, f. cbv zeta. rewrite invdt2. destruct (interior2 rbox i j); reflexivity.
  - destruct (cells2_in rbox 2 2) as [C1 C2]; [unfold inside2, rbox; cbn; lia|cbn; lia|].
    exists (2, 2, 0)%Z, (rate2 rgas (load_hs2 stripes aU 2 2)). split; auto. split; [unfold f; rewrite C2; reflexivity|].
    pose proof (stripes_rate 2 2). lra.
  - destruct M2 as ([[i j] k] & _ & E). unfold f in E. destruct (interior2 rbox i j); [|discriminate]. injection E as <-.
    pose proof (stripes_rate i j) as (P1 & P2). unfold Rdiv. rewrite Rmult_1_l. apply Rinv_le_contravar; auto.
Qed.

Lemma stripes_run : exists s', run rconf (hydro_dt2 rgas rbox (-1000) false) (hydro_step2 rgas rbox false 0) rstart s' /\
  m_t s' = l_tEnd rconf /\ In (Snap 0 0 aU stripes) (written s').
Proof.
  destruct (hydro_dt2_total rgas rbox (-1000) false aU stripes) as (d & Hd). pose proof (stripes_dt d Hd) as Hd'.
  assert (Hc : clip_dt rconf 0 d = 1/10).
  { unfold clip_dt. cbn [ltb add sub l_tEnd rconf RArith]. destruct Rlt_dec; lra. }
  destruct (hydro_step2_total rgas rbox false 0 aU aU2 (1/10) stripes) as (m' & Hm).
  set (s0 := edge_save rconf rstart).
  assert (E0 : s0 = save_solution rstart) by reflexivity.
  assert (N : next_iteration rconf (hydro_dt2 rgas rbox (-1000) false) (hydro_step2 rgas rbox false 0) s0
     (Sim (add (m_t s0) (clip_dt rconf (m_t s0) d)) (clip_dt rconf (m_t s0) d) (m_iteration s0 + 1)
           (m_times_saved (maybe_save rconf s0)) m' (written (maybe_save rconf s0)))).
  { apply NextIteration; [discriminate|exact Hd|]. rewrite E0. cbn [m_t save_solution rstart m_iteration mem]. rewrite Hc. exact Hm. }
  set (s1 := Sim _ _ _ _ _ _) in N.
  assert (T1 : m_t s1 = 1/10).
  { unfold s1. rewrite E0. cbn [m_t save_solution rstart]. rewrite Hc. cbn [add RArith]. lra. }
  exists (edge_save rconf s1). split; [|split].
  - apply (Run _ _ _ _ _ 1 s1); [|unfold finished; rewrite T1; cbn [leb sub lit l_tEnd rconf RArith]; destruct Rle_dec; [reflexivity|exfalso; lra]|reflexivity].
    apply (LoopMore _ _ _ 0 _ s0); [constructor| |exact N].
    unfold finished. rewrite E0. cbn [m_t save_solution rstart leb sub lit l_tEnd rconf RArith m_iteration l_nStepmax].
    destruct Rle_dec; [exfalso; lra|reflexivity].
  - destruct (edge_same rconf s1) as (-> & _). rewrite T1. reflexivity.
  - unfold edge_save. change (l_nOutput rconf =? 0)%Z with false. cbv iota. unfold save_solution at 1. cbn [written]. right. unfold s1. cbn [written].
    destruct (maybe_cases rconf s0) as [->| ->]; rewrite E0; cbn; auto.
Qed.
