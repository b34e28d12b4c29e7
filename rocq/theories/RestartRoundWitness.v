(** Runs in double precision that reach their end time, computed exactly. *)
From Coq Require Import ZArith List Bool Reals Lia Lra.
From Flocq Require Import Core.
From Verif Require Import Arith Par ParProofs GridModel BoundaryModel BoundarySpec BoundaryProofs HydroState HydroPoint HydroKernels HydroField
  HydroSpec HydroProofs2 HydroConserve HydroExec PointProofs ReduceModel DtProofs IoModel IoSpec IoProofs IoRound LoopModel LoopSpec LoopProofs LoopHydro
  RestartModel RestartProofs RestartWitness Float64.
Import ListNotations.
Open Scope R_scope.
#[local] Existing Instance B64.

Lemma double_int n : (Z.abs n < 2 ^ 53)%Z -> double (IZR n).
Proof.
  intros H. unfold double, fexp64. apply generic_format_FLT. exists (Float radix2 n 0); [|exact H|cbn; lia].
  unfold F2R. cbn. lra.
Qed.
Lemma double_eighth n : (Z.abs n < 2 ^ 53)%Z -> double (IZR n / 8).
Proof.
  intros H. unfold double, fexp64. apply generic_format_FLT. exists (Float radix2 n (-3)); [|exact H|cbn; lia].
  unfold F2R. cbn. lra.
Qed.
Lemma rnd_eq x n : x = IZR n / 8 -> (Z.abs n < 2 ^ 53)%Z -> rnd x = IZR n / 8.
Proof. intros -> H. apply rnd_id, double_eighth, H. Qed.

(** The first steps of a run of any solver that ends at [1/8] after one long step. *)
Section One.
Variables (dtl : Z -> store R -> R -> Prop) (god : Z -> Z -> R -> store R -> store R -> Prop).
Definition dconf : lconf R := LConf (1/8) 1000 1 100.
Definition dstart (m : store R) : sim R R := Sim 0 0 0 0 m [].
Lemma eps14 : 0 <= @lit R B64 1 100000000000000 <= 1/16.
Proof.
  cbn [lit B64]. split; [apply rnd_pos; lra|]. rewrite <- (rnd_id (1/16)).
  - apply rnd_le. lra.
  - unfold double, fexp64. apply generic_format_FLT. exists (Float radix2 1 (-4)); [unfold F2R; cbn; lra|reflexivity|cbn; lia].
Qed.
Lemma eps12 : @lit R B64 1 1000000000000 <= 1/16.
Proof.
  cbn [lit B64]. rewrite <- (rnd_id (1/16)).
  - apply rnd_le. lra.
  - unfold double, fexp64. apply generic_format_FLT. exists (Float radix2 1 (-4)); [unfold F2R; cbn; lra|reflexivity|cbn; lia].
Qed.
Lemma before_end : leb (sub (l_tEnd dconf) (lit 1 100000000000000)) 0 = false.
Proof.
  pose proof eps14. cbn [leb sub B64 l_tEnd dconf] in *. destruct Rle_dec as [L|L]; [|reflexivity]. exfalso.
  assert (rnd (1/16) <= rnd (1/8 - lit 1 100000000000000)) by (apply rnd_le; lra).
  rewrite (rnd_id (1/16)) in H0; [lra|].
  unfold double, fexp64. apply generic_format_FLT. exists (Float radix2 1 (-4)); [unfold F2R; cbn; lra|reflexivity|cbn; lia].
Qed.
Lemma at_end : leb (sub (l_tEnd dconf) (lit 1 100000000000000)) (1/8) = true.
Proof.
  pose proof eps14. cbn [leb sub B64 l_tEnd dconf] in *. destruct Rle_dec as [L|L]; [reflexivity|]. exfalso. apply L.
  rewrite <- (rnd_eq (1/8) 1 eq_refl ltac:(reflexivity)) at 2. apply rnd_le. lra.
Qed.
Lemma not_due_again (z : sim R R) : m_times_saved z = (0 + 1)%Z -> m_t z = 0 -> should_save_solution dconf z = false.
Proof.
  intros E1 E2. unfold should_save_solution. rewrite E1, E2. cbn [l_nOutput dconf l_tEnd]. change (1 <? 0)%Z with false. cbv iota.
  change (0 + 1 - 1)%Z with 0%Z. pose proof eps12 as E12. cbn [ltb absv sub mul div lit B64] in *.
  rewrite (rnd_eq (IZR 1 / IZR 1) 8) by (first [lra|reflexivity]). rewrite (rnd_eq (IZR 0 / IZR 1) 0) by (first [lra|reflexivity]).
  rewrite (rnd_eq (1 / 8 / (8 / 8)) 1) by (first [lra|reflexivity]). rewrite (rnd_eq (0 / 8 * (1 / 8)) 0) by (first [lra|reflexivity]).
  rewrite (rnd_eq (0 - 0 / 8) 0) by (first [lra|reflexivity]). rewrite (rnd_eq (0 - 1 / 8) (-1)) by (first [lra|reflexivity]).
  destruct Rlt_dec as [L|L]; [exfalso; lra|]. destruct Rlt_dec as [L'|L']; [|reflexivity]. exfalso. revert L'. rewrite Rabs_left by lra. lra.
Qed.
Lemma one_step_run (m : store R) d : dtl aU m d -> 1/4 <= d -> (forall a b d m, exists m', god a b d m m') ->
  exists s', run dconf dtl god (dstart m) s' /\ m_t s' = 1/8 /\ In (Snap 0 0 aU m) (written s').
Proof.
  intros Hd Hl Hg.
  assert (Hc : clip_dt dconf 0 d = 1/8).
  { unfold clip_dt. cbn [ltb add sub l_tEnd dconf B64]. rewrite (rnd_eq (1/8 - 0) 1) by (first [lra|reflexivity]).
    destruct Rlt_dec as [L|L]; [reflexivity|]. exfalso. apply L. clear L.
    assert (H : rnd (2/8) <= rnd (0 + d)) by (apply rnd_le; lra). rewrite (rnd_eq (2/8) 2) in H by (first [lra|reflexivity]). lra. }
  destruct (Hg aU aU2 (1/8) m) as (m' & Hm).
  set (s0 := edge_save dconf (dstart m)).
  assert (E0 : s0 = save_solution (dstart m)) by reflexivity.
  assert (N : next_iteration dconf dtl god s0
     (Sim (add (m_t s0) (clip_dt dconf (m_t s0) d)) (clip_dt dconf (m_t s0) d) (m_iteration s0 + 1)
           (m_times_saved (maybe_save dconf s0)) m' (written (maybe_save dconf s0)))).
  { apply NextIteration; [discriminate|exact Hd|]. rewrite E0. cbn [m_t save_solution dstart m_iteration mem]. rewrite Hc. exact Hm. }
  set (s1 := Sim _ _ _ _ _ _) in N.
  assert (T1 : m_t s1 = 1/8).
  { unfold s1. rewrite E0. cbn [m_t save_solution dstart]. rewrite Hc. cbn [add B64]. apply rnd_eq; [lra|reflexivity]. }
  exists (edge_save dconf s1). split; [|split].
  - apply (Run _ _ _ _ _ 1 s1); [|unfold finished; rewrite T1, at_end; reflexivity|reflexivity].
    apply (LoopMore _ _ _ 0 _ s0); [constructor| |exact N].
    unfold finished. rewrite E0. cbn [m_t save_solution dstart m_iteration]. rewrite before_end. reflexivity.
  - destruct (edge_same dconf s1) as (-> & _). rewrite T1. reflexivity.
  - unfold edge_save. change (l_nOutput dconf =? 0)%Z with false. cbv iota. unfold save_solution at 1. cbn [written]. right. unfold s1. cbn [written].
    destruct (maybe_cases dconf s0) as [->| ->]; rewrite E0; cbn; auto.
Qed.
End One.

(** Two densities side by side, at rest, speed of sound 2 everywhere. *)
Definition dgas : hparams R := HParams R 2 1 1 (1/10) 1 1 1 1 1 1 1 RIEMANN_HLLC.
Definition dstripes : store R := fun l =>
  let d := if Z.even (li l) then 2 else 4 in
  if (la l =? aG)%Z then 0 else if (lv l =? ID)%Z then d else if (lv l =? IP)%Z then 2 * d else 0.
Ltac exact_value := match goal with |- context [rnd ?e] =>
  lazymatch e with context [rnd _] => fail | _ => first
   [rewrite (rnd_eq e 0) by (first [lra|reflexivity]) | rewrite (rnd_eq e 8) by (first [lra|reflexivity]) | rewrite (rnd_eq e 16) by (first [lra|reflexivity])
   |rewrite (rnd_eq e 32) by (first [lra|reflexivity]) | rewrite (rnd_eq e 64) by (first [lra|reflexivity]) | rewrite (rnd_eq e 128) by (first [lra|reflexivity])
   |rewrite (rnd_eq e 2) by (first [lra|reflexivity])] end end.
Lemma sqrt_4 x : x = 4 -> R_sqrt.sqrt x = 2.
Proof. intros ->. replace 4 with (2 * 2) by lra. apply R_sqrt.sqrt_square. lra. Qed.
Lemma dstripes_rate2 i j : invdt_cell2 dgas (load_hs2 dstripes aU i j) = 4.
Proof.
  unfold load_hs2, dstripes. cbn [la li lj lk lv].
  change (aU =? aG)%Z with false. change (ID =? ID)%Z with true. change (IP =? ID)%Z with false. change (IP =? IP)%Z with true.
  change (IU =? ID)%Z with false. change (IU =? IP)%Z with false. change (IV =? ID)%Z with false. change (IV =? IP)%Z with false. cbv iota.
  set (d := if Z.even i then 2 else 4). assert (Hd : d = 2 \/ d = 4) by (unfold d; destruct (Z.even i); auto). clearbody d.
  unfold invdt_cell2, computePrimitives2, dgas. cbn [hD hP hU hV hW snd gamma0 smallr smallp dx dy maxv mul div sub add one half sqr zero absv B64].
  rewrite (Rmax_left d 1) by lra.
  destruct Hd as [-> | ->]; repeat exact_value.
  all: rewrite Rmax_left by lra; repeat exact_value; rewrite sqrt_4 by lra; repeat exact_value.
  all: replace (0 / 8) with 0 by lra; rewrite Rabs_R0; repeat exact_value; lra.
Qed.
Lemma dstripes_rate3 i j k : invdt_cell3 dgas (load_hs3 dstripes aU i j k) = 6.
Proof.
  unfold load_hs3, dstripes. cbn [la li lj lk lv].
  change (aU =? aG)%Z with false. change (ID =? ID)%Z with true. change (IP =? ID)%Z with false. change (IP =? IP)%Z with true.
  change (IU =? ID)%Z with false. change (IU =? IP)%Z with false. change (IV =? ID)%Z with false. change (IV =? IP)%Z with false.
  change (IW =? ID)%Z with false. change (IW =? IP)%Z with false. cbv iota.
  set (d := if Z.even i then 2 else 4). assert (Hd : d = 2 \/ d = 4) by (unfold d; destruct (Z.even i); auto). clearbody d.
  unfold invdt_cell3, computePrimitives3, dgas. cbn [hD hP hU hV hW snd gamma0 smallr smallp dx dy dz maxv mul div sub add one half sqr zero absv B64].
  rewrite (Rmax_left d 1) by lra.
  destruct Hd as [-> | ->]; repeat exact_value.
  all: rewrite Rmax_left by lra; repeat exact_value; rewrite sqrt_4 by lra; repeat exact_value.
  all: replace (0 / 8) with 0 by lra; rewrite Rabs_R0; repeat exact_value; rewrite (rnd_eq (32 / 8 + 16 / 8) 48) by (first [lra|reflexivity]); lra.
Qed.
Definition dbox : grid := Grid 4 5 3 2 5 (fun _ => 3%Z).
Definition dbox2 : grid := Grid 4 5 1 2 4 (fun _ => 3%Z).
Lemma reduces_const {I} (f : I -> option R) (v : R) lowest items r : (exists x, In x items /\ f x = Some v) -> (forall x y, f x = Some y -> y = v) -> lowest <= v ->
  reduces lowest (fun x acc => match f x with Some y => Rmax acc y | None => acc end) Rmax items r -> r = v.
Proof.
  intros (x & H1 & H2) Hv Hl H. destruct (reduces_max lowest (fun x acc => match f x with Some y => Rmax acc y | None => acc end) f (fun _ _ => eq_refl) items r H) as (_ & y & _ & E).
  - exists x, v. auto.
  - apply (Hv _ _ E).
Qed.
Lemma dt2_quarter d : hydro_dt2 dgas dbox2 (-1000) false aU dstripes d -> 1/4 <= d.
Proof.
  intros (r & Hr & ->). cbn [div cfl dgas B64].
  assert (r = 4).
  { eapply (reduces_const (fun c => let '(i, j, _) := c in if interior2 dbox2 i j then Some 4 else None) 4 (-1000) (cells2 dbox2) r); [| |lra|].
    - exists (2, 2, 0)%Z. split; [apply in2; (split; [discriminate|reflexivity])|reflexivity].
    - intros [[i j] k] y. destruct (interior2 dbox2 i j); congruence.
    - eapply reduces_ext; [|exact Hr]. intros [[i j] k] acc _. unfold dt_body2. cbv zeta. destruct (interior2 dbox2 i j); [|reflexivity].
      rewrite dstripes_rate2. reflexivity. }
  subst r. rewrite (rnd_eq (1/4) 2) by (first [lra|reflexivity]). lra.
Qed.
Definition dgas3 : hparams R := HParams R 2 1 1 (1/10) 1 1 1 2 1 1 1 RIEMANN_HLLC.
Lemma dt3_quarter d : hydro_dt3 dgas3 dbox (-1000) false aU dstripes d -> 1/4 <= d.
Proof.
  intros (r & Hr & ->). cbn [div cfl dgas3 B64].
  assert (r = 6).
  { eapply (reduces_const (fun c => let '(i, j, k) := c in if interior3 dbox i j k then Some 6 else None) 6 (-1000) (cells3 dbox) r); [| |lra|].
    - exists (2, 2, 2)%Z. split; [apply HydroProofs3.in3; (split; [discriminate|reflexivity])|reflexivity].
    - intros [[i j] k] y. destruct (interior3 dbox i j k); congruence.
    - eapply reduces_ext; [|exact Hr]. intros [[i j] k] acc _. unfold dt_body3. cbv zeta. destruct (interior3 dbox i j k); [|reflexivity].
      change (invdt_cell3 dgas3) with (invdt_cell3 dgas). rewrite dstripes_rate3. reflexivity. }
  subst r. assert (H : rnd (1/4) <= rnd (2/6)) by (apply rnd_le; lra). rewrite (rnd_eq (1/4) 2) in H by (first [lra|reflexivity]). lra.
Qed.
