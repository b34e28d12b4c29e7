(** MHD runs in double precision that reach their end time, computed exactly. *)
From Coq Require Import ZArith List Bool Reals Lia Lra.
From Flocq Require Import Core.
From Verif Require Import Arith Par ParProofs GridModel BoundaryModel BoundarySpec BoundaryProofs HydroState HydroPoint HydroKernels HydroField
  HydroSpec HydroProofs2 HydroConserve HydroExec PointProofs ReduceModel DtProofs IoModel LoopModel LoopSpec LoopProofs LoopHydro
  MhdState MhdRiemann MhdPoint MhdKernels2 MhdKernels3 MhdSpec MhdSpec3 MhdExec MhdField2 MhdField3 MhdProofs2 MhdProofs3 MhdStep2 MhdStep3 MhdConserve2 MhdConserve3 MhdLow2 MhdLow3 MhdLoop2 MhdLoop3 MhdRun2 MhdRun3
  RestartModel RestartProofs RestartWitness Float64 RestartMhd RestartMhdProofs RestartRound RestartRoundWitness.
Import ListNotations.
Open Scope R_scope.
#[local] Existing Instance B64.

(** Two densities side by side at rest in a field along z of two strengths; the
    squares of the speed of sound and of the Alfven speed are 2 everywhere.
    [k] is 2 in two dimensions, where the code averages the field along z with 0. *)
Definition dplasma : mparams R := MParams (HParams R 2 1 1 (1/10) 1 1 1 2 1 1 1 RIEMANN_HLLD) 0 0 0.
Definition dmstripes (k : R) : store R := fun l =>
  if (lv l =? ID)%Z then (if Z.even (li l) then 2 else 8) else if (lv l =? IP)%Z then (if Z.even (li l) then 4 else 16)
  else if (lv l =? IC)%Z then k * (if Z.even (li l) then 2 else 4) else 0.
Definition dmbox : grid := Grid 4 5 3 3 8 (fun _ => 3%Z).
Definition dmcell (k : R) (b : bool) : ms R := MS (if b then 2 else 8) (if b then 4 else 16) 0 0 0 0 0 (k * (if b then 2 else 4)).

Lemma along_d dir n q v (x : R) : double x -> along true dir (kind_of_code 3) (kind_of_code 3) n q v x = x.
Proof.
  intros Hx. unfold along, reflected. destruct (is_ghost n q); auto.
  assert (E : match (if (q <? 0)%Z then Some (kind_of_code 3) else if (n <=? q)%Z then Some (kind_of_code 3) else None) with
    | Some Reflecting => true | _ => false end = false) by (destruct (q <? 0)%Z, (n <=? q)%Z; reflexivity).
  rewrite E. cbn [andb mul one B64]. rewrite Rmult_1_r. apply rnd_id, Hx.
Qed.
Definition dmval (k : R) (i v : Z) : R :=
  if (v =? ID)%Z then (if Z.even i then 2 else 8) else if (v =? IP)%Z then (if Z.even i then 4 else 16)
  else if (v =? IC)%Z then k * (if Z.even i then 2 else 4) else 0.
Lemma dmval_double k i v : k = 1 \/ k = 2 -> double (dmval k i v).
Proof.
  intros Hk. unfold dmval. destruct (v =? ID)%Z; [|destruct (v =? IP)%Z; [|destruct (v =? IC)%Z]]; destruct (Z.even i); try (apply double_int; reflexivity);
  destruct Hk as [-> | ->]; rewrite <- mult_IZR; apply double_int; reflexivity.
Qed.
Definition du2 (k : R) (i j v : Z) : R := dmval k i v.
Definition du3 (k : R) (i j l v : Z) : R := dmval k i v.
Lemma dmfill2 k : k = 1 \/ k = 2 -> forall i j, exists b, mfill2 dmbox (sto2 (du2 k)) aU i j = dmcell k b.
Proof.
  intros Hk i j. exists (Z.even (gw dmbox + image (kx0 dmbox) (kx1 dmbox) (nx dmbox) (i - gw dmbox))%Z).
  unfold mfill2, filled2d. cbv zeta. unfold kx0, kx1, ky0, ky1, bc, dmbox, sto2, du2. cbn [li lj lv].
  rewrite !along_d; auto using dmval_double; rewrite along_d; auto using dmval_double.
Qed.
Lemma dmfill3 k : k = 1 \/ k = 2 -> forall i, exists b, forall j l, mfill3 dmbox (sto3 (du3 k)) aU i j l = dmcell k b.
Proof.
  intros Hk i. exists (Z.even (gw dmbox + image (kx0 dmbox) (kx1 dmbox) (nx dmbox) (i - gw dmbox))%Z). intros j l.
  unfold mfill3, filled3d. cbv zeta. unfold kx0, kx1, ky0, ky1, kz0, kz1, bc, dmbox, sto3, du3. cbn [li lj lk lv].
  rewrite !along_d; auto using dmval_double; rewrite !along_d; auto using dmval_double; rewrite along_d; auto using dmval_double.
Qed.
Definition dmprim (b : bool) : ms R := MS (if b then 2 else 8) (if b then 2 else 8) 0 0 0 0 0 (if b then 2 else 4).
Ltac exv := repeat (first [exact_value | match goal with |- context [rnd ?e] =>
  lazymatch e with context [rnd _] => fail | _ => first [rewrite (rnd_eq e 256) by (first [lra|reflexivity])|rewrite (rnd_eq e 4) by (first [lra|reflexivity])] end end]).
Lemma dmprim_of (k : R) (b : bool) (nC : R) : (k = 2 /\ nC = 0) \/ (k = 1 /\ nC = if b then 2 else 4) -> constoprim_mhd dplasma (dmcell k b) 0 0 nC = dmprim b.
Proof.
  intros H. unfold constoprim_mhd, dmcell, dmprim, dplasma.
  cbn [mD mP mU mV mW mA mB mC mh cIso smallr smallp gamma0 maxv mul div add sub half one zero ltb B64].
  destruct Rlt_dec; [exfalso; lra|].
  destruct b; destruct H as [(-> & ->) | (-> & ->)]; rewrite Rmax_left by lra; exv; (rewrite Rmax_left by lra); f_equal; lra.
Qed.
Lemma rnd_le_int x n : (Z.abs n < 2 ^ 53)%Z -> x <= IZR n -> rnd x <= IZR n.
Proof. intros H L. rewrite <- (rnd_id (IZR n)) by (apply double_int; exact H). apply rnd_le, L. Qed.
Lemma sqrt_zero x : x = 0 -> R_sqrt.sqrt x = 0.
Proof. intros ->. apply R_sqrt.sqrt_0. Qed.
Lemma sqrt_small x : 0 <= x <= 4 -> R_sqrt.sqrt x <= 2.
Proof. intros H. rewrite <- (sqrt_4 4) by reflexivity. apply R_sqrt.sqrt_le_1_alt. lra. Qed.
Lemma dmspeed b : find_speed_info_dir dplasma CX (dmprim b) = 2 /\ find_speed_info_dir dplasma CY (dmprim b) = 2 /\
  0 <= find_speed_info_dir dplasma CZ (dmprim b) <= 2.
Proof.
  assert (Q : forall x, x = 2 -> 0 <= rnd (rnd (R_sqrt.sqrt x) + 0) <= 2).
  { intros x ->. assert (0 <= R_sqrt.sqrt 2) by apply R_sqrt.sqrt_pos. pose proof (rnd_pos _ H).
    assert (rnd (R_sqrt.sqrt 2) <= 2) by (apply rnd_le_int; [reflexivity|apply sqrt_small; lra]).
    split; [apply rnd_pos; lra|apply rnd_le_int; [reflexivity|lra]]. }
  unfold find_speed_info_dir, find_speed_fast, bcomp, dmprim, dplasma.
  cbn [mD mP mU mV mW mA mB mC mh gamma0 mul div add sub half sqr absv B64].
  destruct b; rewrite !Rabs_R0; split; [|split| |split]; exv.
  all: first [rewrite (sqrt_4 (32/8)) by lra | rewrite (sqrt_zero (0/8)) by lra]; exv.
  all: first [rewrite (sqrt_4 (32/8)) by lra; exv; lra | apply Q; lra].
Qed.
Lemma dlong r : 4 <= r <= 6 -> 1/4 <= rnd (2 / r).
Proof.
  intros H. rewrite <- (rnd_id (1/4)).
  - apply rnd_le. apply Rmult_le_reg_r with r; [lra|]. unfold Rdiv at 2. rewrite Rmult_assoc, Rinv_l by lra. lra.
  - replace (1/4) with (2/8) by lra. apply double_eighth. reflexivity.
Qed.
Lemma drate2 i j : interior2 dmbox i j = true -> forall r, orate2 dplasma dmbox (du2 2) (i, j, 0%Z) = Some r -> r = 4.
Proof.
  intros E r. unfold orate2. rewrite E. cbv zeta. unfold prim2.
  destruct (dmfill2 2 (or_intror eq_refl) i j) as (b & ->). destruct (dmfill2 2 (or_intror eq_refl) (i + 1)%Z j) as (b1 & ->).
  destruct (dmfill2 2 (or_intror eq_refl) i (j + 1)%Z) as (b2 & ->).
  change (mA (dmcell 2 b1)) with 0. change (mB (dmcell 2 b2)) with 0. change (@zero R B64) with 0.
  rewrite dmprim_of by auto. destruct (dmspeed b) as (-> & -> & _). cbn [add div dx dy mh dplasma B64]. exv. intros Er. injection Er as <-. lra.
Qed.
Lemma drate3 c r : orate3 dplasma dmbox (du3 1) c = Some r -> 4 <= r <= 6.
Proof.
  unfold orate3. destruct (rng3 _ _ _ c); [|discriminate]. destruct c as [[i j] k]. cbv zeta. unfold prim3, mfil, move, cx, cy, cz. cbn [fst snd].
  destruct (dmfill3 1 (or_introl eq_refl) i) as (b & Eb). destruct (dmfill3 1 (or_introl eq_refl) (i + 1)%Z) as (b1 & Eb1).
  rewrite !Eb, Eb1. change (mA (dmcell 1 b1)) with 0. change (mB (dmcell 1 b)) with 0.
  rewrite dmprim_of by (right; split; [reflexivity|cbn; lra]). destruct (dmspeed b) as (-> & -> & H). cbn [add div dx dy dz mh dplasma B64].
  set (z := find_speed_info_dir _ _ _) in *. clearbody z. exv. intros Er. injection Er as <-.
  assert (0 <= rnd (z / 1) <= 2) by (split; [apply rnd_pos; lra|apply rnd_le_int; [reflexivity|lra]]).
  split; [|apply rnd_le_int; [reflexivity|lra]]. rewrite <- (rnd_id 4) by (apply (double_int 4); reflexivity). apply rnd_le. lra.
Qed.
Lemma omax_B64 {I} (f : I -> option R) x acc : omax f x acc = match f x with Some y => Rmax acc y | None => acc end.
Proof. unfold omax. destruct (f x); reflexivity. Qed.
Lemma dmdt2 d : mhd_dt2 dplasma dmbox (-1000) aU (dmstripes 2) d -> 1/4 <= d.
Proof.
  intros Hd. assert (Hg : mhd_grid2 dmbox) by (unfold mhd_grid2; cbn; lia).
  apply (okeep_mdt2 (A := B64)) with (u := du2 2) in Hd; [|intros; reflexivity|exact Hg|intros i j v _ _; reflexivity].
  destruct Hd as (r & Hr & ->). cbn [div cfl mh dplasma B64]. apply dlong.
  destruct (reduces_max (-1000) (omax (orate2 dplasma dmbox (du2 2))) (orate2 dplasma dmbox (du2 2)) (fun x acc => omax_B64 _ x acc) (cells2 dmbox) r Hr) as (_ & [[i j] k] & _ & E).
  - exists (3, 3, 0)%Z. exists 4. split; [apply in2; (split; [discriminate|reflexivity])|]. split; [|lra].
    destruct (orate2 dplasma dmbox (du2 2) (3, 3, 0)%Z) as [r0|] eqn:E; [|discriminate E].
    f_equal. apply (drate2 3 3 eq_refl r0 E).
  - assert (E' := E). unfold orate2 in E'. destruct (interior2 dmbox i j) eqn:Ei; [|discriminate E']. clear E'.
    rewrite (drate2 i j Ei r E). lra.
Qed.
Lemma dmdt3 d : mhd_dt3 dplasma dmbox (-1000) aU (dmstripes 1) d -> 1/4 <= d.
Proof.
  intros Hd. assert (Hg : mhd_grid3 dmbox) by (unfold mhd_grid3, mhd_grid2; cbn; lia).
  apply (okeep_mdt3 (A := B64)) with (u := du3 1) in Hd; [|intros; reflexivity|exact Hg|intros i j k v _ _; reflexivity].
  destruct Hd as (r & Hr & ->). cbn [div cfl mh dplasma B64]. apply dlong.
  destruct (reduces_max (-1000) (omax (orate3 dplasma dmbox (du3 1))) (orate3 dplasma dmbox (du3 1)) (fun x acc => omax_B64 _ x acc) (cells3 dmbox) r Hr) as (_ & c & _ & E).
  - destruct (orate3 dplasma dmbox (du3 1) (3, 3, 3)%Z) as [r0|] eqn:E; [|discriminate E].
    exists (3, 3, 3)%Z, r0. split; [apply HydroProofs3.in3; (split; [discriminate|reflexivity])|]. split; [exact E|]. apply drate3 in E. lra.
  - apply drate3 in E. exact E.
Qed.
