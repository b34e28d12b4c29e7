(** Theorems about the cell-local parts of the hydrodynamics solver: limiter
    (C25, C26), primitive conversion (C27), time step (C28), gravity source (C31). *)
From Coq Require Import ZArith List Bool Reals Permutation Lia Lra.
From Verif Require Import Arith Par ParProofs GridModel HydroState HydroPoint HydroKernels HydroField HydroExec HydroSpec HydroProofs2 HydroStep2
  HydroProofs3 HydroStep3 ReduceModel Physics PointProofs DtProofs.
Import ListNotations.
Open Scope R_scope.

(** ** C25 *)
Theorem C25_limiter_2d : forall (p : hparams R) q qPX qMX qPY qMY jx jy, slope_type p = 1 \/ slope_type p = 2 ->
  let sl := slope_unsplit_hydro_2d p q qPX qMX qPY qMY jx jy in
  forall c, c = hD \/ c = hP \/ c = hU \/ c = hV ->
  (limited (slope_type p) (c q) (c qPX) (c qMX) (c (fst sl)) /\ faces_between (c q) (c qPX) (c qMX) (c (fst sl))) /\
  (limited (slope_type p) (c q) (c qPY) (c qMY) (c (snd sl)) /\ faces_between (c q) (c qPY) (c qMY) (c (snd sl))).
Proof. exact slopes_limited2. Qed.
Print Assumptions C25_limiter_2d.

Theorem C25_limiter_3d : forall (p : hparams R) q qPX qMX qPY qMY qPZ qMZ jx jy jz, slope_type p = 1 \/ slope_type p = 2 ->
  let sl := slope_unsplit_hydro_3d p q qPX qMX qPY qMY qPZ qMZ jx jy jz in
  forall c, c = hD \/ c = hP \/ c = hU \/ c = hV \/ c = hW ->
  (limited (slope_type p) (c q) (c qPX) (c qMX) (c (fst (fst sl))) /\ faces_between (c q) (c qPX) (c qMX) (c (fst (fst sl)))) /\
  (limited (slope_type p) (c q) (c qPY) (c qMY) (c (snd (fst sl))) /\ faces_between (c q) (c qPY) (c qMY) (c (snd (fst sl)))) /\
  (limited (slope_type p) (c q) (c qPZ) (c qMZ) (c (snd sl)) /\ faces_between (c q) (c qPZ) (c qMZ) (c (snd sl))).
Proof. exact slopes_limited3. Qed.
Print Assumptions C25_limiter_3d.

(** The limiter is not constant zero: on the data 0, 1, 3 the type-2 slope is 3/2. *)
Example C25_value : slope1 (HParams R 1.4 1 1 1 1 1 2 1 1 1 1 0) 1 3 0 = 3/2.
Proof.
  unfold slope1. cbn. repeat (unfold Rabs, Rmin; match goal with
    | |- context [Rcase_abs ?x] => destruct (Rcase_abs x); try lra
    | |- context [Rle_dec ?x ?y] => destruct (Rle_dec x y); try lra end).
Qed.

(** ** C26 (hydrodynamics) *)
Theorem C26_hydro_types_0_1_2_defined_2d : forall (T : Type) (A : Arith T) (p : hparams T), slope_ok p ->
  forall q a b c d jx jy jx' jy',
  slope_unsplit_hydro_2d p q a b c d jx jy = slope_unsplit_hydro_2d p q a b c d jx' jy'.
Proof.
  intros T A p [H|[H|H]] *; unfold slope_unsplit_hydro_2d; rewrite H; rewrite ?orb_true_r;
    destruct (eqb _ _); reflexivity.
Qed.
Print Assumptions C26_hydro_types_0_1_2_defined_2d.
Theorem C26_hydro_types_0_1_2_defined_3d : forall (T : Type) (A : Arith T) (p : hparams T), slope_ok p ->
  forall q a b c d e f jx jy jz jx' jy' jz',
  slope_unsplit_hydro_3d p q a b c d e f jx jy jz = slope_unsplit_hydro_3d p q a b c d e f jx' jy' jz'.
Proof.
  intros T A p [H|[H|H]] *; unfold slope_unsplit_hydro_3d; rewrite H; rewrite ?orb_true_r;
    destruct (eqb _ _); reflexivity.
Qed.
Print Assumptions C26_hydro_types_0_1_2_defined_3d.

(** For every other slope type the slopes are whatever the uninitialised
    variables contained. *)
Theorem C26_hydro_other_types_refuted : forall (p : hparams R),
  slope_type p <> 0 -> slope_type p <> 1 -> slope_type p <> 2 ->
  (forall q a b c d jx jy, slope_unsplit_hydro_2d p q a b c d jx jy = (jx, jy)) /\
  (forall q a b c d e f jx jy jz, slope_unsplit_hydro_3d p q a b c d e f jx jy jz = (jx, jy, jz)).
Proof.
  intros p H0 H1 H2. split; intros; unfold slope_unsplit_hydro_2d, slope_unsplit_hydro_3d; cbn;
  destruct (Req_EM_T (slope_type p) 0), (Req_EM_T (slope_type p) 1), (Req_EM_T (slope_type p) 2); congruence || reflexivity.
Qed.
Print Assumptions C26_hydro_other_types_refuted.

(** ** C27 *)
Theorem C27_floors_2d : forall (p : hparams R) u,
  let q := snd (computePrimitives2 p u) in smallr p <= hD q /\ hD q * smallp p <= hP q.
Proof. exact prim2_floors. Qed.
Print Assumptions C27_floors_2d.
Theorem C27_floors_3d : forall (p : hparams R) u,
  let q := snd (computePrimitives3 p u) in smallr p <= hD q /\ hD q * smallp p <= hP q.
Proof. exact prim3_floors. Qed.
Print Assumptions C27_floors_3d.
Theorem C27_round_trip_2d : forall (p : hparams R) q, params_ok p -> admissible p q -> planar q ->
  computePrimitives2 p (conservative (gamma0 p) q) = (sound_speed (gamma0 p) q, q).
Proof. exact prim2_round. Qed.
Print Assumptions C27_round_trip_2d.
Theorem C27_round_trip_3d : forall (p : hparams R) q, params_ok p -> admissible p q ->
  computePrimitives3 p (conservative (gamma0 p) q) = (sound_speed (gamma0 p) q, q).
Proof. exact prim3_round. Qed.
Print Assumptions C27_round_trip_3d.
Theorem C27_inverse_2d : forall (p : hparams R) u, params_ok p -> hW u = 0 -> smallr p <= hD u ->
  hD u * smallp p <= (gamma0 p - 1) * (hP u - (hU u * hU u + hV u * hV u) / (2 * hD u)) ->
  conservative (gamma0 p) (snd (computePrimitives2 p u)) = u.
Proof. exact prim2_inverse. Qed.
Print Assumptions C27_inverse_2d.
Theorem C27_inverse_3d : forall (p : hparams R) u, params_ok p -> smallr p <= hD u ->
  hD u * smallp p <= (gamma0 p - 1) * (hP u - (hU u * hU u + hV u * hV u + hW u * hW u) / (2 * hD u)) ->
  conservative (gamma0 p) (snd (computePrimitives3 p u)) = u.
Proof. exact prim3_inverse. Qed.
Print Assumptions C27_inverse_3d.

Definition air : hparams R := HParams R 1.4 (2.4/2.8) 0.01 0.01 0.01 0.0001 1 0.5 0.1 0.2 0.3 0.
Example C27_hypotheses_hold : params_ok air /\ admissible air (HS 1 2 3 4 0) /\ planar (HS 1 2 3 4 0).
Proof. unfold params_ok, admissible, planar. cbn. lra. Qed.

(** ** C28: for the primitive state of every interior cell. *)
Theorem C28_cfl_2d : forall (p : hparams R) g lowest, params_ok p -> 0 < dx p -> 0 < dy p -> 0 < cfl p -> lowest <= 0 ->
  forall (s : store R) a dt, hydro_grid2 g -> compute_dt_local2 p g lowest false s a dt ->
  0 < dt /\
  (forall i j, inside2 g i j -> dt * signal_rate2 p (snd (computePrimitives2 p (load_hs2 s a i j))) <= cfl p) /\
  (exists i j, inside2 g i j /\ dt * signal_rate2 p (snd (computePrimitives2 p (load_hs2 s a i j))) = cfl p).
Proof. exact dt_cfl2. Qed.
Print Assumptions C28_cfl_2d.
Theorem C28_cfl_3d : forall (p : hparams R) g lowest, params_ok p -> 0 < dx p -> 0 < dy p -> 0 < dz p -> 0 < cfl p -> lowest <= 0 ->
  forall (s : store R) a dt, hydro_grid3 g -> compute_dt_local3 p g lowest false s a dt ->
  0 < dt /\
  (forall i j k, inside3 g i j k -> dt * signal_rate3 p (snd (computePrimitives3 p (load_hs3 s a i j k))) <= cfl p) /\
  (exists i j k, inside3 g i j k /\ dt * signal_rate3 p (snd (computePrimitives3 p (load_hs3 s a i j k))) = cfl p).
Proof. exact dt_cfl3. Qed.
Print Assumptions C28_cfl_3d.
(** With gravity: g dt^2 / (2 d) + (sum of speeds) dt / d <= cfl, d the smallest spacing. *)
Theorem C28_cfl_gravity_2d : forall (p : hparams R) g lowest, params_ok p -> 0 < dx p -> 0 < dy p -> 0 < cfl p -> lowest <= 0 ->
  forall (s : store R) a dt, hydro_grid2 g -> compute_dt_local2 p g lowest true s a dt ->
  0 < dt /\
  (forall i j, inside2 g i j ->
     (Rabs (s (Loc aG i j 0 IX)) + Rabs (s (Loc aG i j 0 IY))) * (dt * dt) / (2 * Rmin (dx p) (dy p))
     + signal_sum2 p (snd (computePrimitives2 p (load_hs2 s a i j))) * dt / Rmin (dx p) (dy p) <= cfl p).
Proof. exact dt_gravity2. Qed.
Print Assumptions C28_cfl_gravity_2d.
Theorem C28_cfl_gravity_3d : forall (p : hparams R) g lowest, params_ok p -> 0 < dx p -> 0 < dy p -> 0 < dz p -> 0 < cfl p -> lowest <= 0 ->
  forall (s : store R) a dt, hydro_grid3 g -> compute_dt_local3 p g lowest true s a dt ->
  0 < dt /\
  (forall i j k, inside3 g i j k ->
     (Rabs (s (Loc aG i j k IX)) + Rabs (s (Loc aG i j k IY)) + Rabs (s (Loc aG i j k IZ))) * (dt * dt)
       / (2 * Rmin (Rmin (dx p) (dy p)) (dz p))
     + signal_sum3 p (snd (computePrimitives3 p (load_hs3 s a i j k))) * dt / Rmin (Rmin (dx p) (dy p)) (dz p) <= cfl p).
Proof. exact dt_gravity3. Qed.
Print Assumptions C28_cfl_gravity_3d.
(** The time step does not depend on the schedule of the reduction. *)
Theorem C28_schedule_independent_2d : forall (p : hparams R) g lowest ge (s : store R) a dt dt',
  params_ok p -> 0 < dx p -> 0 < dy p -> lowest <= 0 -> hydro_grid2 g ->
  compute_dt_local2 p g lowest ge s a dt -> compute_dt_local2 p g lowest ge s a dt' -> dt = dt'.
Proof. exact dt_det2. Qed.
Print Assumptions C28_schedule_independent_2d.
Theorem C28_schedule_independent_3d : forall (p : hparams R) g lowest ge (s : store R) a dt dt',
  params_ok p -> 0 < dx p -> 0 < dy p -> 0 < dz p -> lowest <= 0 -> hydro_grid3 g ->
  compute_dt_local3 p g lowest ge s a dt -> compute_dt_local3 p g lowest ge s a dt' -> dt = dt'.
Proof. exact dt_det3. Qed.
Print Assumptions C28_schedule_independent_3d.

Example C28_hypotheses_hold : forall (s : store R),
  params_ok air /\ 0 < dx air /\ 0 < dy air /\ 0 < dz air /\ 0 < cfl air /\
  hydro_grid2 (Grid 4 5 1 2 4 (fun _ => 3%Z)) /\ hydro_grid3 (Grid 4 5 6 2 5 (fun _ => 3%Z)) /\
  (exists dt, compute_dt_local2 air (Grid 4 5 1 2 4 (fun _ => 3%Z)) (-1000) false s aU dt) /\
  (exists dt, compute_dt_local3 air (Grid 4 5 6 2 5 (fun _ => 3%Z)) (-1000) true s aU dt).
Proof.
  intros s. split; [apply C27_hypotheses_hold|]. cbn [dx dy dz cfl air].
  do 4 (split; [lra|]). split; [unfold hydro_grid2; cbn; lia|]. split; [unfold hydro_grid3; cbn; lia|].
  split; eexists; eexists; (split; [eexists; split; [apply Permutation_refl|apply partial_seq]|reflexivity]).
Qed.

(** ** C31 *)
Theorem C31_gravity_source_2d : forall (p : hparams R) g dt aIn aOut (s s' : store R),
  0 < smallr p -> arr_ok aIn aOut -> (0 < gw g)%Z ->
  par_exec s (gravity_term2 p g dt aIn aOut) s' ->
  forall i j, inside2 g i j -> smallr p <= s (Loc aOut i j 0 ID) ->
  let w v := s (Loc aOut i j 0 v) in
  let w' v := s' (Loc aOut i j 0 v) in
  let G d := s (Loc aG i j 0 d) in
  let mid := (s (Loc aIn i j 0%Z ID) + w ID) / 2 in
  w' ID = w ID /\ w' IU = w IU + dt * G IX * mid /\ w' IV = w IV + dt * G IY * mid /\
  w' IP - kinetic2 (w' ID) (w' IU) (w' IV) = w IP - kinetic2 (w ID) (w IU) (w IV).
Proof.
  intros p g dt aIn aOut s s' Hp Ha Hg He i j Hi Hr.
  destruct (gravity2_spec p g dt aIn aOut s s' Ha Hg He) as (H & _).
  specialize (H i j (proj2 (interior2_inside g i j) Hi)).
  destruct (gravity2_energy p dt (hD (st2 s aIn i j)) (st2 s aOut i j) (gr2 s i j IX) (gr2 s i j IY) Hp Hr) as (E1 & E2 & E3 & E4).
  cbv zeta in *. rewrite <- H in *. auto.
Qed.
Print Assumptions C31_gravity_source_2d.
Theorem C31_gravity_source_3d : forall g dt aIn aOut (s s' : store R),
  arr_ok aIn aOut -> (0 < gw g)%Z ->
  par_exec s (gravity_term3 g dt aIn aOut) s' ->
  forall i j k, inside3 g i j k -> s (Loc aOut i j k ID) <> 0 ->
  let w v := s (Loc aOut i j k v) in
  let w' v := s' (Loc aOut i j k v) in
  let G d := s (Loc aG i j k d) in
  let mid := (s (Loc aIn i j k ID) + w ID) / 2 in
  w' ID = w ID /\ w' IU = w IU + dt * G IX * mid /\ w' IV = w IV + dt * G IY * mid /\ w' IW = w IW + dt * G IZ * mid /\
  w' IP - kinetic3 (w' ID) (w' IU) (w' IV) (w' IW) = w IP - kinetic3 (w ID) (w IU) (w IV) (w IW).
Proof.
  intros g dt aIn aOut s s' Ha Hg He i j k Hi Hr.
  destruct (gravity3_spec g dt aIn aOut s s' Ha Hg He) as (H & _).
  specialize (H i j k (proj2 (interior3_inside g i j k) Hi)).
  destruct (gravity3_energy dt (hD (st3 s aIn i j k)) (st3 s aOut i j k) (gr3 s i j k IX) (gr3 s i j k IY) (gr3 s i j k IZ) Hr) as (E1 & E2 & E3 & E4 & E5).
  cbv zeta in *. rewrite <- H in *. auto 10.
Qed.
Print Assumptions C31_gravity_source_3d.
Example C31_hypotheses_hold : exists s s' : store R,
  par_exec s (gravity_term2 air (Grid 4 5 1 2 4 (fun _ => 3%Z)) 0.1 aU aU2) s' /\
  inside2 (Grid 4 5 1 2 4 (fun _ => 3%Z)) 3 3 /\ smallr air <= s (Loc aU2 3 3 0 ID).
Proof.
  exists (fun _ => 1). eexists. split; [apply par_exec_seq|]. split; [unfold inside2; cbn; lia|cbn; lra].
Qed.
