(** Theorems about the time step of the MOOD solver (properties C44, C48, C49, C61-C65). *)
From Coq Require Import ZArith List Bool Lia Reals Lra Floats.SpecFloat.
From Verif Require Import Arith SpecF Par ParProofs GridModel BoundaryModel BoundarySpec BoundaryProofs
  HydroState RiemannModel HydroPoint HydroKernels CellKernels HydroField HydroExec HydroSpec HydroSums HydroConserve
  MoodPoly MoodKernels MoodProofs MoodStage MoodSpec MoodRun MoodConserve MoodSafeSpec MoodSafe MoodUniform MoodWitness.
Import ListNotations.
Open Scope Z_scope.

(** ** Balance of the totals (C48) *)
(** 2D, forward Euler: the totals change by what crosses the outer faces. *)
Theorem C48_balance2 : forall (m : mcfg R) g p dt junk junkR aIn aOut s s' v,
  mood_ok m g -> d3 m = false -> io aIn aOut -> 0 <= v < 4 ->
  run_kernels (time_integration m p g dt junk junkR FE aIn aOut) s s' ->
  (total2 g s' aOut v = total2 g s aIn v
    + (sumZ (gw g) (gw g + ny g) (fun j => s' (Loc aFx (gw g) j 0 v) - s' (Loc aFx (gw g + nx g) j 0 v))
    + sumZ (gw g) (gw g + nx g) (fun i => s' (Loc aFy i (gw g) 0 v) - s' (Loc aFy i (gw g + ny g) 0 v))))%R.
Proof.
  intros m g p dt junk junkR aIn aOut s s' v Hm H2 Hio Hv Hk.
  assert (N : stateA aIn /\ stateA aOut /\ aIn <> aOut) by (unfold io in Hio; ma; lia). destruct N as (N1 & N2 & N3).
  eapply balance_fe2; eauto.
Qed.
Print Assumptions C48_balance2.
Theorem C48_balance3 : forall (m : mcfg R) g p dt junk junkR aIn aOut s s' v,
  mood_ok m g -> d3 m = true -> io aIn aOut -> 0 <= v < 5 ->
  run_kernels (time_integration m p g dt junk junkR FE aIn aOut) s s' ->
  (total3 g s' aOut v = total3 g s aIn v
    + (sumZ (gw g) (gw g + ny g) (fun j => sumZ (gw g) (gw g + nz g) (fun k =>
         s' (Loc aFx (gw g) j k v) - s' (Loc aFx (gw g + nx g) j k v)))
    + sumZ (gw g) (gw g + nx g) (fun i => sumZ (gw g) (gw g + nz g) (fun k =>
         s' (Loc aFy i (gw g) k v) - s' (Loc aFy i (gw g + ny g) k v)))
    + sumZ (gw g) (gw g + nx g) (fun i => sumZ (gw g) (gw g + ny g) (fun j =>
         s' (Loc aFz i j (gw g) v) - s' (Loc aFz i j (gw g + nz g) v)))))%R.
Proof.
  intros m g p dt junk junkR aIn aOut s s' v Hm H2 Hio Hv Hk.
  assert (N : stateA aIn /\ stateA aOut /\ aIn <> aOut) by (unfold io in Hio; ma; lia). destruct N as (N1 & N2 & N3).
  eapply balance_fe3; eauto.
Qed.
Print Assumptions C48_balance3.

(** Periodic domain, 2D: the totals are conserved as long as no cell of the first
    row or column is flagged.  Missing for the full claim: flagged cells there (see
    [C48_periodic_refuted]) and 3D (see [C49_stale_refuted]). *)
Theorem C48_conserve_partial : forall (m : mcfg R) g p dt junk junkR aIn aOut s s' v,
  mood_ok m g -> d3 m = false -> io aIn aOut -> 0 <= v < 4 -> all_periodic g -> riemann_ok2 p ->
  run_kernels (time_integration m p g dt junk junkR FE aIn aOut) s s' ->
  (forall i j, gw g <= i < gw g + nx g -> gw g <= j < gw g + ny g -> i = gw g \/ j = gw g ->
     s' (Loc aFlags i j 0 0) = 0%R) ->
  total2 g s' aOut v = total2 g s aIn v.
Proof.
  intros m g p dt junk junkR aIn aOut s s' v Hm H2 Hio Hv Hp Hr Hk Hf.
  assert (N : stateA aIn /\ stateA aOut /\ aIn <> aOut) by (unfold io in Hio; ma; lia). destruct N as (N1 & N2 & N3).
  eapply conserve_fe2; eauto.
Qed.
Print Assumptions C48_conserve_partial.

(** ** Detection and fallback (C48) *)
(** The flag loop, 2D: a cell is flagged exactly when its candidate density is
    negative.  (The candidate pressure plays no role: [C48_pressure_refuted].) *)
Theorem C48_flags2_partial : forall (m : mcfg R) g p aIn s s' i j,
  mood_ok m g -> d3 m = false -> (aIn = aU \/ aIn = aU2 \/ aIn = aRK1 \/ aIn = aRK2) ->
  (0 <= smallr p)%R -> (0 <= smallp p)%R ->
  par_exec s (compute_flags m p g aIn) s' ->
  gw g <= i < gw g + nx g -> gw g <= j < gw g + ny g ->
  let candidate := (s (Loc aIn i j 0 ID) + s (Loc aFx i j 0 ID) - s (Loc aFx (i + 1) j 0 ID)
                      + s (Loc aFy i j 0 ID) - s (Loc aFy i (j + 1) 0 ID))%R in
  ((candidate < 0)%R -> s' (Loc aFlags i j 0 0) = 1%R) /\
  ((0 <= candidate)%R -> s' (Loc aFlags i j 0 0) = 0%R).
Proof.
  intros m g p aIn s s' i j Hm H2 Ha H3 H4 Hk Hi Hj candidate.
  assert (N : stateA aIn) by (ma; lia).
  pose proof (mood_gw m g Hm) as Hw.
  assert (Hint : interior m g (i, j, 0) = true).
  { apply interior_coords. rewrite H2. split; [lia|split; [lia|discriminate]]. }
  destruct (flags_spec m p g (fun _ _ => zero_state) (fun _ _ _ => 0%R) aIn s s' N Hk) as (F & _ & _).
  specialize (F (i, j, 0)). cbn [at_cell] in F. rewrite F.
  2:{ apply (interior_in m g (fun _ _ => zero_state) (fun _ _ _ => zero)); [exact Hw|exact Hint|reflexivity]. }
  unfold flagF. rewrite Hint. unfold flag_value.
  rewrite (ltb_false (hP _)) by (apply prims_pressure; auto). rewrite orb_false_r.
  match goal with |- context [ltb ?c zero] => assert (E : c = candidate) end.
  { unfold candidate, facesF. rewrite H2. unfold fluxS, stF, fv. rewrite H2.
    cbn. rewrite !Z.add_0_r. reflexivity. }
  rewrite E. split; intros Hc.
  - cbn. destruct (Rlt_dec candidate 0); [reflexivity|lra].
  - rewrite ltb_false by exact Hc. reflexivity.
Qed.
Print Assumptions C48_flags2_partial.

(** The fallback loop, 2D: the two lower faces of a flagged cell get the HLL flux of
    the cell values; every other face keeps its flux -- also the upper faces of a
    flagged cell, unless the neighbour is flagged too. *)
Theorem C48_fallback2_partial : forall {T} {AT : Arith T} (m : mcfg T) g p dt aIn s s' i j,
  mood_ok m g -> d3 m = false -> (aIn = aU \/ aIn = aU2 \/ aIn = aRK1 \/ aIn = aRK2) ->
  par_exec s (recompute m p g dt aIn) s' ->
  gw g <= i < gw g + nx g -> gw g <= j < gw g + ny g ->
  let q i j := snd (computePrimitives2 p (HS (s (Loc aIn i j 0 ID)) (s (Loc aIn i j 0 IP))
                 (s (Loc aIn i j 0 IU)) (s (Loc aIn i j 0 IV)) zero)) in
  let stored (u : store T) a := HS (u (Loc a i j 0 ID)) (u (Loc a i j 0 IP)) (u (Loc a i j 0 IU)) (u (Loc a i j 0 IV)) zero in
  let fx := riemann_hll p false (q (i - 1) j) (q i j) in
  let fy := riemann_hll p false (swapUV (q i (j - 1))) (swapUV (q i j)) in
  (ltb zero (s (Loc aFlags i j 0 0)) = true ->
     stored s' aFx = HS (mul (hD fx) (div dt (dx p))) (mul (hP fx) (div dt (dx p)))
                        (mul (hU fx) (div dt (dx p))) (mul (hV fx) (div dt (dx p))) zero /\
     stored s' aFy = HS (mul (hD fy) (div dt (dy p))) (mul (hP fy) (div dt (dy p)))
                        (mul (hV fy) (div dt (dy p))) (mul (hU fy) (div dt (dy p))) zero) /\
  (ltb zero (s (Loc aFlags i j 0 0)) = false -> stored s' aFx = stored s aFx /\ stored s' aFy = stored s aFy).
Proof.
  intros T AT m g p dt aIn s s' i j Hm H2 Ha Hk Hi Hj q stored fx fy.
  assert (N : stateA aIn) by (ma; lia).
  pose proof (mood_gw m g Hm) as Hw.
  assert (Hint : interior m g (i, j, 0) = true).
  { apply interior_coords. rewrite H2. split; [lia|split; [lia|discriminate]]. }
  destruct (recompute_spec m p g dt (fun _ _ => zero_state) (fun _ _ _ => zero) aIn s s' N Hk) as (F & _ & _).
  assert (Hc : In (i, j, 0) (cellsD (d3 m) g)) by (apply (interior_in m g (fun _ _ => zero_state) (fun _ _ _ => zero)); [exact Hw|exact Hint|reflexivity]).
  pose proof (F IX (i, j, 0) ltac:(rewrite H2; cbn; auto) Hc) as FX.
  pose proof (F IY (i, j, 0) ltac:(rewrite H2; cbn; auto) Hc) as FY.
  rewrite H2 in FX, FY. cbn [at_cell] in FX, FY.
  split; intros Hf; rewrite Hf in FX, FY; split.
  - transitivity (stF false (fv s' (aFlux IX)) (i, j, 0)); [reflexivity|]. rewrite FX.
    unfold lowF, wn, w0, low_flux, low_riemann, prims, stF, fv. rewrite H2. cbn.
    rewrite !Z.add_0_r. reflexivity.
  - transitivity (stF false (fv s' (aFlux IY)) (i, j, 0)); [reflexivity|]. rewrite FY.
    unfold lowF, wn, w0, low_flux, low_riemann, prims, stF, fv. rewrite H2. cbn.
    rewrite !Z.add_0_r. reflexivity.
  - exact FX.
  - exact FY.
Qed.
Print Assumptions C48_fallback2_partial.

(** The flag loop in 3D. *)
Theorem C48_flags3_partial : forall (m : mcfg R) g p aIn s s' i j k,
  mood_ok m g -> d3 m = true -> (aIn = aU \/ aIn = aU2 \/ aIn = aRK1 \/ aIn = aRK2) ->
  (0 <= smallr p)%R -> (0 <= smallp p)%R ->
  par_exec s (compute_flags m p g aIn) s' ->
  gw g <= i < gw g + nx g -> gw g <= j < gw g + ny g -> gw g <= k < gw g + nz g ->
  let candidate := (s (Loc aIn i j k ID) + s (Loc aFx i j k ID) - s (Loc aFx (i + 1) j k ID)
                      + s (Loc aFy i j k ID) - s (Loc aFy i (j + 1) k ID)
                      + s (Loc aFz i j k ID) - s (Loc aFz i j (k + 1) ID))%R in
  ((candidate < 0)%R -> s' (Loc aFlags i j k 0) = 1%R) /\
  ((0 <= candidate)%R -> s' (Loc aFlags i j k 0) = 0%R).
Proof.
  intros m g p aIn s s' i j k Hm H2 Ha H3 H4 Hk Hi Hj Hkk candidate.
  assert (N : stateA aIn) by (ma; lia).
  pose proof (mood_gw m g Hm) as Hw.
  assert (Hint : interior m g (i, j, k) = true).
  { apply interior_coords. rewrite H2. split; [lia|split; [lia|intros _; lia]]. }
  destruct (flags_spec m p g (fun _ _ => zero_state) (fun _ _ _ => 0%R) aIn s s' N Hk) as (F & _ & _).
  specialize (F (i, j, k)). cbn [at_cell] in F. rewrite F.
  2:{ apply (interior_in m g (fun _ _ => zero_state) (fun _ _ _ => zero)); [exact Hw|exact Hint|rewrite H2; discriminate]. }
  unfold flagF. rewrite Hint. unfold flag_value.
  rewrite (ltb_false (hP _)) by (apply prims_pressure; auto). rewrite orb_false_r.
  match goal with |- context [ltb ?c zero] => assert (E : c = candidate) end.
  { unfold candidate, facesF. rewrite H2. unfold fluxS, stF, fv. rewrite H2.
    cbn. rewrite !Z.add_0_r. reflexivity. }
  rewrite E. split; intros Hc.
  - cbn. destruct (Rlt_dec candidate 0); [reflexivity|lra].
  - rewrite ltb_false by exact Hc. reflexivity.
Qed.
Print Assumptions C48_flags3_partial.

(** The fallback loop in 3D: the three lower faces of a flagged cell get the flux of the
    configured Riemann solver between the cell values, scaled with dt/dx, dt/dy and [dtdz]
    (what [dtdz] is: [C48_zscale_refuted]); other faces keep their flux. *)
Theorem C48_fallback3_partial : forall {T} {AT : Arith T} (m : mcfg T) g p dt aIn s s' i j k,
  mood_ok m g -> d3 m = true -> (aIn = aU \/ aIn = aU2 \/ aIn = aRK1 \/ aIn = aRK2) ->
  par_exec s (recompute m p g dt aIn) s' ->
  gw g <= i < gw g + nx g -> gw g <= j < gw g + ny g -> gw g <= k < gw g + nz g ->
  let q i j k := snd (computePrimitives3 p (HS (s (Loc aIn i j k ID)) (s (Loc aIn i j k IP))
                 (s (Loc aIn i j k IU)) (s (Loc aIn i j k IV)) (s (Loc aIn i j k IW)))) in
  let stored (u : store T) a := HS (u (Loc a i j k ID)) (u (Loc a i j k IP)) (u (Loc a i j k IU)) (u (Loc a i j k IV)) (u (Loc a i j k IW)) in
  let Z0 := HS zero zero zero zero zero in
  let fx := riemann_hydro3 p (q (i - 1) j k) (q i j k) Z0 in
  let fy := riemann_hydro3 p (swapUV (q i (j - 1) k)) (swapUV (q i j k)) Z0 in
  let fz := riemann_hydro3 p (swapUW (q i j (k - 1))) (swapUW (q i j k)) Z0 in
  (ltb zero (s (Loc aFlags i j k 0)) = true ->
     stored s' aFx = HS (mul (hD fx) (div dt (dx p))) (mul (hP fx) (div dt (dx p)))
                        (mul (hU fx) (div dt (dx p))) (mul (hV fx) (div dt (dx p))) (mul (hW fx) (div dt (dx p))) /\
     stored s' aFy = HS (mul (hD fy) (div dt (dy p))) (mul (hP fy) (div dt (dy p)))
                        (mul (hV fy) (div dt (dy p))) (mul (hU fy) (div dt (dy p))) (mul (hW fy) (div dt (dy p))) /\
     stored s' aFz = HS (mul (hD fz) (dtdz p dt)) (mul (hP fz) (dtdz p dt))
                        (mul (hW fz) (dtdz p dt)) (mul (hV fz) (dtdz p dt)) (mul (hU fz) (dtdz p dt))) /\
  (ltb zero (s (Loc aFlags i j k 0)) = false ->
     stored s' aFx = stored s aFx /\ stored s' aFy = stored s aFy /\ stored s' aFz = stored s aFz).
Proof.
  intros T AT m g p dt aIn s s' i j k Hm H2 Ha Hk Hi Hj Hkk q stored Z0 fx fy fz.
  assert (N : stateA aIn) by (ma; lia).
  pose proof (mood_gw m g Hm) as Hw.
  assert (Hint : interior m g (i, j, k) = true).
  { apply interior_coords. rewrite H2. split; [lia|split; [lia|intros _; lia]]. }
  destruct (recompute_spec m p g dt (fun _ _ => zero_state) (fun _ _ _ => zero) aIn s s' N Hk) as (F & _ & _).
  assert (Hc : In (i, j, k) (cellsD (d3 m) g)) by (apply (interior_in m g (fun _ _ => zero_state) (fun _ _ _ => zero)); [exact Hw|exact Hint|rewrite H2; discriminate]).
  pose proof (F IX (i, j, k) ltac:(rewrite H2; cbn; auto) Hc) as FX.
  pose proof (F IY (i, j, k) ltac:(rewrite H2; cbn; auto) Hc) as FY.
  pose proof (F IZ (i, j, k) ltac:(rewrite H2; cbn; auto) Hc) as FZ.
  rewrite H2 in FX, FY, FZ. cbn [at_cell] in FX, FY, FZ.
  split; intros Hf; rewrite Hf in FX, FY, FZ; split; [|split| |split].
  - transitivity (stF true (fv s' (aFlux IX)) (i, j, k)); [reflexivity|]. rewrite FX.
    unfold lowF, wn, low_flux, low_riemann, prims, stF, fv. rewrite H2. cbn -[riemann_hydro3]. rewrite !Z.add_0_r. reflexivity.
  - transitivity (stF true (fv s' (aFlux IY)) (i, j, k)); [reflexivity|]. rewrite FY.
    unfold lowF, wn, low_flux, low_riemann, prims, stF, fv. rewrite H2. cbn -[riemann_hydro3]. rewrite !Z.add_0_r. reflexivity.
  - transitivity (stF true (fv s' (aFlux IZ)) (i, j, k)); [reflexivity|]. rewrite FZ.
    unfold lowF, wn, low_flux, low_riemann, prims, stF, fv. rewrite H2. cbn -[riemann_hydro3]. rewrite !Z.add_0_r. reflexivity.
  - exact FX.
  - exact FY.
  - exact FZ.
Qed.
Print Assumptions C48_fallback3_partial.

(** Multi-stage integrators, periodic domain, 2D: the totals are conserved as long as no
    cell of the first row or column is flagged in the Euler steps that the stages are made of. *)
Definition edge_unflagged (g : grid) (s : store R) : Prop :=
  forall i j, gw g <= i < gw g + nx g -> gw g <= j < gw g + ny g -> i = gw g \/ j = gw g -> s (Loc aFlags i j 0 0) = 0%R.
Lemma total2_comb g (s s1 s2 : store R) a a1 a2 v x y :
  (forall i j, gw g <= i < gw g + nx g -> gw g <= j < gw g + ny g -> s (Loc a i j 0 v) = (x * s1 (Loc a1 i j 0 v) + y * s2 (Loc a2 i j 0 v))%R) ->
  (total2 g s a v = x * total2 g s1 a1 v + y * total2 g s2 a2 v)%R.
Proof.
  intros H. unfold total2. rewrite <- !sumZ_scal, <- sumZ_add. apply sumZ_ext. intros i Hi.
  rewrite <- !sumZ_scal, <- sumZ_add. apply sumZ_ext. intros j Hj. auto.
Qed.
Theorem C48_conserve_rk2_partial : forall (m : mcfg R) g p dt junk junkR aIn aOut s s' s1 s2 v,
  mood_ok m g -> d3 m = false -> io aIn aOut -> 0 <= v < 4 -> all_periodic g -> riemann_ok2 p ->
  run_kernels (time_integration m p g dt junk junkR RK2 aIn aOut) s s' ->
  run_kernels (time_integration m p g dt junk junkR FE aIn aRK1) s s1 ->
  run_kernels (time_integration m p g dt junk junkR FE aRK1 aOut) s1 s2 ->
  edge_unflagged g s1 -> edge_unflagged g s2 ->
  total2 g s' aOut v = total2 g s aIn v.
Proof.
  intros m g p dt junk junkR aIn aOut s s' s1 s2 v Hm H2 Hio Hv Hp Hr K K1 K2 F1 F2.
  assert (N : stateA aIn /\ stateA aOut /\ stateA aRK1 /\ aIn <> aRK1 /\ aRK1 <> aOut) by (unfold io in Hio; ma; lia).
  destruct N as (N1 & N2 & N3 & N4 & N5).
  assert (T1 : total2 g s1 aRK1 v = total2 g s aIn v) by (eapply conserve_fe2; eauto).
  assert (T2 : total2 g s2 aOut v = total2 g s1 aRK1 v) by (eapply conserve_fe2; eauto).
  rewrite (total2_comb g s' s s2 aOut aIn aOut v (/ 2) (/ 2)); [rewrite T2, T1; lra|].
  intros i j Hi Hj. refine (rk2_weights m g p dt junk junkR aIn aOut s s' s1 s2 (i, j, 0) v Hm Hio K K1 K2 _ _ _).
  - apply interior_coords. rewrite H2. split; [lia|split; [lia|discriminate]].
  - reflexivity.
  - rewrite H2. exact Hv.
Qed.
Print Assumptions C48_conserve_rk2_partial.
(** Third order: [s3] holds the weighted average from which the last Euler step starts. *)
Theorem C48_conserve_rk3_partial : forall (m : mcfg R) g p dt junk junkR aIn aOut s s' s1 s2 s3 s4 v,
  mood_ok m g -> d3 m = false -> io aIn aOut -> 0 <= v < 4 -> all_periodic g -> riemann_ok2 p ->
  run_kernels (time_integration m p g dt junk junkR RK3 aIn aOut) s s' ->
  run_kernels (time_integration m p g dt junk junkR FE aIn aRK1) s s1 ->
  run_kernels (time_integration m p g dt junk junkR FE aRK1 aRK2) s1 s2 ->
  (forall l, la l <> aRK2 -> s3 l = s2 l) ->
  (forall i j w, gw g <= i < gw g + nx g -> gw g <= j < gw g + ny g -> 0 <= w < 4 ->
     s3 (Loc aRK2 i j 0 w) = (3 / 4 * s (Loc aIn i j 0 w) + / 4 * s2 (Loc aRK2 i j 0 w))%R) ->
  run_kernels (time_integration m p g dt junk junkR FE aRK2 aOut) s3 s4 ->
  edge_unflagged g s1 -> edge_unflagged g s2 -> edge_unflagged g s4 ->
  total2 g s' aOut v = total2 g s aIn v.
Proof.
  intros m g p dt junk junkR aIn aOut s s' s1 s2 s3 s4 v Hm H2 Hio Hv Hp Hr K K1 K2 E3 W3 K4 F1 F2 F4.
  assert (N : stateA aIn /\ stateA aOut /\ stateA aRK1 /\ stateA aRK2 /\ aIn <> aRK1 /\ aRK1 <> aRK2 /\ aRK2 <> aOut) by (unfold io in Hio; ma; lia).
  destruct N as (N1 & N2 & N3 & N4 & N5 & N6 & N7).
  assert (T1 : total2 g s1 aRK1 v = total2 g s aIn v) by (eapply conserve_fe2; eauto).
  assert (T2 : total2 g s2 aRK2 v = total2 g s1 aRK1 v) by (eapply conserve_fe2; eauto).
  assert (T3 : (total2 g s3 aRK2 v = 3 / 4 * total2 g s aIn v + / 4 * total2 g s2 aRK2 v)%R) by (apply total2_comb; intros; apply W3; auto).
  assert (T4 : total2 g s4 aOut v = total2 g s3 aRK2 v) by (eapply conserve_fe2; eauto).
  rewrite (total2_comb g s' s s4 aOut aIn aOut v (/ 3) (2 / 3)); [rewrite T4, T3, T2, T1; lra|].
  intros i j Hi Hj. refine (rk3_weights m g p dt junk junkR aIn aOut s s' s1 s2 s3 s4 (i, j, 0) v Hm Hio K K1 K2 E3 _ K4 _ _ _).
  - intros [[i' j'] k'] w Hi' Hz' Hw'. apply interior_coords in Hi'. rewrite H2 in Hi', Hz', Hw'. specialize (Hz' eq_refl). cbn in Hz'. subst k'.
    destruct Hi' as (I1 & I2 & _). apply W3; auto.
  - apply interior_coords. rewrite H2. split; [lia|split; [lia|discriminate]].
  - reflexivity.
  - rewrite H2. exact Hv.
Qed.
Print Assumptions C48_conserve_rk3_partial.

(** ** What fails (C48, C49), in IEEE double precision *)
Local Notation f n d := (@lit _ F64 n d).
Local Notation run64 m p g dt s s' := (run_kernels (time_integration (A := F64) m p g dt wjunk wjunkR FE aU aU2) s s').

Local Ltac in_grid4 :=
  match goal with |- In _ (cellsD (d3 ?m) ?g) => apply (cell_coords m g) end;
  cbn; repeat split; try lia; intros HH; discriminate HH.
(** Periodic domain: the mass flux stored for the left boundary differs by more than
    0.02 from the one stored for the same face on the right. *)
Theorem C48_periodic_refuted : exists (m : mcfg spec_float) g p dt s s',
  mood_ok m g /\ d3 m = false /\ all_periodic g /\ riemann_ok2 p /\ run64 m p g dt s s' /\
  @ltb _ F64 (f 1 50) (@sub _ F64 (s' (Loc aFx (gw g + nx g) (gw g) 0 ID)) (s' (Loc aFx (gw g) (gw g) 0 ID))) = true.
Proof.
  assert (Hm : mood_ok mood2 grid4) by (apply mood2_ok; lia).
  destruct (witness mood2 grid4 (wpar 1) dt36 (wstore stream) Hm) as (s' & Hr & _ & K & _).
  exists mood2, grid4, (wpar 1), dt36, (wstore stream), s'.
  split; [exact Hm|split; [reflexivity|split; [repeat split|split; [cbn; auto 9|split; [exact Hr|]]]]].
  change (gw grid4 + nx grid4) with 6. change (gw grid4) with 2. change aFx with (aFlux IX).
  pose proof (K IX 6 2 0 (or_introl eq_refl) ltac:(in_grid4) eq_refl) as E1.
  pose proof (K IX 2 2 0 (or_introl eq_refl) ltac:(in_grid4) eq_refl) as E2.
  rewrite E1, E2.
  exact stream_faces.
Qed.
Print Assumptions C48_periodic_refuted.
(** The fallback does not keep the density positive: a cell that was flagged, and
    whose lower faces were recomputed, ends with a density below -0.1. *)
Theorem C48_fallback_refuted : exists (m : mcfg spec_float) g p dt s s' i j,
  mood_ok m g /\ d3 m = false /\ riemann_ok2 p /\ run64 m p g dt s s' /\
  gw g <= i < gw g + nx g /\ gw g <= j < gw g + ny g /\
  (forall c, 0 <= c < 7 -> @ltb _ F64 (f 0 1) (s (Loc aU c j 0 ID)) = true) /\
  s' (Loc aFlags i j 0 0) = f 1 1 /\ @ltb _ F64 (s' (Loc aU2 i j 0 ID)) (f (-1) 10) = true.
Proof.
  assert (Hm : mood_ok mood2 grid4) by (apply mood2_ok; lia).
  destruct (witness mood2 grid4 (wpar 1) dt36 (wstore stream) Hm) as (s' & Hr & K1 & _ & K3).
  exists mood2, grid4, (wpar 1), dt36, (wstore stream), s', 2, 2.
  split; [exact Hm|split; [reflexivity|split; [cbn; auto 9|split; [exact Hr|]]]].
  split; [cbn; lia|split; [cbn; lia|]].
  split; [|split].
  - intros c Hc. assert (D : c = 0 \/ c = 1 \/ c = 2 \/ c = 3 \/ c = 4 \/ c = 5 \/ c = 6) by lia.
    repeat (destruct D as [->|D]; [reflexivity|]). subst; reflexivity.
  - rewrite (K3 2 2 0) by in_grid4. exact stream_flag.
  - destruct (K1 2 2 0 eq_refl (fun _ => eq_refl)) as [E _]. rewrite E. exact stream_new.
Qed.
Print Assumptions C48_fallback_refuted.
(** Negative pressures are not detected: the total energy of an unflagged cell ends
    below -1000, at a density above 0.2. *)
Theorem C48_pressure_refuted : exists (m : mcfg spec_float) g p dt s s' i j,
  mood_ok m g /\ d3 m = false /\ riemann_ok2 p /\ run64 m p g dt s s' /\
  gw g <= i < gw g + nx g /\ gw g <= j < gw g + ny g /\
  s' (Loc aFlags i j 0 0) = f 0 1 /\
  @ltb _ F64 (f 1 5) (s' (Loc aU2 i j 0 ID)) = true /\ @ltb _ F64 (s' (Loc aU2 i j 0 IP)) (f (-1000) 1) = true.
Proof.
  assert (Hm : mood_ok mood2 grid3) by (apply mood2_ok; lia).
  destruct (witness mood2 grid3 (wpar 1) dt11 (wstore clash) Hm) as (s' & Hr & K1 & _ & K3).
  exists mood2, grid3, (wpar 1), dt11, (wstore clash), s', 2, 2.
  split; [exact Hm|split; [reflexivity|split; [cbn; auto 9|split; [exact Hr|]]]].
  split; [cbn; lia|split; [cbn; lia|]].
  split.
  - rewrite (K3 2 2 0) by in_grid4. exact clash_flag.
  - destruct (K1 2 2 0 eq_refl (fun _ => eq_refl)) as [E1 E2]. rewrite E1, E2. apply andb_prop. exact clash_new.
Qed.
Print Assumptions C48_pressure_refuted.
(** 3D: the flux through a z face of a flow that varies only along z is halved when
    the cells get twice as wide in y. *)
Theorem C48_zscale_refuted : exists (m m' : mcfg spec_float) g p p' dt s s1 s2,
  mood_ok m g /\ mood_ok m' g /\ d3 m = true /\ d3 m' = true /\
  dx p = dx p' /\ dz p = dz p' /\ gamma0 p = gamma0 p' /\ riemann_type p = riemann_type p' /\
  (forall i j k v i' j', s (Loc aU i j k v) = s (Loc aU i' j' k v)) /\
  run64 m p g dt s s1 /\ run64 m' p' g dt s s2 /\
  s1 (Loc aFz 3 3 3 ID) = @mul _ F64 (f 2 1) (s2 (Loc aFz 3 3 3 ID)) /\
  @ltb _ F64 (s1 (Loc aFz 3 3 3 ID)) (f (-1) 100) = true.
Proof.
  assert (Hm : mood_ok (mood3 1) cube3) by (apply mood3_ok; lia).
  assert (Hm' : mood_ok (mood3 2) cube3) by (apply mood3_ok; lia).
  destruct (witness (mood3 1) cube3 (wpar 1) dt10 (wstore layer) Hm) as (s1 & Hr1 & _ & K & _).
  destruct (witness (mood3 2) cube3 (wpar 2) dt10 (wstore layer) Hm') as (s2 & Hr2 & _ & K' & _).
  exists (mood3 1), (mood3 2), cube3, (wpar 1), (wpar 2), dt10, (wstore layer), s1, s2.
  split; [exact Hm|split; [exact Hm'|]].
  do 6 (split; [reflexivity|]). split; [intros; reflexivity|].
  split; [exact Hr1|split; [exact Hr2|]].
  assert (Hc : In (3, 3, 3) (cellsD true cube3)).
  { apply (cell_coords (mood3 1) cube3). cbn. repeat split; try lia. }
  change aFz with (aFlux IZ).
  pose proof (K IZ 3 3 3 (or_intror (or_intror (or_introl eq_refl))) Hc eq_refl) as E1.
  pose proof (K' IZ 3 3 3 (or_intror (or_intror (or_introl eq_refl))) Hc eq_refl) as E2.
  rewrite E1, E2.
  exact layer_flux.
Qed.
Print Assumptions C48_zscale_refuted.

(** ** No stale polynomials (C49) *)
(** 2D: the new state is a function of the old interior state, for every integrator;
    what the polynomial, flux, flag and stage arrays held before has no influence. *)
Theorem C49_fresh2 : forall {T} {AT : Arith T} (m : mcfg T) g p dt junk junkR ti aIn aOut s t s' t',
  mood_ok m g -> d3 m = false -> io aIn aOut ->
  (forall i j v, gw g <= i < gw g + nx g -> gw g <= j < gw g + ny g -> 0 <= v < 4 ->
     s (Loc aIn i j 0 v) = t (Loc aIn i j 0 v)) ->
  run_kernels (time_integration m p g dt junk junkR ti aIn aOut) s s' ->
  run_kernels (time_integration m p g dt junk junkR ti aIn aOut) t t' ->
  forall i j v, gw g <= i < gw g + nx g -> gw g <= j < gw g + ny g -> 0 <= v < 4 ->
    s' (Loc aOut i j 0 v) = t' (Loc aOut i j 0 v).
Proof.
  intros T AT m g p dt junk junkR ti aIn aOut s t s' t' Hm H2 Hio He K K' i j v Hi Hj Hv.
  apply (fresh_step m g p dt junk junkR ti aIn aOut s t s' t' Hm H2 Hio) with (c := (i, j, 0)); auto.
  - intros [[i0 j0] k0] v0 Hc Hz Hv0. apply interior_coords in Hc. destruct Hc as (A1 & A2 & _). cbn in Hz. rewrite Hz.
    apply He; auto.
  - apply interior_coords. rewrite H2. split; [lia|split; [lia|discriminate]].
Qed.
Print Assumptions C49_fresh2.
(** 3D: false.  A uniform gas at rest in a periodic box, with polynomial arrays that
    start out zero, loses more than a tenth of the density of a cell in one step. *)
Theorem C49_stale_refuted : exists (m : mcfg spec_float) g p dt s s',
  mood_ok m g /\ d3 m = true /\ all_periodic g /\ riemann_ok3 p /\ run64 m p g dt s s' /\
  (forall i j k, s (Loc aU i j k ID) = f 1 1 /\ s (Loc aU i j k IU) = f 0 1 /\
     s (Loc aU i j k IV) = f 0 1 /\ s (Loc aU i j k IW) = f 0 1 /\ s (Loc aU i j k IP) = f 2 1) /\
  @ltb _ F64 (s' (Loc aU2 2 2 2 ID)) (f 9 10) = true.
Proof.
  assert (Hm : mood_ok (mood3 1) cube2) by (apply mood3_ok; lia).
  destruct (witness (mood3 1) cube2 (wpar 1) dt10 (wstore rest) Hm) as (s' & Hr & K1 & _ & _).
  exists (mood3 1), cube2, (wpar 1), dt10, (wstore rest), s'.
  split; [exact Hm|split; [reflexivity|split; [repeat split|split; [cbn; auto 9|split; [exact Hr|]]]]].
  split.
  - intros i j k. repeat split; vm_compute; reflexivity.
  - destruct (K1 2 2 2 eq_refl ltac:(intros H; discriminate H)) as [E _]. rewrite E. exact rest_new.
Qed.
Print Assumptions C49_stale_refuted.

(** ** Runge-Kutta stages (C44) *)
(** SSP-RK2 is the average of the old state and two forward Euler steps. *)
Theorem C44_mood_rk2 : forall (m : mcfg R) g p dt junk junkR aIn aOut s s' s1 s2 c v,
  mood_ok m g -> io aIn aOut ->
  run_kernels (time_integration m p g dt junk junkR RK2 aIn aOut) s s' ->
  run_kernels (time_integration m p g dt junk junkR FE aIn aRK1) s s1 ->
  run_kernels (time_integration m p g dt junk junkR FE aRK1 aOut) s1 s2 ->
  interior m g c = true -> (d3 m = false -> coord c IZ = 0) -> 0 <= v < (if d3 m then 5 else 4) ->
  (s' (at_cell aOut c v) = / 2 * s (at_cell aIn c v) + / 2 * s2 (at_cell aOut c v))%R.
Proof. intros. eapply rk2_weights; eauto. Qed.
Print Assumptions C44_mood_rk2.
(** SSP-RK3: U1 = FE(U); U2 = 3/4 U + 1/4 FE(U1); U' = 1/3 U + 2/3 FE(U2). *)
Theorem C44_mood_rk3 : forall (m : mcfg R) g p dt junk junkR aIn aOut s s' s1 s2 s3 s4 c v,
  mood_ok m g -> io aIn aOut ->
  run_kernels (time_integration m p g dt junk junkR RK3 aIn aOut) s s' ->
  run_kernels (time_integration m p g dt junk junkR FE aIn aRK1) s s1 ->
  run_kernels (time_integration m p g dt junk junkR FE aRK1 aRK2) s1 s2 ->
  (forall l, la l <> aRK2 -> s3 l = s2 l) ->
  (forall c v, interior m g c = true -> (d3 m = false -> coord c IZ = 0) -> 0 <= v < (if d3 m then 5 else 4) ->
     s3 (at_cell aRK2 c v) = (3 / 4 * s (at_cell aIn c v) + / 4 * s2 (at_cell aRK2 c v))%R) ->
  run_kernels (time_integration m p g dt junk junkR FE aRK2 aOut) s3 s4 ->
  interior m g c = true -> (d3 m = false -> coord c IZ = 0) -> 0 <= v < (if d3 m then 5 else 4) ->
  (s' (at_cell aOut c v) = / 3 * s (at_cell aIn c v) + 2 / 3 * s4 (at_cell aOut c v))%R.
Proof. intros. eapply rk3_weights; eauto. Qed.
Print Assumptions C44_mood_rk3.

(** ** Every accepted integrator advances the solution (C61): false *)
(** With SSP-RK54 the new state is the old one, whatever the data; the run goes on
    and the time advances. *)
Theorem C61_ssprk54_refuted : forall {T} {AT : Arith T} (m : mcfg T) g p dt junk junkR aIn aOut s s',
  mood_ok m g -> io aIn aOut ->
  run_kernels (time_integration m p g dt junk junkR RK54 aIn aOut) s s' ->
  forall c v, interior m g c = true -> (d3 m = false -> coord c IZ = 0) -> 0 <= v < (if d3 m then 5 else 4) ->
  s' (at_cell aOut c v) = s (at_cell aIn c v).
Proof.
  intros T AT m g p dt junk junkR aIn aOut s s' Hm Hio K c v Hi Hz Hv.
  apply step_rk54_spec in K; auto. pose proof (mood_gw m g Hm) as Hw.
  assert (Hc : In c (cellsD (d3 m) g)) by (apply (interior_in m g junk junkR); auto).
  pose proof (K c v Hc Hv) as E. unfold fv at 1 in E. rewrite E. apply fillF_interior; auto.
Qed.
Print Assumptions C61_ssprk54_refuted.

(** ** The rescaled time step (C62) *)
Definition pow_R (degree : nat) (x : R) : R := Rpower x ((INR degree + 1) / 3).
(** With SSP-RK3 and degree at least 2 the CFL step is raised to the power
    (degree+1)/3: no larger when it is at most one ... *)
Theorem C62_rescale : forall p degree ti invDt,
  (0 < cfl p / invDt <= 1)%R -> (0 < rescale_dt p (pow_R degree) degree ti invDt <= cfl p / invDt)%R.
Proof.
  intros p degree ti invDt H. unfold rescale_dt, pow_R. cbn [div RArith].
  assert (D : (0 < cfl p / invDt <= cfl p / invDt)%R) by lra.
  destruct ti; auto. destruct (2 <=? degree)%nat eqn:E; auto. apply PeanoNat.Nat.leb_le in E.
  split; [apply exp_pos|].
  apply le_INR in E. cbn [INR] in E.
  assert (Hp : (1 <= (INR degree + 1) / 3)%R) by lra.
  set (x := (cfl p / invDt)%R) in *.
  rewrite <- (Rpower_1 x) at 2 by lra. unfold Rpower. rewrite Rmult_1_l.
  assert (L : (ln x <= 0)%R).
  { rewrite <- ln_1. destruct (Req_dec x 1) as [->|N]; [lra|]. left. apply ln_increasing; lra. }
  assert (G : ((INR degree + 1) / 3 * ln x <= ln x)%R) by nra.
  destruct G as [G|G]; [left; apply exp_increasing; auto|rewrite G; right; reflexivity].
Qed.
Print Assumptions C62_rescale.
(** ... and larger when it exceeds one (degree above 2): the step then violates the CFL
    condition.  The result depends on the unit of time. *)
Theorem C62_rescale_refuted : forall p degree invDt, (2 < degree)%nat -> (1 < cfl p / invDt)%R ->
  (cfl p / invDt < rescale_dt p (pow_R degree) degree RK3 invDt)%R.
Proof.
  intros p degree invDt E H. unfold rescale_dt, pow_R. cbn [div RArith].
  replace (2 <=? degree)%nat with true by (symmetry; apply PeanoNat.Nat.leb_le; lia).
  apply lt_INR in E. cbn [INR] in E.
  set (x := (cfl p / invDt)%R) in *.
  rewrite <- (Rpower_1 x) at 1 by lra. apply Rpower_lt; lra.
Qed.
Print Assumptions C62_rescale_refuted.

(** ** Schedules and memory (C63, C64) *)
Theorem C63_deterministic : forall {T} {AT : Arith T} (m : mcfg T) g p dt junk junkR ti aIn aOut s s1 s2,
  mood_ok m g -> io aIn aOut ->
  run_kernels (time_integration m p g dt junk junkR ti aIn aOut) s s1 ->
  run_kernels (time_integration m p g dt junk junkR ti aIn aOut) s s2 ->
  forall l, s1 l = s2 l.
Proof. intros T AT m g p dt junk junkR ti aIn aOut s s1 s2. apply time_integration_det. Qed.
Print Assumptions C63_deterministic.
Theorem C64_memory_safe : forall {T} {AT : Arith T} (m : mcfg T) g p dt junk junkR ti aIn aOut s,
  mood_ok m g -> io aIn aOut -> ltb (zero : T) zero = false ->
  loops_safe (allocatedM m g ti) (time_integration m p g dt junk junkR ti aIn aOut) s.
Proof. intros T AT m g p dt junk junkR ti aIn aOut s. apply time_integration_safe. Qed.
Print Assumptions C64_memory_safe.

(** ** Uniform flow (C65), 2D; in 3D it is false: [C49_stale_refuted] *)
Theorem C65_uniform2 : forall (m : mcfg R) g p dt junk junkR (k : Z -> R) ti aIn aOut s s',
  mood_ok m g -> d3 m = false -> io aIn aOut -> riemann_ok2 p ->
  (0 <= k ID)%R -> (0 <= smallr p)%R -> (0 <= smallp p)%R ->
  (forall fc, In fc [FACE_XMIN; FACE_XMAX; FACE_YMIN; FACE_YMAX] -> kind_of_code (bc g fc) <> Reflecting) ->
  (forall i j v, gw g <= i < gw g + nx g -> gw g <= j < gw g + ny g -> 0 <= v < 4 -> s (Loc aIn i j 0 v) = k v) ->
  run_kernels (time_integration m p g dt junk junkR ti aIn aOut) s s' ->
  forall i j v, gw g <= i < gw g + nx g -> gw g <= j < gw g + ny g -> 0 <= v < 4 -> s' (Loc aOut i j 0 v) = k v.
Proof.
  intros m g p dt junk junkR k ti aIn aOut s s' Hm H2 Hio Hr Hk H3 H4 Hb He K i j v Hi Hj Hv.
  apply (uniform_mood m g p dt junk junkR k ti aIn aOut s s' Hm H2 Hio Hr Hk H3 H4 Hb) with (c := (i, j, 0)); auto.
  - intros [[i0 j0] k0] v0 Hc Hz Hv0. apply interior_coords in Hc. destruct Hc as (A1 & A2 & _). cbn in Hz. rewrite Hz.
    apply He; auto.
  - apply interior_coords. rewrite H2. split; [lia|split; [lia|discriminate]].
Qed.
Print Assumptions C65_uniform2.

(** ** The hypotheses are met *)
Definition ex_mood : mcfg R := config S2_2 [[0;0]; [1;0]; [0;1]; [2;0]; [1;1]; [0;2]] (fun _ _ => 0%R).
Definition ex_grid : grid := Grid 7 5 1 2 4 (fun _ => 3).
Example ex_mood_ok : mood_ok ex_mood ex_grid.
Proof.
  split; [discriminate|split; [reflexivity|split; [|split; [reflexivity|]]]].
  - unfold grid_ok2d; cbn. lia.
  - intros x y z. cbn. intros H. repeat (destruct H as [H|H]; [injection H as <- <- <-; lia|]). destruct H.
Qed.
Example ex_mood_steps : forall (p : hparams R) dt junk junkR ti s, io aU aU2 /\ io aU2 aU /\ all_periodic ex_grid /\
  exists s', run_kernels (time_integration ex_mood p ex_grid dt junk junkR ti aU aU2) s s'.
Proof.
  intros. split; [unfold io; auto|split; [unfold io; auto|split; [repeat split|]]]. eexists. apply run_kernels_seq.
Qed.
Example ex_rescale : (0 < 1 / 2 / 4 <= 1)%R /\ (1 < 8 / 10 / (1 / 100))%R.
Proof. lra. Qed.
Example ex_ltb : @ltb _ RArith 0%R 0%R = false /\ @ltb _ F64 (f 0 1) (f 0 1) = false.
Proof. split; [|reflexivity]. apply ltb_false. lra. Qed.
(** Uniform gas meets the hypotheses of the multi-stage statements. *)
Lemma ex_fe (p : hparams R) dt junk junkR a b s : stateA a -> stateA b -> a <> b -> riemann_ok2 p -> (0 <= smallr p)%R -> (0 <= smallp p)%R ->
  (forall c v, interior ex_mood ex_grid c = true -> coord c IZ = 0 -> 0 <= v < 4 -> s (at_cell a c v) = 1%R) ->
  exists s', run_kernels (time_integration ex_mood p ex_grid dt junk junkR FE a b) s s' /\ edge_unflagged ex_grid s' /\
    (forall c v, interior ex_mood ex_grid c = true -> coord c IZ = 0 -> 0 <= v < 4 -> s' (at_cell b c v) = 1%R).
Proof.
  intros N1 N2 N3 Hr H3 H4 He.
  assert (Hs : exists s', run_kernels (time_integration ex_mood p ex_grid dt junk junkR FE a b) s s') by (eexists; apply run_kernels_seq).
  destruct Hs as (s' & Hs). exists s'. split; [exact Hs|].
  destruct (uniform_fe ex_mood ex_grid p dt junk junkR (fun _ => 1%R) a b s s' ex_mood_ok eq_refl N1 N2 N3 Hr ltac:(lra) H3 H4) as [U1 U2]; auto.
  { intros f Hf. cbn. discriminate. }
  split; [|exact U1]. intros i j Hi Hj _. apply (U2 (i, j, 0)); [|reflexivity].
  apply interior_coords. split; [exact Hi|split; [exact Hj|discriminate]].
Qed.
Example ex_multi_stage : forall (p : hparams R) dt junk junkR, riemann_ok2 p -> (0 <= smallr p)%R -> (0 <= smallp p)%R ->
  exists s1 s2 s3 s4, let s := fun _ : loc => 1%R in
  run_kernels (time_integration ex_mood p ex_grid dt junk junkR FE aU aRK1) s s1 /\ edge_unflagged ex_grid s1 /\
  run_kernels (time_integration ex_mood p ex_grid dt junk junkR FE aRK1 aRK2) s1 s2 /\ edge_unflagged ex_grid s2 /\
  (forall l, la l <> aRK2 -> s3 l = s2 l) /\
  (forall i j w, gw ex_grid <= i < gw ex_grid + nx ex_grid -> gw ex_grid <= j < gw ex_grid + ny ex_grid -> 0 <= w < 4 ->
     s3 (Loc aRK2 i j 0 w) = (3 / 4 * s (Loc aU i j 0 w) + / 4 * s2 (Loc aRK2 i j 0 w))%R) /\
  run_kernels (time_integration ex_mood p ex_grid dt junk junkR FE aRK2 aU2) s3 s4 /\ edge_unflagged ex_grid s4.
Proof.
  intros p dt junk junkR Hr H3 H4.
  destruct (ex_fe p dt junk junkR aU aRK1 (fun _ => 1%R)) as (s1 & A1 & A2 & A3); auto; try (ma; lia).
  destruct (ex_fe p dt junk junkR aRK1 aRK2 s1) as (s2 & B1 & B2 & B3); auto; try (ma; lia).
  set (s3 := fun l => if la l =? aRK2 then (3 / 4 * 1 + / 4 * s2 l)%R else s2 l).
  destruct (ex_fe p dt junk junkR aRK2 aU2 s3) as (s4 & D1 & D2 & D3); auto; try (ma; lia).
  { intros [[i j] k] v Hi Hz Hv. unfold s3. cbn [at_cell la]. rewrite Z.eqb_refl. change (3 / 4 * 1 + / 4 * s2 (at_cell aRK2 (i, j, k) v) = 1)%R. rewrite (B3 (i, j, k) v) by auto. lra. }
  exists s1, s2, s3, s4. split; [exact A1|split; [exact A2|split; [exact B1|split; [exact B2|split; [|split; [|split; [exact D1|exact D2]]]]]]].
  - intros l Hl. unfold s3. apply Z.eqb_neq in Hl. rewrite Hl. reflexivity.
  - intros i j w _ _ _. reflexivity.
Qed.
