(** A uniform flow is a steady state of the spectral difference scheme. *)
From Coq Require Import ZArith List Bool Reals Lia Lra.
From Coquelicot Require Import Coquelicot.
From Verif Require Import Arith Par ParProofs GridModel BoundaryModel BoundarySpec BoundaryProofs HydroState RiemannModel HydroPoint
  HydroKernels CellKernels HydroField HydroExec HydroSpec HydroConserve HydroStep2 Physics RiemannProofs RiemannSelect MoodKernels MoodProofs
  TaskModel TaskKernels SdmGeom SdmSpec SdmLagrange SdmExact EulerModel SdmKernels SdmDofs SdmProofs SdmRunSpec SdmRun SdmConsSpec.
Import ListNotations.
Open Scope R_scope.

Section SU.
Variable b3 : bool.
Variable P : points R.
Variable p : hparams R.
Variable g : grid.
Variable dt : R.
Variable junk : cell -> cell -> hs R.
Notation N := (npts P).
Hypothesis Hok : sdm_ok b3 P g.
Hypothesis HP : points_ok P.
Hypothesis Hp : params_ok p.
Hypothesis Hr : if b3 then riemann_ok3 p else riemann_ok2 p.

Lemma HN1 : (1 <= N)%Z. Proof. apply Hok. Qed.
Lemma sol2flux_const k n : sol2flux P (fun _ => k) n = k.
Proof.
  pose proof HN1. rewrite (SdmProofs.sol2flux_ext P _ (fun i => peval [k] (solp P i))) by (intros; cbn; ring).
  rewrite exact_sol2flux; [cbn; ring|apply HP|cbn; lia].
Qed.
Lemma deriv_const k n r : (0 <= n < N)%Z -> flux2sol_derivative P (fun _ => k) n r = 0.
Proof.
  intros Hn. pose proof HN1. destruct HP as (_ & H2 & H3).
  rewrite (SdmProofs.deriv_ext P _ (fun i => peval [k] (flxp P i))) by (intros; cbn; ring).
  rewrite exact_flux_derivative; auto; [|cbn; lia].
  replace (Derive (peval [k]) (solp P n)) with 0; [ring|]. symmetry. apply is_derive_unique. apply (is_derive_ext (fun _ => k)).
  - intros t. cbn. ring.
  - auto_derive; auto.
Qed.

(** ** The uniform state *)
Variable w : hs R.
Notation k := (comp (conservative (gamma0 p) w)).
Hypothesis Hw : admissible p w.
Hypothesis Hpl : b3 = false -> planar w.
(** No floor of EulerEquations.h is active. *)
Hypothesis Hfl : / 10000000 * hD w < hP w /\ (b3 = false -> / 100000000 <= hD w).

Lemma w_pos : 0 < hD w /\ smallr p <= hD w.
Proof. destruct Hw, Hp as (_ & ? & _). lra. Qed.
Lemma st_k : stV b3 k = conservative (gamma0 p) w.
Proof.
  unfold stV, comp, ID, IP, IU, IV, IW. cbn [Z.eqb Pos.eqb]. destruct b3; [reflexivity|].
  unfold conservative. cbn [hD hP hU hV hW zero RArith]. rewrite (Hpl eq_refl), Rmult_0_r. reflexivity.
Qed.
Lemma pressure_k : compute_pressure b3 (gamma0 p) (conservative (gamma0 p) w) = hP w.
Proof.
  pose proof w_pos as [Hd _]. destruct Hp as (Hg & _). unfold compute_pressure, eul_ekin, conservative, total_energy, eul_smallp.
  cbn [hD hP hU hV hW mul sub add div half one ltb RArith lit].
  replace ((gamma0 p - 1) * _) with (hP w).
  - destruct (Rlt_dec _ _) as [_|H]; [reflexivity|]. exfalso. apply H. destruct Hfl. lra.
  - destruct b3; [field; lra|]. rewrite (Hpl eq_refl). field. lra.
Qed.
Lemma prim_k : convert_to_primitive b3 (gamma0 p) (conservative (gamma0 p) w) = w.
Proof.
  pose proof w_pos as [Hd _]. destruct Hp as (Hg & _). destruct Hfl as [F1 F2].
  unfold convert_to_primitive, eul_ekin, conservative, total_energy, eul_smallp.
  cbn [hD hP hU hV hW mul sub add div half one maxv RArith lit zero].
  assert (E : (if b3 then hD w else Rmax (hD w) (1 / 100000000)) = hD w).
  { destruct b3; [reflexivity|]. apply Rmax_left. specialize (F2 eq_refl). lra. }
  change (IZR 1 / IZR 100000000) with (1 / 100000000). rewrite E.
  replace ((gamma0 p - 1) * _) with (hP w) by (destruct b3; [field; lra|]; rewrite (Hpl eq_refl); field; lra).
  rewrite Rmax_left by lra. destruct w as [d pr u v z]. cbn [hD hP hU hV hW] in *.
  f_equal; try (field; lra). destruct b3; [field; lra|]. symmetry. apply (Hpl eq_refl).
Qed.
Lemma admissible_swap dir q : admissible p q -> admissible p (swapd dir q).
Proof. unfold swapd. destruct (dir =? IX)%Z; [|destruct (dir =? IY)%Z]; auto. Qed.
Lemma face_k dir j : In dir (dirs b3) -> face_flux b3 p dir (conservative (gamma0 p) w) (conservative (gamma0 p) w) j =
  point_flux b3 p dir (conservative (gamma0 p) w).
Proof.
  intros Hd. pose proof w_pos as [Hw0 _]. unfold face_flux, point_flux. rewrite prim_k, pressure_k.
  assert (Hpl' : b3 = false -> planar (swapd dir w)).
  { intros E. specialize (Hpl E). clear Hr. subst b3. destruct Hd as [<-|[<-|[]]]; exact Hpl. }
  assert (E : (if b3 then riemann_hydro3 p (swapd dir w) (swapd dir w) j else riemann_hydro2 p (swapd dir w) (swapd dir w) j) =
    euler_flux (gamma0 p) (swapd dir w)).
  { clear Hfl. destruct b3; [apply consistent3|apply consistent2]; auto using admissible_swap. }
  rewrite E. apply dirs_cases in Hd. destruct Hp as (Hg & _). unfold eul_flux, conservative, euler_flux, total_energy.
  destruct Hd as [->|[->|[-> ->]]]; try destruct b3; cbn; unfold swapUV, swapUW; cbn;
  try rewrite (Hpl eq_refl); f_equal; field; lra.
Qed.

Notation K := (fun (_ _ : cell) v => k v).
Notation agreeS := (agreeS b3 P g).
Notation agreeI := (agreeI b3 P g).
(** Walls the gas flows through are not allowed. *)
Definition walls_ok : Prop := forall a hi, In a (dirs b3) -> bc_of g a hi = BC_DIRICHLET -> k (ivel a) = 0.
Hypothesis Hbc : walls_ok.
Lemma fill_K c q v : ghosts P g b3 K c q v = k v.
Proof.
  unfold ghosts. revert c q v. assert (G : forall l X, incl l (dirs b3) -> (forall c q v, X c q v = k v) ->
    forall c q v, fold_left (fun W a => ghost_along P g a W) l X c q v = k v).
  { induction l as [|a l IH]; intros X Hl HX; [apply HX|]. cbn [fold_left]. apply IH; [intros x Hx; apply Hl; right; auto|].
    intros c q v. unfold ghost_along. cbv zeta. rewrite !HX.
    destruct (is_ghost _ _); [|reflexivity]. destruct (reflected _ _ _ _) eqn:E; [|reflexivity].
    destruct (Z.eqb_spec v (ivel a)) as [->|]; cbn [mul opp one RArith]; [|ring].
    assert (k (ivel a) = 0) as ->; [|ring]. assert (Ha : In a (dirs b3)) by (apply Hl; left; auto).
    unfold reflected in E. rewrite !kind_dirichlet in E. destruct (_ <? 0)%Z.
    - destruct (Z.eqb_spec (bc_of g a false) BC_DIRICHLET); [eapply Hbc; eauto|]. destruct (_ =? _)%Z; discriminate.
    - destruct (_ <=? _)%Z; [|discriminate]. destruct (Z.eqb_spec (bc_of g a true) BC_DIRICHLET); [eapply Hbc; eauto|]. destruct (_ =? _)%Z; discriminate. }
  apply G; [apply incl_refl|]. reflexivity.
Qed.
Lemma interp_K dir c q v : interpF P p dir K c q v = k v.
Proof.
  unfold interpF. rewrite sol2flux_const. unfold floor_density. destruct (Z.eqb_spec v ID) as [->|]; [|reflexivity].
  cbn [maxv RArith]. apply Rmax_left. apply w_pos.
Qed.
Lemma flux_K dir c q v : In dir (dirs b3) -> inside b3 g c = true -> In c (cells b3 g) ->
  fluxU b3 P p g junk dir K c q v = comp (point_flux b3 p dir (conservative (gamma0 p) w)) v.
Proof.
  intros Hd Hi Hc. unfold fluxU, fluxF. cbv zeta. rewrite (inside_iff b3 g) in Hi. specialize (Hi dir Hd).
  pose proof (size_pos b3 P g Hok dir Hd) as [_ Hgw].
  assert (E : forall c q, stV b3 (interpF P p dir K c q) = conservative (gamma0 p) w).
  { intros c0 q0. transitivity (stV b3 k); [apply stV_ext; intros; apply interp_K|apply st_k]. }
  rewrite !E. destruct (coord q dir =? 0)%Z.
  - rewrite (proj2 (Z.ltb_lt 0 (coord c dir))) by lia. rewrite face_k by auto. reflexivity.
  - destruct (coord q dir =? N)%Z; [|reflexivity]. rewrite sizeA_N.
    rewrite (proj2 (Z.ltb_lt (coord c dir + 1) (sizeN g dir + 2 * gw g))) by lia. rewrite face_k by auto. reflexivity.
Qed.
Lemma div_K U : agreeI U K -> forall c q v, In c (cells b3 g) -> inside b3 g c = true -> In q (dofs b3 P) -> In v (vars b3) ->
  divF b3 P p g junk (ghosts P g b3 U) c q v = 0.
Proof.
  intros HU c q v Hc Hi Hq Hv. pose proof (ghosts_ext b3 P g junk Hok _ _ HU) as HG.
  assert (HG' : agreeS (ghosts P g b3 U) K).
  { intros c0 q0 v0 H1 H2 H3. rewrite HG by auto. apply fill_K. }
  rewrite (divF_ext b3 P p g junk Hok _ _ HG') by auto. unfold divF.
  assert (T0 : forall dir, In dir (dirs b3) -> termF b3 P p g junk dir K c q v = 0).
  { intros dir Hd. unfold termF, derivF.
    rewrite (SdmProofs.deriv_ext P _ (fun _ => comp (point_flux b3 p dir (conservative (gamma0 p) w)) v)) by (intros; apply flux_K; auto).
    apply deriv_const. apply (dof_line b3 P dir q Hd Hq). }
  assert (G : forall l a, incl l (dirs b3) -> a = 0 -> fold_left (fun acc dir => add acc (termF b3 P p g junk dir K c q v)) l a = 0).
  { induction l as [|d l IH]; intros a Hl Ha; [exact Ha|]. cbn [fold_left]. apply IH; [intros x Hx; apply Hl; right; auto|].
    cbn [add RArith]. rewrite T0 by (apply Hl; left; auto). lra. }
  apply G; [apply incl_refl|reflexivity].
Qed.
Lemma stg_K c0 c1 c2 U0 U1 W : c0 + c1 = 1 -> agreeI U0 K -> agreeI U1 K -> agreeI W K ->
  agreeI (stg b3 P p g dt junk (c0, c1, c2) U0 U1 W) K.
Proof.
  intros Hc H0 H1 HW c q v Hc' Hi Hq Hv. unfold stg. rewrite (div_K W) by auto. rewrite H0, H1 by auto.
  cbn [add mul RArith]. replace 1 with (c0 + c1) by lra. rewrite Rmult_0_r, Rplus_0_r, <- Rmult_plus_distr_r, Hc. ring.
Qed.
Theorem uniform_sdm ti a (s s' : store R) : ti <> RK54 -> sdm_state a -> (ti <> FE -> a = aU) ->
  agreeI (sv b3 P s a) K -> run_kernels (time_integration b3 P p g dt junk ti a) s s' -> agreeI (sv b3 P s' a) K.
Proof.
  intros Hti Ha Hau HU Hk. pose proof (state_stA a Ha) as HsA.
  destruct ti; [| | |congruence].
  - apply step_fe in Hk; auto. eapply agreeI_trans; [exact Hk|]. apply stg_K; auto. cbn. ring.
  - rewrite Hau in * by discriminate. apply step_rk2 in Hk; auto; [|discriminate]. eapply agreeI_trans; [exact Hk|].
    assert (E1 : agreeI (stg b3 P p g dt junk (one, zero, opp one) (sv b3 P s aU) (sv b3 P s aU) (sv b3 P s aU)) K) by (apply stg_K; auto; cbn; ring).
    apply stg_K; auto. cbn. field.
  - rewrite Hau in * by discriminate. apply step_rk3 in Hk; auto; try discriminate. eapply agreeI_trans; [exact Hk|].
    assert (E1 : agreeI (stg b3 P p g dt junk (one, zero, opp one) (sv b3 P s aU) (sv b3 P s aU) (sv b3 P s aU)) K) by (apply stg_K; auto; cbn; ring).
    assert (E2 : agreeI (stg b3 P p g dt junk (lit 3 4, lit 1 4, opp (lit 1 4)) (sv b3 P s aU)
       (stg b3 P p g dt junk (one, zero, opp one) (sv b3 P s aU) (sv b3 P s aU) (sv b3 P s aU))
       (stg b3 P p g dt junk (one, zero, opp one) (sv b3 P s aU) (sv b3 P s aU) (sv b3 P s aU))) K) by (apply stg_K; auto; cbn; field).
    apply stg_K; auto. cbn. field.
Qed.
(** The weights of the last stage of SSP-RK54 do not sum to one. *)
Theorem uniform_rk54 (s s' : store R) : agreeI (sv b3 P s aU) K -> run_kernels (time_integration b3 P p g dt junk RK54 aU) s s' ->
  forall c q v, In c (cells b3 g) -> inside b3 g c = true -> In q (dofs b3 P) -> In v (vars b3) ->
  sv b3 P s' aU c q v = (1 + 1 / 1000000000000000) * k v.
Proof.
  intros HU Hk c q v Hc Hi Hq Hv. apply step_rk54 in Hk; auto.
  2:{ split; discriminate. }
  2:{ intros n Hn. unfold aU, aK. lia. }
  rewrite Hk by auto. clear Hk. set (U := sv b3 P s aU) in *. set (U1 := stg b3 P p g dt junk (rk54 0) U U U).
  assert (E1 : agreeI U1 K) by (apply stg_K; auto; cbn; field).
  set (U2 := stg b3 P p g dt junk (rk54 1) U U1 U1). assert (E2 : agreeI U2 K) by (apply stg_K; auto; cbn; field).
  set (U3 := stg b3 P p g dt junk (rk54 2) U U2 U2). assert (E3 : agreeI U3 K) by (apply stg_K; auto; cbn; field).
  set (U4 := stg b3 P p g dt junk (rk54 3) U U3 U3). assert (E4 : agreeI U4 K) by (apply stg_K; auto; cbn; field).
  unfold stg at 1. cbn [rk54 nth]. rewrite (div_K U4) by auto. rewrite E4 by auto. unfold stg at 1. rewrite (div_K U3) by auto.
  rewrite E2, E3 by auto. cbn. field.
Qed.
End SU.
