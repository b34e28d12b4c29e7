(** Consistency of the numerical flux of the spectral difference scheme, and its
    Runge-Kutta stages as combinations of forward Euler steps. *)
From Coq Require Import ZArith List Bool Reals Lia Lra.
From Coquelicot Require Import Coquelicot.
From Verif Require Import Arith Par ParProofs GridModel BoundaryModel BoundarySpec BoundaryProofs HydroState RiemannModel HydroPoint
  HydroKernels CellKernels HydroField HydroExec HydroSpec HydroConserve HydroStep2 Physics RiemannProofs RiemannSelect MoodKernels MoodProofs
  TaskModel TaskKernels SdmGeom SdmSpec SdmLagrange SdmExact SdmPoints EulerModel SdmKernels SdmDofs SdmProofs SdmRunSpec SdmRun SdmConsSpec SdmUniform
  SdmConserve EulerSpec.
Import ListNotations.
Open Scope R_scope.

Lemma points_std n : (1 <= n <= 6)%Z -> points_ok (sdm_points n) /\ ends_ok (sdm_points n).
Proof.
  intros Hn. split; [split; [|split]|].
  - apply increasing_distinct. apply sol_increasing.
  - apply increasing_distinct. apply flux_increasing; auto.
  - intros i j Hi Hj. apply sol_flux_apart; auto.
  - apply flux_ends; auto.
Qed.

Section SF.
Variable b3 : bool.
Variable P : points R.
Variable p : hparams R.
Variable g : grid.
Hypothesis Hok : sdm_ok b3 P g.
Hypothesis HP : points_ok P.
Notation N := (npts P).
Lemma weights1 : lsum (point_weight P) (zrange 0 N) = 1.
Proof. rewrite lsum_suml. change (point_weight P) with (weight P). apply weights_one; [apply Hok|apply HP]. Qed.
Lemma line_weights dir : In dir (dirs b3) -> lsum (quadT b3 P dir) (lines b3 P dir) = 1.
Proof.
  intros Hd. apply dirs_cases in Hd. pose proof weights1 as W. unfold lines, box, cell. rewrite !lsum_prod.
  assert (E2 : forall f, lsum f [0%Z] = f 0%Z) by (intros; cbn; ring).
  assert (L1 : forall f, (forall x, f x = point_weight P x) -> lsum f (zrange 0 N) = 1).
  { intros f Hf. rewrite (lsum_ext f (point_weight P)) by auto. exact W. }
  assert (L2 : forall f c, (forall x, f x = c * point_weight P x) -> lsum f (zrange 0 N) = c).
  { intros f c Hf. rewrite (lsum_ext f (fun x => c * point_weight P x)) by auto. rewrite lsum_scal, W. ring. }
  destruct Hd as [->|[->|[-> E]]]; [destruct b3|destruct b3|rewrite E]; unfold IX, IY, IZ; cbn [Z.eqb Pos.eqb];
  change (zrange 0 1) with [0%Z]; unfold quadT, dirs, IX, IY, IZ, coord; cbn [fold_right Z.eqb Pos.eqb].
  - rewrite E2. apply L1. intros y. apply L2. intros z. cbn. ring.
  - rewrite E2. apply L1. intros y. rewrite E2. cbn. ring.
  - apply L1. intros x. rewrite E2. apply L2. intros z. cbn. ring.
  - apply L1. intros x. rewrite E2, E2. cbn. ring.
  - apply L1. intros x. apply L2. intros y. rewrite E2. cbn. ring.
Qed.
Hypothesis Hp : params_ok p.
Hypothesis Hr : if b3 then riemann_ok3 p else riemann_ok2 p.
Variable w : hs R.
Hypothesis Hw : admissible p w.
Hypothesis Hpl : b3 = false -> planar w.
Hypothesis Hfl : / 10000000 * hD w < hP w /\ (b3 = false -> / 100000000 <= hD w).
Notation k := (comp (conservative (gamma0 p) w)).
Lemma point_cons dir v : In dir (dirs b3) -> comp (point_flux b3 p dir (conservative (gamma0 p) w)) v = comp (cons_flux (gamma0 p) dir (conservative (gamma0 p) w)) v.
Proof.
  intros Hd. f_equal. unfold point_flux. rewrite (pressure_k b3 P p g Hok Hp Hr w Hw Hpl Hfl).
  pose proof (w_pos p Hp w Hw) as [Hd0 _]. destruct Hp as (Hg & _).
  unfold cons_flux. replace (cons_pressure (gamma0 p) (conservative (gamma0 p) w)) with (hP w).
  2:{ unfold cons_pressure, conservative, total_energy. cbn [hD hP hU hV hW]. field. lra. }
  apply dirs_cases in Hd. unfold eul_flux, conservative, total_energy, normal_momentum.
  destruct Hd as [->|[->|[-> E]]]; [| |rewrite E]; try destruct b3; cbn; try rewrite (Hpl eq_refl); f_equal; field; lra.
Qed.
Lemma num_flux_consistent dir v : In dir (dirs b3) ->
  num_flux b3 P p dir (fun _ => k) (fun _ => k) v = comp (cons_flux (gamma0 p) dir (conservative (gamma0 p) w)) v.
Proof.
  intros Hd. unfold num_flux.
  assert (E : forall q, trace_at b3 P p dir (fun _ => k) q = conservative (gamma0 p) w).
  { intros q. transitivity (stV b3 k); [|eapply st_k; eauto]. unfold trace_at. apply stV_ext. intros u _.
    apply (interp_K b3 P p g Hok HP Hp w Hw dir (0,0,0)%Z q u). }
  rewrite (lsum_ext _ (fun l => comp (cons_flux (gamma0 p) dir (conservative (gamma0 p) w)) v * quadT b3 P dir l)).
  - rewrite lsum_scal, line_weights by auto. ring.
  - intros l _. rewrite !E. rewrite (face_k b3 P p g Hok Hp Hr w Hw Hpl Hfl) by auto. rewrite point_cons by auto. ring.
Qed.
End SF.

Section RK.
Variable b3 : bool.
Variable P : points R.
Variable p : hparams R.
Variable g : grid.
Variable dt : R.
Variable junk : cell -> cell -> hs R.
Hypothesis Hok : sdm_ok b3 P g.
Notation step ti := (time_integration b3 P p g dt junk ti aU).
Notation agree := (agreeI b3 P g).
Notation "'U' s" := (sv b3 P s aU) (at level 9).
Lemma aU_st : stA aU. Proof. split; discriminate. Qed.
Lemma euler_of s s' W : agree (U s) W -> run_kernels (step FE) s s' -> agree (U s') (stg b3 P p g dt junk (one, zero, opp one) W W W).
Proof.
  intros HW Hk. apply step_fe in Hk; auto using aU_st. eapply agreeI_trans; [exact Hk|]. apply stg_ext; auto.
Qed.
Lemma sdm_rk2 s s' s1 s2 : run_kernels (step RK2) s s' -> run_kernels (step FE) s s1 -> run_kernels (step FE) s1 s2 ->
  agree (U s') (fun c q v => / 2 * U s c q v + / 2 * U s2 c q v).
Proof.
  intros K K1 K2. pose proof (euler_of s s1 (U s) ltac:(intros c q v; reflexivity) K1) as E1. pose proof (euler_of _ _ _ E1 K2) as E2.
  apply step_rk2 in K; [|auto|apply aU_st|discriminate]. cbv zeta in K. intros c q v Hc Hi Hq Hv. rewrite K, E2 by auto.
  set (U1 := stg b3 P p g dt junk (one, zero, opp one) (U s) (U s) (U s)) in *. unfold stg. cbn [add mul opp half one zero RArith]. field.
Qed.
Lemma sdm_rk3 s s' s1 s2 s3 s4 : run_kernels (step RK3) s s' -> run_kernels (step FE) s s1 -> run_kernels (step FE) s1 s2 ->
  agree (U s3) (fun c q v => 3 / 4 * U s c q v + / 4 * U s2 c q v) -> run_kernels (step FE) s3 s4 ->
  agree (U s') (fun c q v => / 3 * U s c q v + 2 / 3 * U s4 c q v).
Proof.
  intros K K1 K2 E3 K4. pose proof (euler_of s s1 (U s) ltac:(intros c q v; reflexivity) K1) as E1. pose proof (euler_of _ _ _ E1 K2) as E2.
  apply step_rk3 in K; [|auto|apply aU_st|discriminate|discriminate]. cbv zeta in K.
  set (U1 := stg b3 P p g dt junk (one, zero, opp one) (U s) (U s) (U s)) in *.
  set (U2 := stg b3 P p g dt junk (lit 3 4, lit 1 4, opp (lit 1 4)) (U s) U1 U1) in *.
  assert (E3' : agree (U s3) U2).
  { intros c q v Hc Hi Hq Hv. rewrite E3, E2 by auto. unfold U2, stg. cbn [add mul opp half one zero lit RArith]. unfold U1. cbn [add mul opp half one zero lit RArith]. field. }
  pose proof (euler_of _ _ _ E3' K4) as E4. intros c q v Hc Hi Hq Hv. rewrite K, E4 by auto.
  unfold stg. cbn [add mul opp half one zero two div lit RArith]. field.
Qed.
Lemma interior_iff c : In c (interior b3 g) <-> inside b3 g c = true /\ In c (cells b3 g).
Proof.
  split; [apply (In_interior b3 P g junk Hok)|]. intros [Hi Hc]. rewrite (inside_iff b3 g) in Hi. unfold cells in Hc. apply In_cellsD in Hc.
  destruct c as [[x y] z]. unfold interior, rbox, cell. rewrite !in_prod_iff, !In_zrange.
  split; [split|].
  - apply (Hi IX). destruct b3; cbn; auto.
  - apply (Hi IY). destruct b3; cbn; auto.
  - destruct b3 eqn:E.
    + apply In_zrange. apply (Hi IZ). cbn; auto.
    + left. destruct Hc as [_ Hc]. symmetry. apply (Hc eq_refl).
Qed.
End RK.
