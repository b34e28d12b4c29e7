(** Theorems about the MHD initial conditions: C40 and C71.  Specifications: MhdInitSpec.v
    ([field_setting], [pressure_setting], [prescribed_pressure], [derived2], [derived3]),
    MhdSpec.v ([div2], [div3], [mfill2], [mfill3]: the field after the ghost fill that
    starts the first step). *)
From Coq Require Import ZArith List Bool Lia Reals Lra.
From Verif Require Import Arith Par ParProofs GridModel BoundaryModel BoundarySpec HydroState HydroKernels HydroSpec
  MhdState MhdPoint MhdSpec MhdInit MhdInitSpec MhdInitDiv MhdInitPressure.
Import ListNotations.
Open Scope Z_scope.

(** ** C40: the initial magnetic field has zero discrete divergence *)
(** 2D, all problems (any schedule of the loops). *)
Theorem C40_div2 : forall (m : libm R) g p bx q s s' i j,
  mhd_grid2 g -> fresh s -> field_setting false g p bx q ->
  run_kernels (init_problem m false g p bx q) s s' -> inside2 g i j ->
  div2 (mh p) (mfill2 g s' aU) i j = 0%R.
Proof. exact init_div2. Qed.
Print Assumptions C40_div2.

(** 3D, all problems; the library functions are the real ones for the wave problem. *)
Theorem C40_div3 : forall (m : libm R) g p bx q s s' i j k,
  mhd_grid3 g -> fresh s -> field_setting true g p bx q -> (forall w, q = PWave w -> m = RLibm) ->
  run_kernels (init_problem m true g p bx q) s s' -> inside3 g i j k ->
  div3 (mh p) (mfill3 g s' aU) i j k = 0%R.
Proof. exact init_div3. Qed.
Print Assumptions C40_div3.

(** Finding: the implosion with different fields in the two regions has a field with
    divergence (jump over cell size) along the interface. *)
Theorem C40_implode_interface : forall g p bx q s s' i j,
  one_process bx -> fresh s -> mhd_grid2 g -> open_faces g ->
  run_kernels (init_problem RLibm false g p bx (PImplode q)) s s' ->
  inside2 g i j -> inside2 g (i + 1) j -> inside2 g i (j + 1) ->
  ~ in_outer false g (mh p) bx q i j 0 -> in_outer false g (mh p) bx q (i + 1) j 0 -> in_outer false g (mh p) bx q i (j + 1) 0 ->
  div2 (mh p) (mfill2 g s' aU) i j =
  ((mA (im_out q) - mA (im_in q)) / dx (mh p) + (mB (im_out q) - mB (im_in q)) / dy (mh p))%R.
Proof. intros. eapply implode_div2; eauto. Qed.
Print Assumptions C40_implode_interface.

(** Example settings: the unit square (cube), 4 cells in each direction. *)
Definition igrid : grid := Grid 4 4 4 3 8 (fun _ => 3).
Definition ipar : mparams R := MParams (HParams R 2 1 (1/100) (1/100) (1/1000) 1 1 (1/2) (1/4) (1/4) (1/4) RIEMANN_HLLD)%R 0%R 0%R 0%R.
Definition ibox : box R := Box 0%R 1%R 0%R 1%R 0%R 1%R (fun _ => 0).
(** The loop is around the origin: a box around it. *)
Definition lbox : box R := Box (-1/2)%R (1/2)%R (-1/2)%R (1/2)%R (-1/2)%R (1/2)%R (fun _ => 0).
Definition iloop : field_loop R := FieldLoop (3/8)%R 2%R 1%R 1%R.
Definition iimp (a : R) : implode R := Implode (MS 1 1 0 0 0 a 0 0)%R (MS 2 1 0 0 0 0 0 0)%R 0.
Lemma iopen : open_faces igrid.
Proof. intros f; cbn; discriminate. Qed.

Theorem C40_implode_refuted : exists g p bx q s s' i j,
  mhd_grid2 g /\ fresh s /\ open_faces g /\ one_process bx /\ run_kernels (init_problem RLibm false g p bx (PImplode q)) s s' /\
  inside2 g i j /\ div2 (mh p) (mfill2 g s' aU) i j <> 0%R.
Proof.
  assert (E : exists s', run_kernels (init_problem RLibm false igrid ipar ibox (PImplode (iimp 1))) (fun _ => 0%R) s')
    by (eexists; apply run_kernels_seq).
  destruct E as [s' E].
  exists igrid, ipar, ibox, (iimp 1), (fun _ => 0%R), s', 4, 3.
  split; [unfold mhd_grid2; cbn; lia|]. split; [intros l; reflexivity|]. split; [exact iopen|]. split; [intros d; reflexivity|].
  split; [exact E|]. split; [unfold inside2; cbn; lia|].
  rewrite (implode_div2 igrid ipar ibox (fun _ => eq_refl) (iimp 1) (fun _ => 0%R) s' (fun _ => eq_refl) 4 3); auto;
    try (unfold mhd_grid2, inside2, in_outer, centre; cbn; first [lia | lra]); try exact iopen.
Qed.
Print Assumptions C40_implode_refuted.

Example C40_hypotheses_hold : mhd_grid2 igrid /\ mhd_grid3 igrid /\ fresh (fun _ => 0%R) /\
  field_setting false igrid ipar ibox (PBlast (Blast (1/4) (1/2) (1/2) (1/2) 1 1 10 1))%R /\
  field_setting true igrid ipar ibox (POrszagTang 1%R) /\
  field_setting true igrid ipar lbox (PFieldLoop iloop) /\
  field_setting true igrid ipar ibox (PImplode (iimp 0)) /\
  (exists w, field_setting true igrid ipar ibox (PWave w)) /\
  inside2 igrid 3 4 /\ inside3 igrid 3 4 5.
Proof.
  split; [unfold mhd_grid2; cbn; lia|]. split; [unfold mhd_grid3, mhd_grid2; cbn; lia|]. split; [intros l; reflexivity|].
  split; [exact iopen|]. split; [exact iopen|]. split.
  { split; [intros f; reflexivity|]. split; [intros d; reflexivity|].
    intros i j H. unfold centre, Rsqr. cbn in *.
    assert (Q : forall z : Z, (z = 3 \/ z = 7)%Z -> (9 / 64 <= (-1 / 2 + (IZR (z - 3) + / 2) * (1 / 4)) * (-1 / 2 + (IZR (z - 3) + / 2) * (1 / 4)))%R).
    { intros z [->| ->]; cbn; lra. }
    assert (N : forall x : R, (0 <= x * x)%R) by (intros; nra).
    destruct H as [H|[H|[H|H]]]; [pose proof (Q i (or_introl H)) as K; pose proof (N (-1 / 2 + (IZR (j - 3) + / 2) * (1 / 4))%R)
      |pose proof (Q i (or_intror H)) as K; pose proof (N (-1 / 2 + (IZR (j - 3) + / 2) * (1 / 4))%R)
      |pose proof (Q j (or_introl H)) as K; pose proof (N (-1 / 2 + (IZR (i - 3) + / 2) * (1 / 4))%R)
      |pose proof (Q j (or_intror H)) as K; pose proof (N (-1 / 2 + (IZR (i - 3) + / 2) * (1 / 4))%R)]; lra. }
  split; [split; [exact iopen|]; cbn; auto|]. split.
  { eexists. intros _. split; [intros f; reflexivity|]. exists (1/10)%R. exists 1. exists (5/3)%R. cbv zeta.
    split; [cbn; lra|]. split; [cbn; lra|]. split; [cbn; lra|]. unfold wave_params. reflexivity. }
  split; [unfold inside2; cbn; lia|unfold inside3; cbn; lia].
Qed.

(** ** C71: the initial state has the prescribed pressure *)
(** 3D: converting the initial state as the first step does gives the pressure that the
    parameters of the problem prescribe, at every interior cell. *)
Theorem C71_pressure3 : forall g p bx q s s' i j k P,
  (1 < gamma0 (mh p))%R -> (cIso p <= 0)%R -> (0 < smallr (mh p))%R -> one_process bx -> fresh s ->
  mhd_grid3 g -> field_setting true g p bx q -> pressure_setting true g p bx q ->
  run_kernels (init_problem RLibm true g p bx q) s s' -> inside3 g i j k ->
  prescribed_pressure true g p bx q i j k P ->
  (smallr (mh p) <= mD (mfill3 g s' aU i j k))%R -> (mD (mfill3 g s' aU i j k) * smallp (mh p) <= P)%R ->
  mP (derived3 p (mfill3 g s' aU) i j k) = P.
Proof.
  intros g p bx q s s' i j k P Hg Hi Hr Ho Hs G Hq Hps Hrun Hin Hpr HD HP.
  destruct q as [q|q|kt|rnd q|q|q|q];
    try (eapply pressure3_straight; eauto; exact I).
  - destruct Hq as (H1 & H2 & H3). cbn [prescribed_pressure] in Hpr. subst P. eapply loop_pressure3; eauto.
Qed.
Print Assumptions C71_pressure3.

(** 2D: Orszag-Tang, Kelvin-Helmholtz, rotor and implosion. *)
Theorem C71_pressure2 : forall g p bx q s s' i j P,
  (1 < gamma0 (mh p))%R -> (cIso p <= 0)%R -> (0 < smallr (mh p))%R -> one_process bx -> fresh s ->
  mhd_grid2 g -> field_setting false g p bx q -> pressure_setting false g p bx q ->
  (forall b, q <> PBlast b) -> (forall f, q <> PFieldLoop f) ->
  run_kernels (init_problem RLibm false g p bx q) s s' -> inside2 g i j ->
  prescribed_pressure false g p bx q i j 0 P ->
  (smallr (mh p) <= mD (mfill2 g s' aU i j))%R -> (mD (mfill2 g s' aU i j) * smallp (mh p) <= P)%R ->
  mP (derived2 p (mfill2 g s' aU) i j) = P.
Proof.
  intros g p bx q s s' i j P Hg Hi Hr Ho Hs G Hq Hps Hb Hf Hrun Hin Hpr HD HP.
  destruct q as [q|q|kt|rnd q|q|q|q];
    try (eapply pressure2_straight; eauto; exact I).
  - exfalso. eapply Hf. reflexivity.
Qed.
Print Assumptions C71_pressure2.

(** Finding: in 2D the blast starts with a pressure that is too high by 3/32 (gamma - 1)
    (the energy contains the field Bz = 1/2, the conversion averages it with 0). *)
Theorem C71_blast2_refuted : forall g p bx q s s' i j P,
  (1 < gamma0 (mh p))%R -> (cIso p <= 0)%R -> (0 < smallr (mh p))%R -> one_process bx -> fresh s ->
  mhd_grid2 g -> field_setting false g p bx (PBlast q) ->
  run_kernels (init_problem RLibm false g p bx (PBlast q)) s s' -> inside2 g i j ->
  prescribed_pressure false g p bx (PBlast q) i j 0 P ->
  (smallr (mh p) <= mD (mfill2 g s' aU i j))%R -> (mD (mfill2 g s' aU i j) * smallp (mh p) <= P)%R ->
  mP (derived2 p (mfill2 g s' aU) i j) = (P + (gamma0 (mh p) - 1) * (3 / 32))%R /\
  mP (derived2 p (mfill2 g s' aU) i j) <> P.
Proof.
  intros g p bx q s s' i j P Hg Hi Hr Ho Hs G Hq Hrun Hin Hpr HD HP.
  assert (E : mP (derived2 p (mfill2 g s' aU) i j) = (P + (gamma0 (mh p) - 1) * (3 / 32))%R).
  { eapply pressure2_blast; eauto. }
  split; [exact E|]. rewrite E. lra.
Qed.
Print Assumptions C71_blast2_refuted.

(** Finding: in 2D the field loop starts with a pressure that is too low whenever it
    moves (the stored energy leaves out the momentum along z). *)
Theorem C71_loop2_refuted : forall g p bx q s s' i j,
  (1 < gamma0 (mh p))%R -> (cIso p <= 0)%R -> (0 < smallr (mh p))%R -> one_process bx -> fresh s ->
  mhd_grid2 g -> 0 < nz g -> field_setting false g p bx (PFieldLoop q) -> fl_vflow q <> 0%R ->
  run_kernels (init_problem RLibm false g p bx (PFieldLoop q)) s s' -> inside2 g i j ->
  let D := mD (mfill2 g s' aU i j) in
  let P := (1 - (gamma0 (mh p) - 1) * (/ 2 * (D * (fl_vflow q * fl_vflow q)
              * (IZR (nz g) * IZR (nz g) / IZR (nx g * nx g + ny g * ny g + nz g * nz g)))))%R in
  (smallr (mh p) <= D)%R -> (D * smallp (mh p) <= P)%R ->
  mP (derived2 p (mfill2 g s' aU) i j) = P /\ (P < 1)%R.
Proof.
  intros g p bx q s s' i j Hg Hi Hr Ho Hs G Hnz (H1 & H2 & H3) Hv Hrun Hin D P HD HP.
  split; [eapply loop_pressure2; eauto|]. unfold P.
  assert (HN : (0 < IZR (nx g * nx g + ny g * ny g + nz g * nz g))%R) by (apply IZR_lt; destruct G as (_ & _ & ? & ?); nia).
  assert (HZ : (0 < IZR (nz g))%R) by (apply IZR_lt; lia).
  assert (HV : (0 < fl_vflow q * fl_vflow q)%R) by nra.
  assert (HQ : (0 < IZR (nz g) * IZR (nz g) / IZR (nx g * nx g + ny g * ny g + nz g * nz g))%R).
  { apply Rdiv_lt_0_compat; nra. }
  assert (0 < D * (fl_vflow q * fl_vflow q))%R by (apply Rmult_lt_0_compat; lra).
  assert (0 < D * (fl_vflow q * fl_vflow q) * (IZR (nz g) * IZR (nz g) / IZR (nx g * nx g + ny g * ny g + nz g * nz g)))%R by (apply Rmult_lt_0_compat; lra).
  assert (0 < (gamma0 (mh p) - 1) * (/ 2 * (D * (fl_vflow q * fl_vflow q) * (IZR (nz g) * IZR (nz g) / IZR (nx g * nx g + ny g * ny g + nz g * nz g)))))%R
    by (apply Rmult_lt_0_compat; lra).
  lra.
Qed.
Print Assumptions C71_loop2_refuted.

(** Finding: the implosion stores the configured velocity as momentum while its energy
    counts half density times velocity squared, so a moving region starts with another
    pressure unless its density is 1. *)
Theorem C71_implode_refuted : forall g p bx q s s' i j k r,
  (1 < gamma0 (mh p))%R -> (cIso p <= 0)%R -> (0 < smallr (mh p))%R -> one_process bx -> fresh s ->
  mhd_grid3 g -> field_setting true g p bx (PImplode q) ->
  run_kernels (init_problem RLibm true g p bx (PImplode q)) s s' -> inside3 g i j k ->
  (in_outer true g (mh p) bx q i j k /\ r = im_out q) \/ (~ in_outer true g (mh p) bx q i j k /\ r = im_in q) ->
  let P := (mP r + (gamma0 (mh p) - 1) * (/ 2 * (mU r * mU r + mV r * mV r + mW r * mW r) * (mD r - / mD r)))%R in
  (smallr (mh p) <= mD r)%R -> (mD r * smallp (mh p) <= P)%R ->
  mP (derived3 p (mfill3 g s' aU) i j k) = P /\
  (mD r <> 1 -> mU r <> 0 \/ mV r <> 0 \/ mW r <> 0 -> P <> mP r)%R.
Proof.
  intros g p bx q s s' i j k r Hg Hi Hr Ho Hs G Hq Hrun Hin Hreg P HD HP.
  split; [eapply implode_pressure3; eauto|]. intros H1 H2 E. unfold P in E.
  assert (HK : (0 < mU r * mU r + mV r * mV r + mW r * mW r)%R).
  { assert (N : forall x : R, (0 <= x * x)%R) by (intros; nra). assert (M : forall x : R, (x <> 0 -> 0 < x * x)%R) by (intros; nra).
    pose proof (N (mU r)). pose proof (N (mV r)). pose proof (N (mW r)).
    destruct H2 as [H2|[H2|H2]]; apply M in H2; lra. }
  assert (HX : (mD r - / mD r)%R <> 0%R).
  { intros E0. assert (E1 : (mD r * mD r = 1)%R). { replace (mD r) with (/ mD r)%R at 2 by lra. field. lra. }
    apply H1. assert ((mD r - 1) * (mD r + 1) = 0)%R by lra. apply Rmult_integral in H. lra. }
  set (K := (mU r * mU r + mV r * mV r + mW r * mW r)%R) in *.
  assert (E2 : ((gamma0 (mh p) - 1) * (/ 2 * K * (mD r - / mD r)) = 0)%R) by lra.
  apply Rmult_integral in E2. destruct E2 as [E2|E2]; [lra|]. apply Rmult_integral in E2. destruct E2 as [E2|E2]; [lra|contradiction].
Qed.
Print Assumptions C71_implode_refuted.

Example C71_hypotheses_hold : exists s', 
  (1 < gamma0 (mh ipar))%R /\ (cIso ipar <= 0)%R /\ (0 < smallr (mh ipar))%R /\ one_process ibox /\
  run_kernels (init_problem RLibm true igrid ipar ibox (PImplode (iimp 0))) (fun _ => 0%R) s' /\
  field_setting true igrid ipar ibox (PImplode (iimp 0)) /\ pressure_setting true igrid ipar ibox (PImplode (iimp 0)) /\
  prescribed_pressure true igrid ipar ibox (PImplode (iimp 0)) 3 3 3 1%R /\
  (smallr (mh ipar) <= mD (mfill3 igrid s' aU 3 3 3))%R /\ (mD (mfill3 igrid s' aU 3 3 3) * smallp (mh ipar) <= 1)%R.
Proof.
  assert (E : exists s', run_kernels (init_problem RLibm true igrid ipar ibox (PImplode (iimp 0))) (fun _ => 0%R) s')
    by (eexists; apply run_kernels_seq).
  destruct E as [s' E]. exists s'.
  assert (F : field_setting true igrid ipar ibox (PImplode (iimp 0))) by (split; [exact iopen|]; cbn; auto).
  assert (In3 : inside3 igrid 3 3 3) by (unfold inside3; cbn; lia).
  assert (D : mD (mfill3 igrid s' aU 3 3 3) = 2%R).
  { destruct (derived3_straight RLibm igrid ipar ibox (PImplode (iimp 0)) (fun _ => 0%R) s' 3 3 3) as [-> _]; auto; [cbn; lia|intros l; reflexivity|exact I|].
    cbn [init_problem] in E.
    rewrite (single_state true igrid _ (fun _ => 0%R) s' 3 3 3 E (in_cells3' igrid 3 3 3 ltac:(cbn; lia) In3) (fun _ => eq_refl)).
    cbn [mD]. destruct (implode_region true igrid ipar ibox (iimp 0) (3, 3, 3)) eqn:R; [|reflexivity].
    apply (implode_region_spec true igrid ipar ibox (iimp 0) 3 3 3 (fun _ => eq_refl)) in R. exfalso. revert R. unfold in_outer, centre. cbn. lra. }
  rewrite D. cbn [mh ipar gamma0 cIso smallr smallp]. split; [lra|]. split; [lra|]. split; [lra|]. split; [intros d; reflexivity|].
  split; [exact E|]. split; [exact F|]. split; [intros r [->| ->]; cbn; auto|]. split; [|lra].
  right. split; [|reflexivity]. unfold in_outer, centre. cbn. lra.
Qed.
