(** What the initial condition loops of the hydrodynamics problems leave in memory, for
    every schedule, and the states it stands for. *)
From Coq Require Import ZArith List Bool Lia Reals Lra.
From Verif Require Import Arith Par ParProofs GridModel BoundaryModel BoundaryProofs HydroState HydroKernels
  CellKernels HydroExec HydroStep2 HydroSpec Physics MhdState MhdKernels2 MoodKernels MoodProofs MhdInit MhdInitProofs
  MhdInitSpec HydroInit HydroInitSpec.
Import ListNotations.
Open Scope Z_scope.
Open Scope prog_scope.

Section Exec.
Context {T : Type} {AT : Arith T}.
Notation store := (store T).
Variable m : hlibm T.
Variable b3 : bool.
Variable g : grid.
Variable h : hparams T.
Variable bx : box T.

Lemma two_arrays (f1 f2 : cell -> list (Z * T)) (s s' : store) :
  par_exec s (md_for (cellsD b3 g) (fun c => assign aU c (f1 c) ;;; assign aG c (f2 c))) s' ->
  (forall c v, In c (cellsD b3 g) ->
     s' (at_cell aU c v) = assigned (f1 c) v (s (at_cell aU c v)) /\
     s' (at_cell aG c v) = assigned (f2 c) v (s (at_cell aG c v))).
Proof.
  intros H.
  pose (R := fun (_ : cell) (_ : loc) => False).
  pose (W := fun (c : cell) (l : loc) => (la l = aU \/ la l = aG) /\ at_of l = c).
  assert (Hrf : forall i j l, In i (cellsD b3 g) -> In j (cellsD b3 g) -> i <> j -> W i l -> ~ W j l /\ ~ R j l).
  { intros i j l _ _ Hij [_ Hl]. split; [intros [_ Hl']; congruence|intros []]. }
  destruct (par_for_spec (cellsD b3 g) R W Hrf _ s s' (NoDup_cellsD b3 g)
              (fun c _ => acc_bind (R c) (W c) (assign aU c (f1 c)) (fun _ => assign aG c (f2 c))
                 (acc_assign (R c) (W c) aU c (f1 c) (fun v _ => conj (or_introl (la_at_cell aU c v)) (at_of_at_cell aU c v)))
                 (fun _ => acc_assign (R c) (W c) aG c (f2 c) (fun v _ => conj (or_intror (la_at_cell aG c v)) (at_of_at_cell aG c v)))) H)
    as [H1 _].
  intros c v Hc. split; (rewrite (H1 c); [|exact Hc|split; [rewrite la_at_cell; auto|apply at_of_at_cell]]); rewrite exec_bind.
  - rewrite exec_assign_other by (rewrite la_at_cell; discriminate). apply exec_assign.
  - rewrite exec_assign. f_equal. apply exec_assign_other. rewrite la_at_cell; discriminate.
Qed.

Lemma init_cells pr (s s' : store) : run_kernels (init_hydro m b3 g h bx pr) s s' ->
  forall c v, In c (cellsD b3 g) ->
     s' (at_cell aU c v) = assigned (fst (hcell m b3 g h bx pr c)) v (s (at_cell aU c v)) /\
     s' (at_cell aG c v) = assigned (snd (hcell m b3 g h bx pr c)) v (s (at_cell aG c v)).
Proof.
  intros H. unfold init_hydro in H. inversion H as [|ps kers s0 s1 s2 H1 H2]; subst. inversion H2; subst.
  exact (two_arrays _ _ s s' H1).
Qed.
End Exec.

Lemma In_array b3 g i j k : in_array b3 g i j k -> In (i, j, k) (cellsD b3 g).
Proof.
  intros (Hi & Hj & Hk). apply In_cellsD. split.
  - intros a. destruct b3; cbn; intros Ha; repeat (destruct Ha as [<- | Ha]; [cbn; auto|]); contradiction.
  - intros ->. exact Hk.
Qed.

Local Open Scope R_scope.
Section Real.
Variable b3 : bool.
Variable g : grid.
Variable h : hparams R.
Variable bx : box R.
Variable m : hlibm R.

Lemma hx_centre i : hx g h bx i = centre (xmin bx) (dx h) (gw g) (i + nx g * mpi bx IX).
Proof. unfold hx, ofZ, centre. cbn. field. Qed.
Lemma hy_centre i : hy g h bx i = centre (ymin bx) (dy h) (gw g) (i + ny g * mpi bx IY).
Proof. unfold hy, ofZ, centre. cbn. field. Qed.
Lemma hz_centre i : hz g h bx i = centre (zmin bx) (dz h) (gw g) (i + nz g * mpi bx IZ).
Proof. unfold hz, ofZ, centre. cbn. field. Qed.

(** The assignments at a point. *)
Definition hpoint (pr : hproblem R) (c : cell) (x y z : R) : list (Z * R) * list (Z * R) :=
  match pr with
  | HImplode q => (himplode b3 h bx q x y z, [])
  | HBlast q => (hblast b3 h q x y z, [])
  | HKelvinHelmholtz rnd q => (hkh m b3 h bx (rnd c) q x y z, [])
  | HGresho q => (hgresho m b3 h q x y z, [])
  | HFourQuadrant n xt yt => (hfour b3 h n xt yt x y, [])
  | HVortex q => (hvortex m b3 h q x y, [])
  | HRayleigh q => (hrayleigh m b3 h bx q x y z, grav_assign b3 (rt_gx q) (rt_gy q) (rt_gz q))
  | HBubble q => (hbubble b3 h q x y z, grav_assign b3 (rb_gx q) (rb_gy q) (rb_gz q))
  | HDisk q s => hdisk m b3 h q s x y z
  end.
Lemma hcell_point pr i j k : let P := position g h bx i j k in
  hcell m b3 g h bx pr (i, j, k) = hpoint pr (i, j, k) (px P) (py P) (pz P).
Proof. unfold hcell, position. cbn [px py pz]. rewrite hx_centre, hy_centre, hz_centre. destruct pr; reflexivity. Qed.

(** State and gravity held after a list of assignments. *)
Definition held_of (l : list (Z * R)) (u : hs R) : Prop :=
  exists d e mu mv mw, l = cons_assign b3 d e mu mv mw /\ u = HS d e mu mv (if b3 then mw else 0).
Lemma held_init pr s s' i j k u : run_kernels (init_hydro m b3 g h bx pr) s s' -> in_array b3 g i j k ->
  let P := position g h bx i j k in
  held_of (fst (hpoint pr (i, j, k) (px P) (py P) (pz P))) u -> held b3 s' i j k = u.
Proof.
  intros Hrun Hin P (d & e & mu & mv & mw & El & ->).
  pose proof (init_cells m b3 g h bx pr s s' Hrun (i, j, k)) as Hc.
  assert (Hf : forall v, s' (Loc aU i j k v) = assigned (cons_assign b3 d e mu mv mw) v (s (Loc aU i j k v))).
  { intros v. destruct (Hc v (In_array _ _ _ _ _ Hin)) as [H1 _]. rewrite hcell_point in H1. cbv zeta in H1. fold P in H1. rewrite El in H1. exact H1. }
  unfold held. rewrite !Hf. clear. destruct b3; reflexivity.
Qed.
Lemma gravity_init pr s s' i j k gx gy gz : run_kernels (init_hydro m b3 g h bx pr) s s' -> in_array b3 g i j k ->
  let P := position g h bx i j k in
  snd (hpoint pr (i, j, k) (px P) (py P) (pz P)) = grav_assign b3 gx gy gz ->
  held_gravity b3 s' i j k = (gx, gy, if b3 then gz else 0).
Proof.
  intros Hrun Hin P El.
  pose proof (init_cells m b3 g h bx pr s s' Hrun (i, j, k)) as Hc.
  assert (Hf : forall v, s' (Loc aG i j k v) = assigned (grav_assign b3 gx gy gz) v (s (Loc aG i j k v))).
  { intros v. destruct (Hc v (In_array _ _ _ _ _ Hin)) as [_ H1]. rewrite hcell_point in H1. cbv zeta in H1. fold P in H1. rewrite El in H1. exact H1. }
  unfold held_gravity. rewrite !Hf. clear. destruct b3; reflexivity.
Qed.
End Real.

Lemma hs_eq (a b : hs R) : hD a = hD b -> hP a = hP b -> hU a = hU b -> hV a = hV b -> hW a = hW b -> a = b.
Proof. destruct a, b; cbn; intros; subst; reflexivity. Qed.

(** ** Trigonometry of atan2 *)
Lemma radius_pos x y : x <> 0 \/ y <> 0 -> 0 < radius x y.
Proof. intros H. apply sqrt_lt_R0. destruct H; nra. Qed.
Lemma radius_sq x y : radius x y * radius x y = x * x + y * y.
Proof. apply sqrt_sqrt. nra. Qed.
Lemma cos_atan2_pos x y : 0 < x -> cos (atan (y / x)) = x / radius x y.
Proof.
  intros Hx. rewrite cos_atan. unfold radius.
  replace (x * x + y * y) with (x * x * (1 + (y / x)²)) by (unfold Rsqr; field; lra).
  rewrite sqrt_mult by (unfold Rsqr; nra). rewrite sqrt_square by lra.
  assert (0 < sqrt (1 + (y / x)²)) by (apply sqrt_lt_R0; unfold Rsqr; nra). field. lra.
Qed.
Lemma sin_atan2_pos x y : 0 < x -> sin (atan (y / x)) = y / radius x y.
Proof.
  intros Hx. rewrite sin_atan. unfold radius.
  replace (x * x + y * y) with (x * x * (1 + (y / x)²)) by (unfold Rsqr; field; lra).
  rewrite sqrt_mult by (unfold Rsqr; nra). rewrite sqrt_square by lra.
  assert (0 < sqrt (1 + (y / x)²)) by (apply sqrt_lt_R0; unfold Rsqr; nra). field. lra.
Qed.
Lemma atan2_polar x y : x <> 0 \/ y <> 0 -> cos (atan2 y x) = x / radius x y /\ sin (atan2 y x) = y / radius x y.
Proof.
  intros H. assert (Hr := radius_pos x y H). unfold atan2.
  destruct (Rlt_dec 0 x); [split; [apply cos_atan2_pos|apply sin_atan2_pos]; auto|].
  destruct (Rlt_dec x 0).
  - assert (E : y / x = - y / - x) by (field; lra).
    assert (Er : radius (- x) (- y) = radius x y) by (unfold radius; f_equal; ring).
    assert (Ec := cos_atan2_pos (- x) (- y) ltac:(lra)). assert (Es := sin_atan2_pos (- x) (- y) ltac:(lra)).
    rewrite Er in Ec, Es. rewrite <- E in Ec, Es.
    destruct (Rle_dec 0 y).
    + rewrite neg_cos, neg_sin, Ec, Es. split; field; lra.
    + unfold Rminus. rewrite cos_plus, sin_plus, cos_neg, sin_neg, cos_PI, sin_PI, Ec, Es. split; field; lra.
  - assert (x = 0) by lra. subst x. assert (Hr2 := radius_sq 0 y).
    destruct (Rlt_dec 0 y); [|destruct (Rlt_dec y 0)].
    + assert (Er : radius 0 y = y) by (unfold radius; rewrite Rmult_0_l, Rplus_0_l; apply sqrt_square; lra).
      rewrite Er, cos_PI2, sin_PI2. split; field; lra.
    + assert (Er : radius 0 y = - y) by (unfold radius; replace (0 * 0 + y * y) with (- y * - y) by ring; apply sqrt_square; lra).
      rewrite Er, cos_neg, sin_neg, cos_PI2, sin_PI2. split; field; lra.
    + lra.
Qed.
