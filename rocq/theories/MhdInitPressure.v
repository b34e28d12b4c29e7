(** The pressure derived from the initial conditions. *)
From Coq Require Import ZArith List Bool Lia Reals Lra.
From Verif Require Import Arith Par ParProofs GridModel BoundaryModel BoundarySpec BoundaryProofs HydroState HydroKernels
  HydroSpec CellKernels HydroExec HydroStep2 HydroUniform HydroConserve MhdState MhdPoint MhdKernels2 MhdSpec MoodKernels MoodProofs
  MhdInit MhdInitProofs MhdInitSpec MhdInitDiv.
Import ListNotations.
Open Scope Z_scope.

Section Conv.
Variable p : mparams R.
Local Open Scope R_scope.
Hypothesis Hgam : 1 < gamma0 (mh p).
Hypothesis Hiso : cIso p <= 0.
Hypothesis Hr0 : 0 < smallr (mh p).

(** Pressure given by the conversion, in terms of the energy. *)
Lemma conv_pressure u nA nB nC P : smallr (mh p) <= mD u -> mD u * smallp (mh p) <= P ->
  mP u = P / (gamma0 (mh p) - 1) + (mU u * mU u + mV u * mV u + mW u * mW u) / (2 * mD u)
         + ((mA u + nA) * (mA u + nA) + (mB u + nB) * (mB u + nB) + (mC u + nC) * (mC u + nC)) / 8 ->
  mP (constoprim_mhd p u nA nB nC) = P.
Proof.
  intros HD HP HE. unfold constoprim_mhd. cbn.
  rewrite (Rmax_left (mD u)) by lra. destruct (Rlt_dec 0 (cIso p)); [lra|]. cbn.
  assert (HD0 : mD u <> 0) by lra. assert (Hg : gamma0 (mh p) - 1 <> 0) by lra.
  match goal with |- Rmax ?x _ = _ => replace x with P; [apply Rmax_left; lra|] end.
  rewrite HE. field. auto.
Qed.
(** The same with an excess [X] of the stored energy. *)
Lemma conv_excess u nA nB nC P X : smallr (mh p) <= mD u -> mD u * smallp (mh p) <= P + (gamma0 (mh p) - 1) * X ->
  mP u = P / (gamma0 (mh p) - 1) + (mU u * mU u + mV u * mV u + mW u * mW u) / (2 * mD u)
         + ((mA u + nA) * (mA u + nA) + (mB u + nB) * (mB u + nB) + (mC u + nC) * (mC u + nC)) / 8 + X ->
  mP (constoprim_mhd p u nA nB nC) = P + (gamma0 (mh p) - 1) * X.
Proof.
  intros HD HP HE. apply conv_pressure; auto. rewrite HE. assert (HD0 : mD u <> 0) by lra. field. lra.
Qed.
End Conv.

Lemma xpos_centre g p bx i : one_process bx -> xpos g p bx i = centre (xmin bx) (dx (mh p)) (gw g) i.
Proof. intros H. unfold xpos, ofZ, centre. rewrite H. cbn. replace (i + nx g * 0 - gw g) with (i - gw g) by lia. field. Qed.
Lemma ypos_centre g p bx i : one_process bx -> ypos g p bx i = centre (ymin bx) (dy (mh p)) (gw g) i.
Proof. intros H. unfold ypos, ofZ, centre. rewrite H. cbn. replace (i + ny g * 0 - gw g) with (i - gw g) by lia. field. Qed.
Lemma zpos_centre g p bx i : one_process bx -> zpos g p bx i = centre (zmin bx) (dz (mh p)) (gw g) i.
Proof. intros H. unfold zpos, ofZ, centre. rewrite H. cbn. replace (i + nz g * 0 - gw g) with (i - gw g) by lia. field. Qed.

Lemma blast_inside_spec b3 g p bx q i j k : one_process bx ->
  blast_inside b3 g p bx q (i, j, k) = true <-> in_blast b3 g (mh p) bx q i j k.
Proof.
  intros H. unfold blast_inside, in_blast. rewrite xpos_centre, ypos_centre, zpos_centre by auto. cbn.
  destruct b3; match goal with |- context [Rlt_dec ?a ?b] => destruct (Rlt_dec a b) end; split; intros; auto; try discriminate; try contradiction; lra.
Qed.
Lemma implode_region_spec b3 g p bx q i j k : one_process bx ->
  implode_region b3 g p bx q (i, j, k) = true <-> in_outer b3 g (mh p) bx q i j k.
Proof.
  intros H. unfold implode_region, in_outer. rewrite xpos_centre, ypos_centre, zpos_centre by auto.
  destruct (im_shape q =? 1); cbn.
  - destruct b3; repeat match goal with |- context [Rlt_dec ?a ?b] => destruct (Rlt_dec a b) end; cbn; split; intros; auto; try discriminate; lra.
  - destruct b3; match goal with |- context [Rlt_dec ?a ?b] => destruct (Rlt_dec a b) end; split; intros; auto; try discriminate; lra.
Qed.
Lemma bool_spec (b : bool) (A : Prop) (X : Prop) (Y : Prop) : (b = true <-> A) -> (A /\ X) \/ (~ A /\ Y) -> if b then X else Y.
Proof. destruct b; intros [H1 H2] [[Ha Hx]|[Ha Hy]]; auto; [tauto|]. specialize (H2 Ha). discriminate. Qed.

(** ** State at an interior cell *)
Lemma single_state b3 g f (s s' : store R) i j k : run_kernels [assign_all b3 g f] s s' -> In (i, j, k) (cellsD b3 g) -> fresh s ->
  mst s' aU i j k = MS (assigned (f (i, j, k)) ID 0%R) (assigned (f (i, j, k)) IP 0%R) (assigned (f (i, j, k)) IU 0%R)
    (assigned (f (i, j, k)) IV 0%R) (assigned (f (i, j, k)) IW 0%R) (assigned (f (i, j, k)) IA 0%R)
    (assigned (f (i, j, k)) IB 0%R) (assigned (f (i, j, k)) IC 0%R).
Proof.
  intros Hr Hc Hs. unfold mst.
  assert (E : forall v, s' (Loc aU i j k v) = assigned (f (i, j, k)) v 0%R).
  { intros v. change (s' (Loc aU i j k v)) with (s' (at_cell aU (i, j, k) v)).
    rewrite (single_field b3 g f s s' _ _ Hr Hc), Hs. reflexivity. }
  rewrite !E. reflexivity.
Qed.

Lemma ot_state_at m b3 g p bx kt (s s' : store R) i j k : run_kernels (init_orszag_tang m b3 g p bx kt) s s' ->
  In (i, j, k) (cellsD b3 g) -> In (i + 1, j, k) (cellsD b3 g) -> In (i, j + 1, k) (cellsD b3 g) ->
  (i < isize g - 1) -> (j < jsize g - 1) -> fresh s ->
  exists d u v a b, mst s' aU i j k =
    MS d (ot_p0 m p / (gamma0 (mh p) - 1) + / 2 * (u * u / d + v * v / d + 1 / 4 * ((a + a) * (a + a)) + 1 / 4 * ((b + b) * (b + b))))%R
       u v 0%R a b 0%R.
Proof.
  intros Hr Hc Hx Hy Hi Hj Hs. unfold init_orszag_tang in Hr.
  apply rk_inv in Hr. destruct Hr as (s1 & H1 & Hr). apply rk_inv in Hr. destruct Hr as (s2 & H2 & Hr).
  apply rk_nil_inv in Hr. subst s2.
  apply only_energy in H2; [|intros; apply ot_energy_prog]. destruct H2 as [H2 H3].
  apply assign_all_spec in H1. destruct H1 as [H1 _].
  set (F := ot_state m b3 g p bx kt) in *.
  exists (assigned (F (i, j, k)) ID 0%R), (assigned (F (i, j, k)) IU 0%R), (assigned (F (i, j, k)) IV 0%R),
    (assigned (F (i, j, k)) IA 0%R), (assigned (F (i, j, k)) IB 0%R).
  assert (E : forall v, v <> IP -> s' (Loc aU i j k v) = assigned (F (i, j, k)) v 0%R).
  { intros v Hv. rewrite H3 by (left; cbn; auto).
    change (s1 (Loc aU i j k v)) with (s1 (at_cell aU (i, j, k) v)). rewrite H1 by auto. rewrite Hs. reflexivity. }
  unfold mst. rewrite (E ID), (E IU), (E IV), (E IW), (E IA), (E IB), (E IC) by discriminate. f_equal.
  change (s' (Loc aU i j k IP)) with (s' (at_cell aU (i, j, k) IP)).
  rewrite H2 by auto. unfold ot_energy.
  destruct (Z.ltb_spec i (isize g - 1)); [|lia]. destruct (Z.ltb_spec j (jsize g - 1)); [|lia]. cbn [andb when].
  unfold rdU. rewrite !exec_rd. unfold exec, wr; cbn [run snd]. rewrite upd_cell_same. rewrite Z.eqb_refl.
  rewrite !H1 by auto. rewrite !Hs. cbn [add mul div sub lit half one RArith].
  replace (assigned (F (i + 1, j, k)) IA 0%R) with (assigned (F (i, j, k)) IA 0%R) by reflexivity.
  replace (assigned (F (i, j + 1, k)) IB 0%R) with (assigned (F (i, j, k)) IB 0%R) by reflexivity.
  reflexivity.
Qed.

(** Field loop: the state at an interior cell; the energy uses the field on the two
    faces of the cell, which is the field after the ghost fill. *)
Lemma inner_false_x b3 g i j k : In IX (dirs b3) -> ~ (gw g <= i < gw g + nx g) -> inner b3 g (i, j, k) = false.
Proof.
  intros Hd Hi. destruct (inner b3 g (i, j, k)) eqn:E; auto. unfold inner in E. rewrite guard_spec in E.
  specialize (E IX Hd). change (coord (i, j, k) IX) with i in E. change (sizeA g IX) with (isize g) in E.
  unfold isize, imax, imin in E. lia.
Qed.
Lemma inner_false_y b3 g i j k : In IY (dirs b3) -> ~ (gw g <= j < gw g + ny g) -> inner b3 g (i, j, k) = false.
Proof.
  intros Hd Hi. destruct (inner b3 g (i, j, k)) eqn:E; auto. unfold inner in E. rewrite guard_spec in E.
  specialize (E IY Hd). change (coord (i, j, k) IY) with j in E. change (sizeA g IY) with (jsize g) in E.
  unfold jsize, jmax, jmin in E. lia.
Qed.
Lemma inner_false_z g i j k : ~ (gw g <= k < gw g + nz g) -> inner true g (i, j, k) = false.
Proof.
  intros Hi. destruct (inner true g (i, j, k)) eqn:E; auto. unfold inner in E. rewrite guard_spec in E.
  specialize (E IZ (or_intror (or_intror (or_introl eq_refl)))). change (coord (i, j, k) IZ) with k in E. change (sizeA g IZ) with (ksize g) in E.
  unfold ksize, kmax, kmin in E. lia.
Qed.

Section Loop.
Variable b3 : bool.
Variable g : grid.
Variable p : mparams R.
Variable bx : box R.
Variable q : field_loop R.
Hypothesis Hg : 1 <= gw g.
Hypothesis Hnx : 0 < nx g.
Hypothesis Hny : 0 < ny g.
Variables s s' : store R.
Hypothesis Hs : fresh s.
Hypothesis Hr : run_kernels (init_field_loop b3 g p bx q) s s'.

(** The state before the energy loop. *)
Lemma loop_mid : exists s2,
  (forall c v, In c (cellsD b3 g) -> inner b3 g c = false -> s2 (at_cell aU c v) = 0%R) /\
  (forall l, lv l <> IP -> s' l = s2 l) /\
  (forall c, In c (cellsD b3 g) -> inner b3 g c = true ->
     exists d, s2 (at_cell aU c ID) = d /\ s2 (at_cell aU c IU) = (d * fl_vflow q * (2 / sqrt (5 / 1)))%R /\
       s2 (at_cell aU c IV) = (d * fl_vflow q * sqrt (1 - 2 / sqrt (5 / 1) * (2 / sqrt (5 / 1))))%R /\
       s2 (at_cell aU c IW) = (if b3 then d * fl_vflow q else
         d * fl_vflow q * (IZR (nz g) / 1) / sqrt (1 * (IZR (nx g * nx g + ny g * ny g + nz g * nz g) / 1)))%R) /\
  (forall c, In c (cellsD b3 g) -> s' (at_cell aU c IP) = exec (loop_energy b3 g p c) s2 (at_cell aU c IP)).
Proof.
  unfold init_field_loop in Hr.
  apply rk_inv in Hr. destruct Hr as (s1 & H1 & Hr1). apply rk_inv in Hr1. destruct Hr1 as (s2 & H2 & Hr2).
  apply rk_inv in Hr2. destruct Hr2 as (s3 & H3 & Hr3). apply rk_nil_inv in Hr3. subst s3.
  apply only_energy in H3; [|intros; apply loop_energy_prog]. destruct H3 as [H3 H3'].
  apply loop_condition_spec in H2. destruct H2 as (_ & H2 & _).
  unfold loop_potential in H1. apply potential_spec in H1. destruct H1 as [_ H1].
  exists s2. split; [|split; [|split]].
  - intros c v Hc Hi. rewrite H2 by auto. unfold loop_condition. rewrite Hi. cbn [when].
    unfold exec, skip; cbn [run snd]. rewrite H1 by (rewrite la_at_cell; discriminate). apply Hs.
  - intros l Hl. apply H3'. auto.
  - intros c Hc Hi.
    assert (E : forall v, v <> IA -> v <> IB -> v <> IC ->
      s2 (at_cell aU c v) = assigned (let d := if (loop_radius g p bx c <? fl_radius q)%A then fl_density q else one in
    let cost := (two / sqr (ofZ 5))%A in
    let sint := sqr (one - cost * cost)%A in
    let diag := sqr (one * ofZ (nx g * nx g + ny g * ny g + nz g * nz g))%A in
    [(ID, d); (IU, (d * fl_vflow q * cost)%A); (IV, (d * fl_vflow q * sint)%A);
                 (IW, if b3 then (d * fl_vflow q)%A else (d * fl_vflow q * ofZ (nz g) / diag)%A)]) v (s1 (at_cell aU c v))).
    { intros v N1 N2 N3. rewrite H2 by auto. unfold loop_condition. rewrite Hi. cbn [when].
      rewrite exec_bind, exec_curl, exec_assign. cbv zeta. unfold curl.
      destruct (Z.eqb_spec v IA); [tauto|]. destruct (Z.eqb_spec v IB); [tauto|]. destruct (Z.eqb_spec v IC); [tauto|].
      destruct b3; reflexivity. }
    exists (if (loop_radius g p bx c <? fl_radius q)%A then fl_density q else one)%R.
    rewrite (E ID), (E IU), (E IV), (E IW) by discriminate. destruct b3; repeat split; reflexivity.
  - exact H3.
Qed.
End Loop.

(** ** Problems with a field constant along its own direction *)
Definition is_straight (q : problem (T := R)) : Prop :=
  match q with PFieldLoop _ | PWave _ => False | _ => True end.
Ltac cell2 := repeat match goal with |- context [?f (Loc aU ?a ?b 0 ?v)] =>
  change (f (Loc aU a b 0 v)) with (f (at_cell aU (a, b, 0) v)) end.
Lemma init_straight3 m g p bx q (s s' : store R) : 0 <= gw g -> fresh s -> field_setting true g p bx q -> is_straight q ->
  run_kernels (init_problem m true g p bx q) s s' ->
  open_faces g /\
  (forall i i' j k, inside3 g i j k -> inside3 g i' j k -> s' (Loc aU i j k IA) = s' (Loc aU i' j k IA)) /\
  (forall i j j' k, inside3 g i j k -> inside3 g i j' k -> s' (Loc aU i j k IB) = s' (Loc aU i j' k IB)) /\
  (forall i j k k', inside3 g i j k -> inside3 g i j k' -> s' (Loc aU i j k IC) = s' (Loc aU i j k' IC)).
Proof.
  intros Hg Hs Hq Hst Hr.
  destruct q as [q|q|kt|rnd q|q|q|q]; cbn [init_problem field_setting is_straight] in *; try contradiction.
  - split; [auto|]. repeat split; intros; cell3;
      rewrite !(single_field true g _ s s' _ _ Hr) by (apply in_cells3'; auto);
      repeat match goal with |- context [blast_inside ?a ?b ?c ?d ?e ?f] => destruct (blast_inside a b c d e f) end; reflexivity.
  - destruct Hq as (Ho & EA & EB & EC). specialize (EC eq_refl). split; [auto|]. repeat split; intros; cell3;
      rewrite !(single_field true g _ s s' _ _ Hr) by (apply in_cells3'; auto);
      repeat match goal with |- context [implode_region ?a ?b ?c ?d ?e ?f] => destruct (implode_region a b c d e f) end;
      cbn; auto.
  - split; [auto|]. repeat split; intros; cell3;
      rewrite !(ot_field m true g p bx kt s s' _ _ Hr) by (first [apply in_cells3'; auto | discriminate]); reflexivity.
  - split; [auto|]. repeat split; intros; cell3;
      rewrite !(single_field true g _ s s' _ _ Hr) by (apply in_cells3'; auto); rewrite !Hs.
    + destruct (kh_straight m true g p bx rnd q (i, j, k) IA) as [x Hx]; auto. destruct (Hx 0%R eq_refl) as [-> ->]. reflexivity.
    + destruct (kh_straight m true g p bx rnd q (i, j, k) IB) as [x Hx]; auto. destruct (Hx 0%R eq_refl) as [-> ->]. reflexivity.
    + destruct (kh_straight m true g p bx rnd q (i, j, k) IC) as [x Hx]; auto. destruct (Hx 0%R eq_refl) as [-> ->]. reflexivity.
  - split; [auto|]. repeat split; intros; cell3;
      rewrite !(single_field true g _ s s' _ _ Hr) by (apply in_cells3'; auto); rewrite !rotor_field by auto; reflexivity.
Qed.
Lemma init_straight2 m g p bx q (s s' : store R) : 0 <= gw g -> fresh s -> field_setting false g p bx q -> is_straight q ->
  run_kernels (init_problem m false g p bx q) s s' ->
  open_faces g /\
  (forall i i' j, inside2 g i j -> inside2 g i' j -> s' (Loc aU i j 0 IA) = s' (Loc aU i' j 0 IA)) /\
  (forall i j j', inside2 g i j -> inside2 g i j' -> s' (Loc aU i j 0 IB) = s' (Loc aU i j' 0 IB)).
Proof.
  intros Hg Hs Hq Hst Hr.
  destruct q as [q|q|kt|rnd q|q|q|q]; cbn [init_problem field_setting is_straight] in *; try contradiction.
  - split; [auto|]. repeat split; intros; cell2;
      rewrite !(single_field false g _ s s' _ _ Hr) by (apply in_cells2'; auto);
      repeat match goal with |- context [blast_inside ?a ?b ?c ?d ?e ?f] => destruct (blast_inside a b c d e f) end; reflexivity.
  - destruct Hq as (Ho & EA & EB & EC). split; [auto|]. repeat split; intros; cell2;
      rewrite !(single_field false g _ s s' _ _ Hr) by (apply in_cells2'; auto);
      repeat match goal with |- context [implode_region ?a ?b ?c ?d ?e ?f] => destruct (implode_region a b c d e f) end;
      cbn; auto.
  - split; [auto|]. repeat split; intros; cell2;
      rewrite !(ot_field m false g p bx kt s s' _ _ Hr) by (first [apply in_cells2'; auto | discriminate]); reflexivity.
  - split; [auto|]. repeat split; intros; cell2;
      rewrite !(single_field false g _ s s' _ _ Hr) by (apply in_cells2'; auto); rewrite !Hs.
    + destruct (kh_straight m false g p bx rnd q (i, j, 0) IA) as [x Hx]; auto. destruct (Hx 0%R eq_refl) as [-> ->]. reflexivity.
    + destruct (kh_straight m false g p bx rnd q (i, j, 0) IB) as [x Hx]; auto. destruct (Hx 0%R eq_refl) as [-> ->]. reflexivity.
  - split; [auto|]. repeat split; intros; cell2;
      rewrite !(single_field false g _ s s' _ _ Hr) by (apply in_cells2'; auto); rewrite !rotor_field by auto; reflexivity.
Qed.

(** The derived state in terms of the state of the cell alone. *)
Lemma derived3_straight m g p bx q (s s' : store R) i j k : 0 <= gw g -> fresh s -> field_setting true g p bx q -> is_straight q ->
  run_kernels (init_problem m true g p bx q) s s' -> inside3 g i j k ->
  mfill3 g s' aU i j k = mst s' aU i j k /\
  derived3 p (mfill3 g s' aU) i j k =
  let u := mst s' aU i j k in constoprim_mhd p u (mA u) (mB u) (mC u).
Proof.
  intros Hg Hs Hq Hst Hr (Hi & Hj & Hk). destruct (init_straight3 m g p bx q s s' Hg Hs Hq Hst Hr) as (Ho & HA & HB & HC).
  unfold derived3. rewrite !mfill3_open by auto. rewrite (ix_in g i), (iy_in g j), (iz_in g k) by auto.
  split; [reflexivity|]. cbv zeta. cbn [mst mA mB mC].
  pose proof (ix_up g i Hi). pose proof (iy_up g j Hj). pose proof (iz_up g k Hk).
  rewrite (HA (ix g (i + 1)) i j k), (HB i (iy g (j + 1)) j k), (HC i j (iz g (k + 1)) k) by (split; auto). reflexivity.
Qed.
Lemma derived2_straight m g p bx q (s s' : store R) i j : 0 <= gw g -> fresh s -> field_setting false g p bx q -> is_straight q ->
  run_kernels (init_problem m false g p bx q) s s' -> inside2 g i j ->
  mfill2 g s' aU i j = mst s' aU i j 0 /\
  derived2 p (mfill2 g s' aU) i j =
  let u := mst s' aU i j 0 in constoprim_mhd p u (mA u) (mB u) 0%R.
Proof.
  intros Hg Hs Hq Hst Hr (Hi & Hj). destruct (init_straight2 m g p bx q s s' Hg Hs Hq Hst Hr) as (Ho & HA & HB).
  unfold derived2. rewrite !mfill2_open by auto. rewrite (ix_in g i), (iy_in g j) by auto.
  split; [reflexivity|]. cbv zeta. cbn [mst mA mB mC].
  pose proof (ix_up g i Hi). pose proof (iy_up g j Hj).
  rewrite (HA (ix g (i + 1)) i j), (HB i (iy g (j + 1)) j) by (split; auto). reflexivity.
Qed.

(** ** Pressure *)
Definition kh_form (b3 : bool) (p : mparams R) (q : kh R) (l : list (Z * R)) : Prop :=
  exists d u v w a,
    (assigned l ID 0 = d /\ assigned l IU 0 = d * u /\ assigned l IV 0 = d * v /\ assigned l IW 0 = (if b3 then d * w else 0) /\
     assigned l IA 0 = a /\ assigned l IB 0 = 0 /\ assigned l IC 0 = 0 /\
     assigned l IP 0 = kh_pressure q / (gamma0 (mh p) - 1) + / 2 * d * (if b3 then u * u + v * v + w * w else u * u + v * v)
                        + / 2 * (a * a))%R.
Lemma kh_assign_form b3 p q d u v w : kh_form b3 p q (kh_assign b3 p q d u v w).
Proof.
  unfold kh_assign, kh_energy. exists d, u, v, w, (/ 2)%R.
  destruct b3; unfold assigned; cbn; repeat split; try reflexivity; unfold Rdiv; ring.
Qed.
Lemma kh_rand_form b3 p q d u v w : kh_form b3 p q (kh_assign_rand b3 p q d u v w).
Proof.
  unfold kh_assign_rand. destruct b3; [|apply kh_assign_form].
  exists d, u, v, w, 0%R. unfold assigned; cbn; repeat split; try reflexivity; unfold Rdiv; ring.
Qed.
Lemma kh_value m b3 g p bx rnd q c : kh_rand q = true \/ kh_sine_rob q = true \/ kh_sine q = true ->
  kh_form b3 p q (kh_state m b3 g p bx rnd q c).
Proof.
  intros Hq. destruct c as [[i j] k]. unfold kh_state. cbv zeta.
  destruct (kh_rand q); [apply kh_rand_form|].
  destruct (kh_sine_rob q); [destruct b3; apply kh_assign_form|].
  destruct (kh_sine q); [destruct b3; apply kh_assign_form|]. destruct Hq as [|[|]]; discriminate.
Qed.
Lemma rotor_value b3 g p bx q c : exists d u v,
  (let l := rotor_state b3 g p bx q c in
   assigned l ID 0 = d /\ assigned l IU 0 = u /\ assigned l IV 0 = v /\ assigned l IW 0 = 0 /\
   assigned l IA 0 = ro_b0 q /\ assigned l IB 0 = 0 /\ assigned l IC 0 = 0 /\
   assigned l IP 0 = ro_p0 q / (gamma0 (mh p) - 1) + / 2 * ((u * u + v * v) * / d) + / 2 * (ro_b0 q * ro_b0 q))%R.
Proof.
  destruct c as [[i j] k]. unfold rotor_state.
  match goal with |- context [let '(_, _) := ?x in _] => destruct x as [[d u] w] end.
  exists d, u, w. destruct b3; unfold assigned; cbn; repeat split; try reflexivity; unfold Rdiv; ring.
Qed.

Section Pressure.
Variable g : grid.
Variable p : mparams R.
Variable bx : box R.
Hypothesis Hgam : (1 < gamma0 (mh p))%R.
Hypothesis Hiso : (cIso p <= 0)%R.
Hypothesis Hr0 : (0 < smallr (mh p))%R.
Hypothesis Hone : one_process bx.
Variables s s' : store R.
Hypothesis Hs : fresh s.

(** 3D: every problem with a straight field. *)
Lemma pressure3_straight q i j k P : mhd_grid3 g -> field_setting true g p bx q -> is_straight q ->
  pressure_setting true g p bx q ->
  run_kernels (init_problem RLibm true g p bx q) s s' -> inside3 g i j k ->
  (smallr (mh p) <= mD (mfill3 g s' aU i j k))%R -> (mD (mfill3 g s' aU i j k) * smallp (mh p) <= P)%R ->
  prescribed_pressure true g p bx q i j k P ->
  mP (derived3 p (mfill3 g s' aU) i j k) = P.
Proof.
  intros ((Gw & _ & G1 & G2) & G3) Hq Hst Hps Hr Hi HD HP Hpr.
  assert (Hg : 0 <= gw g) by lia.
  destruct (derived3_straight RLibm g p bx q s s' i j k Hg Hs Hq Hst Hr Hi) as [E1 E2].
  rewrite E1 in HD, HP. rewrite E2. clear E1 E2. cbv zeta.
  pose proof (in_cells3' g i j k Hg Hi) as Hc.
  apply conv_pressure; auto. clear HP.
  destruct q as [q|q|kt|rnd q|q|q|q]; cbn [init_problem is_straight prescribed_pressure pressure_setting] in *; try contradiction.
  - rewrite (single_state true g _ s s' i j k Hr Hc Hs) in *. cbn [mD mP mU mV mW mA mB mC] in *.
    pose proof (bool_spec _ _ _ _ (blast_inside_spec true g p bx q i j k Hone) Hpr) as HH.
    destruct (blast_inside true g p bx q (i, j, k)); subst P; unfold assigned in *; cbn in *; unfold Rdiv; field; lra.
  - rewrite (single_state true g _ s s' i j k Hr Hc Hs) in *. cbn [mD mP mU mV mW mA mB mC] in *.
    pose proof (bool_spec _ _ _ _ (implode_region_spec true g p bx q i j k Hone) Hpr) as HH.
    destruct (implode_region true g p bx q (i, j, k)); subst P; unfold assigned in *; cbn in *.
    + destruct (Hps (im_out q)) as (E1 & E2 & E3); auto. rewrite E1, E2, E3. field; lra.
    + destruct (Hps (im_in q)) as (E1 & E2 & E3); auto. rewrite E1, E2, E3. field; lra.
  - destruct Hi as (Hi & Hj & Hk).
    assert (X : In (i + 1, j, k) (cellsD true g)).
    { replace (i + 1, j, k) with (along_dir IX 1 (i, j, k)) by (unfold along_dir, unit_vec, shift; cbn -[Z.add]; rewrite !Z.add_0_r; reflexivity).
      apply (inner_next true g (i, j, k) IX); [lia|left; reflexivity|apply inner3; split; auto|discriminate]. }
    assert (Y : In (i, j + 1, k) (cellsD true g)).
    { replace (i, j + 1, k) with (along_dir IY 1 (i, j, k)) by (unfold along_dir, unit_vec, shift; cbn -[Z.add]; rewrite !Z.add_0_r; reflexivity).
      apply (inner_next true g (i, j, k) IY); [lia|right; left; reflexivity|apply inner3; split; auto|discriminate]. }
    destruct (ot_state_at RLibm true g p bx kt s s' i j k) as (d & u & v & a & b & E); auto;
      [unfold isize, imax, imin; lia|unfold jsize, jmax, jmin; lia|].
    rewrite E in *. cbn [mD mP mU mV mW mA mB mC] in *. subst P.
    replace (ot_p0 RLibm p) with (gamma0 (mh p) / (4 * PI))%R by (unfold ot_p0, ofZ; cbn; field; apply PI_neq0).
    field. pose proof PI_neq0. repeat split; lra.
  - rewrite (single_state true g _ s s' i j k Hr Hc Hs) in *. cbn [mD mP mU mV mW mA mB mC] in *.
    destruct (kh_value RLibm true g p bx rnd q (i, j, k) Hps) as (d & u & v & w & a & E1 & E2 & E3 & E4 & E5 & E6 & E7 & E8).
    rewrite E1, E2, E3, E4, E5, E6, E7, E8 in *. subst P. field; lra.
  - rewrite (single_state true g _ s s' i j k Hr Hc Hs) in *. cbn [mD mP mU mV mW mA mB mC] in *.
    destruct (rotor_value true g p bx q (i, j, k)) as (d & u & v & E1 & E2 & E3 & E4 & E5 & E6 & E7 & E8). cbv zeta in *.
    rewrite E1, E2, E3, E4, E5, E6, E7, E8 in *. subst P. field; lra.
Qed.

Lemma pressure2_straight q i j P : mhd_grid2 g -> field_setting false g p bx q -> is_straight q ->
  pressure_setting false g p bx q -> (forall b, q <> PBlast b) ->
  run_kernels (init_problem RLibm false g p bx q) s s' -> inside2 g i j ->
  (smallr (mh p) <= mD (mfill2 g s' aU i j))%R -> (mD (mfill2 g s' aU i j) * smallp (mh p) <= P)%R ->
  prescribed_pressure false g p bx q i j 0 P ->
  mP (derived2 p (mfill2 g s' aU) i j) = P.
Proof.
  intros (Gw & _ & G1 & G2) Hq Hst Hps Hnb Hr Hi HD HP Hpr.
  assert (Hg : 0 <= gw g) by lia.
  destruct (derived2_straight RLibm g p bx q s s' i j Hg Hs Hq Hst Hr Hi) as [E1 E2].
  rewrite E1 in HD, HP. rewrite E2. clear E1 E2. cbv zeta.
  pose proof (in_cells2' g i j Hg Hi) as Hc.
  apply conv_pressure; auto. clear HP.
  destruct q as [q|q|kt|rnd q|q|q|q]; cbn [init_problem is_straight prescribed_pressure pressure_setting] in *; try contradiction.
  - exfalso. apply (Hnb q). reflexivity.
  - rewrite (single_state false g _ s s' i j 0 Hr Hc Hs) in *. cbn [mD mP mU mV mW mA mB mC] in *.
    pose proof (bool_spec _ _ _ _ (implode_region_spec false g p bx q i j 0 Hone) Hpr) as HH.
    destruct (implode_region false g p bx q (i, j, 0)); subst P; unfold assigned in *; cbn in *.
    + destruct (Hps (im_out q)) as (E1 & E2 & E3); auto. rewrite E1, E2. field; lra.
    + destruct (Hps (im_in q)) as (E1 & E2 & E3); auto. rewrite E1, E2. field; lra.
  - destruct Hi as (Hi & Hj).
    assert (X : In (i + 1, j, 0) (cellsD false g)).
    { replace (i + 1, j, 0) with (along_dir IX 1 (i, j, 0)) by (unfold along_dir, unit_vec, shift; cbn -[Z.add]; rewrite !Z.add_0_r; reflexivity).
      apply (inner_next false g (i, j, 0) IX); [lia|left; reflexivity|apply inner2; split; auto|reflexivity]. }
    assert (Y : In (i, j + 1, 0) (cellsD false g)).
    { replace (i, j + 1, 0) with (along_dir IY 1 (i, j, 0)) by (unfold along_dir, unit_vec, shift; cbn -[Z.add]; rewrite !Z.add_0_r; reflexivity).
      apply (inner_next false g (i, j, 0) IY); [lia|right; left; reflexivity|apply inner2; split; auto|reflexivity]. }
    destruct (ot_state_at RLibm false g p bx kt s s' i j 0) as (d & u & v & a & b & E); auto;
      [unfold isize, imax, imin; lia|unfold jsize, jmax, jmin; lia|].
    rewrite E in *. cbn [mD mP mU mV mW mA mB mC] in *. subst P.
    replace (ot_p0 RLibm p) with (gamma0 (mh p) / (4 * PI))%R by (unfold ot_p0, ofZ; cbn; field; apply PI_neq0).
    field. pose proof PI_neq0. repeat split; lra.
  - rewrite (single_state false g _ s s' i j 0 Hr Hc Hs) in *. cbn [mD mP mU mV mW mA mB mC] in *.
    destruct (kh_value RLibm false g p bx rnd q (i, j, 0) Hps) as (d & u & v & w & a & E1 & E2 & E3 & E4 & E5 & E6 & E7 & E8).
    rewrite E1, E2, E3, E4, E5, E6, E7, E8 in *. subst P. field; lra.
  - rewrite (single_state false g _ s s' i j 0 Hr Hc Hs) in *. cbn [mD mP mU mV mW mA mB mC] in *.
    destruct (rotor_value false g p bx q (i, j, 0)) as (d & u & v & E1 & E2 & E3 & E4 & E5 & E6 & E7 & E8). cbv zeta in *.
    rewrite E1, E2, E3, E4, E5, E6, E7, E8 in *. subst P. field; lra.
Qed.

(** 2D blast: the stored energy contains the energy of a field with Bz = 1/2, the
    conversion sees Bz = 1/4. *)
Lemma pressure2_blast q i j P : mhd_grid2 g -> open_faces g ->
  run_kernels (init_problem RLibm false g p bx (PBlast q)) s s' -> inside2 g i j ->
  (smallr (mh p) <= mD (mfill2 g s' aU i j))%R -> (mD (mfill2 g s' aU i j) * smallp (mh p) <= P)%R ->
  prescribed_pressure false g p bx (PBlast q) i j 0 P ->
  mP (derived2 p (mfill2 g s' aU) i j) = (P + (gamma0 (mh p) - 1) * (3 / 32))%R.
Proof.
  intros (Gw & _ & G1 & G2) Hq Hr Hi HD HP Hpr.
  assert (Hg : 0 <= gw g) by lia.
  destruct (derived2_straight RLibm g p bx (PBlast q) s s' i j Hg Hs Hq I Hr Hi) as [E1 E2].
  rewrite E1 in HD, HP. rewrite E2. clear E1 E2. cbv zeta.
  pose proof (in_cells2' g i j Hg Hi) as Hc.
  apply conv_excess; auto; [lra|]. clear HP. cbn [init_problem prescribed_pressure] in *.
  rewrite (single_state false g _ s s' i j 0 Hr Hc Hs) in *. cbn [mD mP mU mV mW mA mB mC] in *.
  pose proof (bool_spec _ _ _ _ (blast_inside_spec false g p bx q i j 0 Hone) Hpr) as HH.
  destruct (blast_inside false g p bx q (i, j, 0)); subst P; unfold assigned in *; cbn in *; unfold Rdiv; field; lra.
Qed.
End Pressure.

(** ** Field loop *)
Section LoopPressure.
Variable g : grid.
Variable p : mparams R.
Variable bx : box R.
Hypothesis Hgam : (1 < gamma0 (mh p))%R.
Hypothesis Hiso : (cIso p <= 0)%R.
Hypothesis Hr0 : (0 < smallr (mh p))%R.
Hypothesis Hone : one_process bx.
Variable q : field_loop R.
Hypothesis Hper : all_periodic g.
Hypothesis Hc : loop_contained g (mh p) bx (fl_radius q).
Variables s s' : store R.
Hypothesis Hs : fresh s.

Lemma loop_pressure3 i j k : mhd_grid3 g ->
  run_kernels (init_field_loop true g p bx q) s s' -> inside3 g i j k ->
  (smallr (mh p) <= mD (mfill3 g s' aU i j k))%R -> (mD (mfill3 g s' aU i j k) * smallp (mh p) <= 1)%R ->
  mP (derived3 p (mfill3 g s' aU) i j k) = 1%R.
Proof.
  intros ((Gw & _ & G1 & G2) & G3) Hr Hi HD HP. assert (Hg : 0 <= gw g) by lia.
  pose proof (in_cells3' g i j k Hg Hi) as Hin. pose proof (inner3 g i j k Hi) as Hn.
  destruct (loop_mid true g p bx q s s' Hs Hr) as (s2 & K0 & K1 & K2 & K3).
  pose proof Hi as (Hx & Hy & Hz).
  assert (Cx : In (i + 1, j, k) (cellsD true g)).
  { replace (i + 1, j, k) with (along_dir IX 1 (i, j, k)) by (unfold along_dir, unit_vec, shift; cbn -[Z.add]; rewrite !Z.add_0_r; reflexivity).
    apply inner_next; auto; [lia|left; reflexivity|discriminate]. }
  assert (Cy : In (i, j + 1, k) (cellsD true g)).
  { replace (i, j + 1, k) with (along_dir IY 1 (i, j, k)) by (unfold along_dir, unit_vec, shift; cbn -[Z.add]; rewrite !Z.add_0_r; reflexivity).
    apply inner_next; auto; [lia|right; left; reflexivity|discriminate]. }
  assert (Cz : In (i, j, k + 1) (cellsD true g)).
  { replace (i, j, k + 1) with (along_dir IZ 1 (i, j, k)) by (unfold along_dir, unit_vec, shift; cbn -[Z.add]; rewrite !Z.add_0_r; reflexivity).
    apply inner_next; auto; [lia|right; right; left; reflexivity|discriminate]. }
  assert (F : forall i' j' k' v, inside3 g i' j' k' -> v = IA \/ v = IB \/ v = IC ->
    s' (Loc aU i' j' k' v) = curl true p (loop_A g p bx q) (i', j', k') v 0%R).
  { intros i' j' k' v Hin' Hv. change (s' (at_cell aU (i', j', k') v) = curl true p (loop_A g p bx q) (i', j', k') v (@zero R RArith)).
    apply (field_loop_field true g p bx q s s' (i', j', k') v); auto; [lia|apply inner3; auto|discriminate]. }
  assert (EA : mA (mfill3 g s' aU (i + 1) j k) = s2 (at_cell aU (i + 1, j, k) IA)).
  { rewrite mfill3_open by (apply periodic_open; auto). rewrite (iy_in g j), (iz_in g k) by auto. cbn [mst mA].
    pose proof (ix_up g i Hx). destruct (ix_wrap g i Hper Hx) as [E|[E1 E2]].
    - rewrite E. apply K1. cbn. discriminate.
    - rewrite E2. rewrite K0; [|auto|apply inner_false_x; [left; reflexivity|lia]].
      rewrite F; [|unfold inside3; lia|auto]. unfold curl, along_dir, unit_vec, shift. cbn -[Z.add loop_A].
      rewrite !(loop_A_zero g p bx q) by (auto; lia). unfold Rdiv. ring. }
  assert (EB : mB (mfill3 g s' aU i (j + 1) k) = s2 (at_cell aU (i, j + 1, k) IB)).
  { rewrite mfill3_open by (apply periodic_open; auto). rewrite (ix_in g i), (iz_in g k) by auto. cbn [mst mB].
    pose proof (iy_up g j Hy). destruct (iy_wrap g j Hper Hy) as [E|[E1 E2]].
    - rewrite E. apply K1. cbn. discriminate.
    - rewrite E2. rewrite K0; [|auto|apply inner_false_y; [right; left; reflexivity|lia]].
      rewrite F; [|unfold inside3; lia|auto]. unfold curl, along_dir, unit_vec, shift. cbn -[Z.add loop_A].
      rewrite !(loop_A_zero g p bx q) by (auto; lia). unfold Rdiv. ring. }
  assert (FZ : forall i' j' k', curl true p (loop_A g p bx q) (i', j', k') IC 0%R = 0%R).
  { intros i' j' k'. unfold curl, along_dir, unit_vec, shift, loop_A. cbn. unfold Rdiv. ring. }
  assert (EC : mC (mfill3 g s' aU i j (k + 1)) = s2 (at_cell aU (i, j, k + 1) IC)).
  { rewrite mfill3_open by (apply periodic_open; auto). rewrite (ix_in g i), (iy_in g j) by auto. cbn [mst mC].
    pose proof (iz_up g k Hz). destruct (iz_wrap g k Hper Hz) as [E|[E1 E2]].
    - rewrite E. apply K1. cbn. discriminate.
    - rewrite E2. rewrite K0; [|auto|apply inner_false_z; lia].
      rewrite F; [|unfold inside3; lia|auto]. apply FZ. }
  unfold derived3. rewrite EA, EB, EC. 
  rewrite mfill3_open in * by (apply periodic_open; auto). rewrite (ix_in g i), (iy_in g j), (iz_in g k) in * by auto.
  destruct (K2 (i, j, k) Hin Hn) as (d & E1 & E2 & E3 & E4).
  apply conv_pressure; auto. cbn [mst mD mP mU mV mW mA mB mC] in *. cell3.
  rewrite K3 by auto. rewrite !(K1 (at_cell aU (i, j, k) ID)), !(K1 (at_cell aU (i, j, k) IU)), !(K1 (at_cell aU (i, j, k) IV)),
    !(K1 (at_cell aU (i, j, k) IW)), !(K1 (at_cell aU (i, j, k) IA)), !(K1 (at_cell aU (i, j, k) IB)), !(K1 (at_cell aU (i, j, k) IC))
    by (rewrite lv_at_cell; discriminate).
  unfold loop_energy. rewrite Hn. cbn [when]. 
  replace ((zero <? cIso p)%A) with false by (cbn; destruct (Rlt_dec 0 (cIso p)); [lra|reflexivity]).
  unfold rdU. rewrite !exec_rd. unfold exec, wr; cbn [run snd]. rewrite upd_cell_same. rewrite Z.eqb_refl.
  unfold along_dir, unit_vec, shift. cbn [Z.eqb IX IY IZ]. change (IX =? IX) with true. cbn -[Z.add at_cell].
  rewrite !Z.add_0_r. 
  assert (HD' : (smallr (mh p) <= s2 (at_cell aU (i, j, k) ID))%R).
  { rewrite <- (K1 (at_cell aU (i, j, k) ID)) by (rewrite lv_at_cell; discriminate). exact HD. }
  unfold Rdiv. field. lra.
Qed.

Lemma loop_pressure2 i j : mhd_grid2 g -> 
  run_kernels (init_field_loop false g p bx q) s s' -> inside2 g i j ->
  let D := mD (mfill2 g s' aU i j) in
  let P := (1 - (gamma0 (mh p) - 1) * (/ 2 * (D * (fl_vflow q * fl_vflow q)
              * (IZR (nz g) * IZR (nz g) / IZR (nx g * nx g + ny g * ny g + nz g * nz g)))))%R in
  (smallr (mh p) <= D)%R -> (D * smallp (mh p) <= P)%R -> 0 < nz g ->
  mP (derived2 p (mfill2 g s' aU) i j) = P.
Proof.
  intros (Gw & _ & G1 & G2) Hr Hi D P HD HP Hnz. assert (Hg : 0 <= gw g) by lia. subst D P.
  pose proof (in_cells2' g i j Hg Hi) as Hin. pose proof (inner2 g i j Hi) as Hn.
  destruct (loop_mid false g p bx q s s' Hs Hr) as (s2 & K0 & K1 & K2 & K3).
  pose proof Hi as (Hx & Hy).
  assert (Cx : In (i + 1, j, 0) (cellsD false g)).
  { replace (i + 1, j, 0) with (along_dir IX 1 (i, j, 0)) by (unfold along_dir, unit_vec, shift; cbn -[Z.add]; rewrite !Z.add_0_r; reflexivity).
    apply inner_next; auto; [lia|left; reflexivity]. }
  assert (Cy : In (i, j + 1, 0) (cellsD false g)).
  { replace (i, j + 1, 0) with (along_dir IY 1 (i, j, 0)) by (unfold along_dir, unit_vec, shift; cbn -[Z.add]; rewrite !Z.add_0_r; reflexivity).
    apply inner_next; auto; [lia|right; left; reflexivity]. }
  assert (F : forall i' j' v, inside2 g i' j' -> v = IA \/ v = IB \/ v = IC ->
    s' (Loc aU i' j' 0 v) = curl false p (loop_A g p bx q) (i', j', 0) v 0%R).
  { intros i' j' v Hin' Hv. change (s' (at_cell aU (i', j', 0) v) = curl false p (loop_A g p bx q) (i', j', 0) v (@zero R RArith)).
    apply (field_loop_field false g p bx q s s' (i', j', 0) v); auto; [lia|apply inner2; auto]. }
  assert (EA : mA (mfill2 g s' aU (i + 1) j) = s2 (at_cell aU (i + 1, j, 0) IA)).
  { rewrite mfill2_open by (apply periodic_open; auto). rewrite (iy_in g j) by auto. cbn [mst mA].
    pose proof (ix_up g i Hx). destruct (ix_wrap g i Hper Hx) as [E|[E1 E2]].
    - rewrite E. apply K1. cbn. discriminate.
    - rewrite E2. rewrite K0; [|auto|apply inner_false_x; [left; reflexivity|lia]].
      rewrite F; [|unfold inside2; lia|auto]. unfold curl, along_dir, unit_vec, shift. cbn -[Z.add loop_A].
      rewrite !(loop_A_zero g p bx q) by (auto; lia). unfold Rdiv. ring. }
  assert (EB : mB (mfill2 g s' aU i (j + 1)) = s2 (at_cell aU (i, j + 1, 0) IB)).
  { rewrite mfill2_open by (apply periodic_open; auto). rewrite (ix_in g i) by auto. cbn [mst mB].
    pose proof (iy_up g j Hy). destruct (iy_wrap g j Hper Hy) as [E|[E1 E2]].
    - rewrite E. apply K1. cbn. discriminate.
    - rewrite E2. rewrite K0; [|auto|apply inner_false_y; [right; left; reflexivity|lia]].
      rewrite F; [|unfold inside2; lia|auto]. unfold curl, along_dir, unit_vec, shift. cbn -[Z.add loop_A].
      rewrite !(loop_A_zero g p bx q) by (auto; lia). unfold Rdiv. ring. }
  assert (EC : s2 (at_cell aU (i, j, 0) IC) = 0%R).
  { rewrite <- K1 by (rewrite lv_at_cell; discriminate). cbn [at_cell]. rewrite F by auto.
    unfold curl, along_dir, unit_vec, shift, loop_A. reflexivity. }
  unfold derived2. rewrite EA, EB.
  rewrite mfill2_open in * by (apply periodic_open; auto). rewrite (ix_in g i), (iy_in g j) in * by auto.
  destruct (K2 (i, j, 0) Hin Hn) as (d & E1 & E2 & E3 & E4).
  apply conv_pressure; auto. clear HP. cbn [mst mD mP mU mV mW mA mB mC] in *. cell2.
  rewrite K3 by auto. rewrite !(K1 (at_cell aU (i, j, 0) ID)), !(K1 (at_cell aU (i, j, 0) IU)), !(K1 (at_cell aU (i, j, 0) IV)),
    !(K1 (at_cell aU (i, j, 0) IW)), !(K1 (at_cell aU (i, j, 0) IA)), !(K1 (at_cell aU (i, j, 0) IB)), !(K1 (at_cell aU (i, j, 0) IC))
    by (rewrite lv_at_cell; discriminate).
  unfold loop_energy. rewrite Hn. cbn [when].
  replace ((zero <? cIso p)%A) with false by (cbn; destruct (Rlt_dec 0 (cIso p)); [lra|reflexivity]).
  unfold rdU. rewrite !exec_rd. unfold exec, wr; cbn [run snd]. rewrite upd_cell_same. rewrite Z.eqb_refl.
  unfold along_dir, unit_vec, shift. cbn [Z.eqb IX IY IZ]. change (IX =? IX) with true. cbn -[Z.add at_cell Z.mul].
  rewrite !Z.add_0_r. rewrite EC, E4.
  assert (HD' : (smallr (mh p) <= s2 (at_cell aU (i, j, 0%Z) ID))%R).
  { rewrite <- (K1 (at_cell aU (i, j, 0) ID)) by (rewrite lv_at_cell; discriminate). exact HD. }
  rewrite E1 in *.
  set (N := IZR (nx g * nx g + ny g * ny g + nz g * nz g)).
  assert (HN : (0 < N)%R) by (unfold N; apply IZR_lt; nia).
  replace (1 * (N / 1))%R with N by field.
  assert (SN : (sqrt N * sqrt N = N)%R) by (apply sqrt_sqrt; lra).
  assert (SN0 : (sqrt N <> 0)%R) by (intros E; rewrite E in SN; lra).
  replace (d * fl_vflow q * (IZR (nz g) / 1) / sqrt N * (d * fl_vflow q * (IZR (nz g) / 1) / sqrt N))%R
    with (d * d * (fl_vflow q * fl_vflow q) * (IZR (nz g) * IZR (nz g)) / N)%R by (rewrite <- SN at 1; field; auto).
  field. lra.
Qed.
End LoopPressure.

(** ** Implosion: velocity and field jumps *)
Section Implode.
Variable g : grid.
Variable p : mparams R.
Variable bx : box R.
Hypothesis Hone : one_process bx.
Variable q : implode R.
Variables s s' : store R.
Hypothesis Hs : fresh s.

Lemma implode_pressure3 i j k P r : mhd_grid3 g -> field_setting true g p bx (PImplode q) ->
  (1 < gamma0 (mh p))%R -> (cIso p <= 0)%R -> (0 < smallr (mh p))%R ->
  run_kernels (init_problem RLibm true g p bx (PImplode q)) s s' -> inside3 g i j k ->
  (in_outer true g (mh p) bx q i j k /\ r = im_out q) \/ (~ in_outer true g (mh p) bx q i j k /\ r = im_in q) ->
  (smallr (mh p) <= mD r)%R ->
  P = (mP r + (gamma0 (mh p) - 1) * (/ 2 * (mU r * mU r + mV r * mV r + mW r * mW r) * (mD r - / mD r)))%R ->
  (mD r * smallp (mh p) <= P)%R ->
  mP (derived3 p (mfill3 g s' aU) i j k) = P.
Proof.
  intros ((Gw & _ & G1 & G2) & G3) Hq Hgam Hiso Hr0 Hr Hi Hreg HD EP HP.
  assert (Hg : 0 <= gw g) by lia.
  destruct (derived3_straight RLibm g p bx (PImplode q) s s' i j k Hg Hs Hq I Hr Hi) as [E1 E2].
  rewrite E2. clear E1 E2. cbv zeta.
  pose proof (in_cells3' g i j k Hg Hi) as Hc. cbn [init_problem] in Hr.
  rewrite (single_state true g _ s s' i j k Hr Hc Hs).
  pose proof (bool_spec _ _ _ _ (implode_region_spec true g p bx q i j k Hone) Hreg) as HH.
  assert (ER : (if implode_region true g p bx q (i, j, k) then im_out q else im_in q) = r).
  { destruct (implode_region true g p bx q (i, j, k)); auto. }
  rewrite ER. apply conv_pressure; auto; cbn [mD mP mU mV mW mA mB mC]; unfold assigned; cbn; auto.
  rewrite EP. field. lra.
Qed.
(** Divergence next to the interface. *)
Lemma implode_div2 i j : mhd_grid2 g -> open_faces g ->
  run_kernels (init_problem RLibm false g p bx (PImplode q)) s s' -> inside2 g i j -> inside2 g (i + 1) j -> inside2 g i (j + 1) ->
  ~ in_outer false g (mh p) bx q i j 0 -> in_outer false g (mh p) bx q (i + 1) j 0 -> in_outer false g (mh p) bx q i (j + 1) 0 ->
  div2 (mh p) (mfill2 g s' aU) i j =
  ((mA (im_out q) - mA (im_in q)) / dx (mh p) + (mB (im_out q) - mB (im_in q)) / dy (mh p))%R.
Proof.
  intros (Gw & _ & G1 & G2) Ho Hr Hi Hi1 Hj1 R0 R1 R2. assert (Hg : 0 <= gw g) by lia.
  unfold div2. rewrite !mfill2_open by auto.
  rewrite (ix_in g i), (iy_in g j), (ix_in g (i + 1)), (iy_in g (j + 1)) by (unfold inside2 in *; lia).
  cbn [init_problem] in Hr.
  rewrite (single_state false g _ s s' i j 0 Hr (in_cells2' g i j Hg Hi) Hs),
    (single_state false g _ s s' (i + 1) j 0 Hr (in_cells2' g _ _ Hg Hi1) Hs),
    (single_state false g _ s s' i (j + 1) 0 Hr (in_cells2' g _ _ Hg Hj1) Hs).
  apply (implode_region_spec false g p bx q (i + 1) j 0 Hone) in R1.
  apply (implode_region_spec false g p bx q i (j + 1) 0 Hone) in R2.
  assert (R0' : implode_region false g p bx q (i, j, 0) = false).
  { destruct (implode_region false g p bx q (i, j, 0)) eqn:E; auto. apply (implode_region_spec false g p bx q i j 0 Hone) in E. contradiction. }
  rewrite R0', R1, R2. cbn. unfold Rdiv. ring.
Qed.
End Implode.
