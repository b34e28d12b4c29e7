(** 3D MHD: a supersonic uniform flow with a sheared field Bx(z), on which the low-memory
    variant differs from the others. *)
From Coq Require Import ZArith List Bool Lia Reals Lra.
From Verif Require Import Arith Par ParProofs GridModel BoundaryModel BoundarySpec BoundaryProofs
  HydroState HydroKernels HydroSpec HydroConserve
  MhdState MhdRiemann MhdPoint MhdKernels2 MhdSpec MhdExec MhdConserve2 MhdPhysics MhdFlux MhdSpec3 MhdPoint3 MhdKernels3
  MhdField3 MhdProofs3 MhdStep3 MhdConserve3.
Import ListNotations.
Open Scope R_scope.

(** Fast flow: the electromotive force is that of the upstream corner. *)
Definition xp : mparams R := MParams (HParams R (5/3) 1 (1/100) (1/100) (1/100) 1 1 (1/2) 1 1 1 RIEMANN_HLLD) 0 0 0.
Definition st (w a : R) : ms R := MS 1 1 10 0 w a 0 0.

Lemma fast_bound dir q : mD q = 1 -> mP q = 1 -> mC q = 0 -> mA q = 0 -> Rabs (mB q) <= 3 -> find_speed_fast xp dir q <= 4.
Proof.
  intros HD HP HC HA HB. unfold find_speed_fast. rewrite HD, HP, HC, HA. cbn [sqr add mul div sub half RArith gamma0 mh xp].
  assert (B2 : 0 <= mB q * mB q <= 9).
  { split; [apply Rle_0_sqr|]. rewrite <- (Rabs_pos_eq (mB q * mB q)) by apply Rle_0_sqr. rewrite Rabs_mult.
    pose proof (Rabs_pos (mB q)). nra. }
  set (d2 := / 2 * ((0 * 0 + mB q * mB q + 0 * 0) / 1 + 5 / 3 * 1 / 1)).
  assert (D2 : 0 <= d2 <= 7) by (unfold d2; lra).
  set (x := bcomp dir q).
  assert (S : sqrt (d2 * d2 - 5 / 3 * 1 / 1 * x * x / 1) <= d2).
  { apply Rle_trans with (sqrt (d2 * d2)); [|rewrite sqrt_square; lra]. apply sqrt_le_1_alt. assert (0 <= x * x) by apply Rle_0_sqr. nra. }
  replace 4 with (sqrt (4 * 4)) by (apply sqrt_square; lra). apply sqrt_le_1_alt. lra.
Qed.
Lemma FMAX4_le a b c d m : a <= m -> b <= m -> c <= m -> d <= m -> FMAX4 a b c d <= m.
Proof.
  intros. unfold FMAX4, pickmax. cbn. repeat (destruct (Rlt_dec _ _) || destruct (Rle_dec _ _)); lra.
Qed.
Lemma FMIN4_ge a b c d m : m <= a -> m <= b -> m <= c -> m <= d -> m <= FMIN4 a b c d.
Proof.
  intros. unfold FMIN4, pickmin. cbn. repeat (destruct (Rlt_dec _ _) || destruct (Rle_dec _ _)); lra.
Qed.

Lemma fast_emf w1 a1 w2 a2 w3 a3 w4 a4 :
  9 <= w1 -> 9 <= w2 -> 9 <= w3 -> 9 <= w4 -> Rabs a1 <= 3 -> Rabs a2 <= 3 -> Rabs a3 <= 3 -> Rabs a4 <= 3 ->
  emf_of xp CY (st w1 a1) (st w2 a2) (st w3 a3) (st w4 a4) = w1 * (/ 2 * (a1 + a3)).
Proof.
  intros W1 W2 W3 W4 A1 A2 A3 A4. unfold emf_of. cbn [emfd edge_order fst snd]. unfold compute_emf, st.
  cbn [rot_emf mD mP mU mV mW mA mB mC]. unfold iso_pressure. cbn [ltb zero RArith cIso xp].
  destruct (Rlt_dec 0 0) as [|_]; [lra|]. cbn [with_P with_A with_B mD mP mU mV mW mA mB mC half mul add sub RArith].
  set (b1 := / 2 * (a1 + a3)). set (b2 := / 2 * (a2 + a4)).
  assert (B1 : Rabs b1 <= 3).
  { unfold b1. clear - A1 A3. unfold Rabs in *. repeat destruct Rcase_abs; lra. }
  assert (B2 : Rabs b2 <= 3).
  { unfold b2. clear - A2 A4. unfold Rabs in *. repeat destruct Rcase_abs; lra. }
  set (z := / 2 * (0 + 0)). assert (Z : z = 0) by (unfold z; lra). 
  rewrite emf_select.
  - cbv zeta. destruct (Rlt_dec 0 _) as [_|N1].
    + destruct (Rlt_dec 0 _) as [_|N2]; [unfold z; lra|].
      exfalso. apply N2. clear N2. unfold mag_middle. cbn [wSL mU sub RArith].
      match goal with |- 0 < ?x - ?y => assert (9 <= x) by (apply FMIN4_ge; cbn; lra); assert (y <= 4) by (apply FMAX4_le; apply fast_bound; cbn; auto) end. lra.
    + exfalso. apply N1. clear N1. unfold mag_middle. cbn [wSB mV sub RArith].
      match goal with |- 0 < ?x - ?y => assert (9 <= x) by (apply FMIN4_ge; cbn; lra); assert (y <= 4) by (apply FMAX4_le; apply fast_bound; cbn; auto) end. lra.
  - unfold mag_middle. cbn [wSB mV sub RArith].
    match goal with |- ?x - ?y <> 0 => assert (9 <= x) by (apply FMIN4_ge; cbn; lra); assert (y <= 4) by (apply FMAX4_le; apply fast_bound; cbn; auto) end. lra.
  - unfold mag_middle. cbn [wSL mU sub RArith].
    match goal with |- ?x - ?y <> 0 => assert (9 <= x) by (apply FMIN4_ge; cbn; lra); assert (y <= 4) by (apply FMAX4_le; apply fast_bound; cbn; auto) end. lra.
Qed.

(** The flow: velocity (10, 0, 10), density and pressure 1, field (a(z), 0, 0). *)
Section Profile.
Variable a : Z -> R.
Variable g : grid.
Definition prof (c : cell) : ms R := st 10 (a (cz c)).
Definition cons0 (c : cell) : ms R := mhd_conservative (5 / 3) (prof c).
Definition xdt : R := 1 / 100.
Definition sig (z : Z) : R := limit1 1 (a z) (a (z + 1)) (a (z + -1)).
(** Half-step values: vertical velocity and field. *)
Definition wh (z : Z) : R := 10 - a z * (sig z / 2) * xdt.
Definition ah (z : Z) : R := a z - 10 * (a (z + 1)%Z - a (z + -1)%Z) / 2 * xdt / 2.

Lemma prof_prim c : prim3 xp cons0 c = prof c.
Proof.
  destruct c as [[x y] z]. unfold prim3, cons0, constoprim_mhd, prof, st, mhd_conservative, mhd_energy, speed2, field2. pos3.
  cbn [mD mP mU mV mW mA mB mC]. cbn [maxv ltb zero half add sub mul div one RArith mh xp smallr smallp gamma0 cIso].
  rewrite (Rmax_left 1) by lra. destruct (Rlt_dec 0 0) as [|_]; [lra|].
  match goal with |- context [Rmax ?u ?v] => replace u with 1 by field; replace v with (1 / 100) by field end.
  rewrite Rmax_left by lra. f_equal; field.
Qed.
Lemma limit_same s (x : R) : limit1 s x x x = 0.
Proof.
  unfold limit1. cbn. rewrite !Rminus_diag_eq by reflexivity. rewrite !Rmult_0_r.
  destruct (Rle_dec 0 0) as [_|]; [|lra]. rewrite Rabs_R0, Rmin_left by lra. lra.
Qed.


Definition only_A (x : R) : ms R := MS 0 0 0 0 0 x 0 0.
Lemma source_only q1 sz : source3 xp (st 10 q1) (only_A 0) (only_A 0) (only_A sz) 0 0 0 xdt xdt xdt
  = MS 0 0 0 0 (- (q1 * sz) * xdt) (- (10 * sz) * xdt) 0 0.
Proof.
  unfold source3, st, only_A. cbn [mD mP mU mV mW mA mB mC]. cbn [add sub mul div opp RArith mh xp gamma0].
  f_equal; field.
Qed.
Lemma core_edge xPos az sz d E fc db s t :
  d CX = only_A 0 -> d CY = only_A 0 -> d CZ = only_A sz ->
  (forall s t, E CX s t = 0) -> (forall s t, E CZ s t = 0) ->
  (forall s, fc CX s = az) -> (forall s, fc CY s = 0) -> (forall s, fc CZ s = 0) ->
  (forall s, db CX CZ s = sz) -> (forall s, db CZ CX s = 0) -> E CY true false = E CY false false -> E CY true true = E CY false true ->
  te (trace3_core xp xPos (st 10 az) d E fc db xdt xdt xdt) CY s t
  = st (10 - az * (sz / 2) * xdt) (az - (E CY s true - E CY s false) * xdt / 2 + (if t then 1 else - 1) * (sz / 2)).
Proof.
  intros D1 D2 D3 E1 E3 F1 F2 F3 B1 B2 Y1 Y2. unfold trace3_core. cbn [te axis1 axis2].
  unfold shear3. cbn [ltb zero RArith xp Omega0]. destruct (Rlt_dec 0 0) as [|_]; [lra|]. fold xp.
  rewrite !D1, !D2, !D3, !F1, !F2, !F3.
  assert (H0 : ms_map (fun x => (x * half)%A) (only_A 0) = only_A 0).
  { unfold ms_map, only_A. cbn. f_equal; field. }
  assert (H1 : ms_map (fun x => (x * half)%A) (only_A sz) = only_A (sz / 2)).
  { unfold ms_map, only_A. cbn. f_equal; field. }
  rewrite H0, H1.
  replace (half * (az - az))%A with 0 by (cbn; ring). replace (half * (0 - 0))%A with 0 by (cbn; ring).
  rewrite source_only.
  assert (HS : forall h w x, (ms_map2 add (ms_map2 add (st 10 h) (MS 0 0 0 0 w x 0 0))
             (ms_map2 (fun x y : R => ((if s then x else - x) + (if t then y else - y))%A) (only_A 0) (only_A (sz / 2))))
             = MS 1 1 10 0 (10 + w) (h + x + (if t then sz / 2 else - (sz / 2))) 0 0).
  { intros. unfold ms_map2, only_A, st. destruct s, t; cbn; f_equal; try field.
 }
  rewrite HS. unfold setb, with_A, with_C. cbn [mD mP mU mV mW mA mB mC].
  unfold floors3, with_P, with_D. cbn [mD mP mU mV mW mA mB mC]. cbn [maxv RArith xp mh smallr smallp].
  rewrite !Rmax_right by lra. rewrite !E1, !E3, B1, B2. unfold st. cbn [add sub mul half opp RArith].
  destruct s, t; rewrite ?Y1, ?Y2; f_equal; field.
Qed.

Lemma elec_x c : elecf prof cons0 CX c = 0.
Proof. destruct c as [[x' y'] z']. unfold elecf, elec3, prof, cons0, prof, mhd_conservative, st. cbn. field. Qed.
Lemma elec_z c : elecf prof cons0 CZ c = 0.
Proof. destruct c as [[x' y'] z']. unfold elecf, elec3, prof, cons0, prof, mhd_conservative, st. cbn. field. Qed.
Lemma elec_y x y z : elecf prof cons0 CY (x, y, z) = 10 * (/ 2 * (a (z + -1) + a z)).
Proof. unfold elecf, elec3, prof, cons0, prof, mhd_conservative, st. cbn. field. Qed.
Lemma slope_min : minv (slope_type (mh xp)) two = 1.
Proof. cbn. rewrite Rmin_left; lra. Qed.
Lemma slopes_xy x y z d : d <> CZ -> slope_hydro3 xp (prof (x, y, z)) (fun d => prof (move d 1 (x, y, z))) (fun d => prof (move d (-1) (x, y, z))) d = only_A 0.
Proof.
  assert (S12 : slope12 xp = true) by (unfold slope12; cbn; destruct (Req_EM_T 1 1); auto).
  intros N. unfold slope_hydro3. rewrite S12. unfold slope_vec, prof, st.
  destruct d; [| |congruence]; pos3; cbn [mD mP mU mV mW mA mB mC]; rewrite !limit_same; reflexivity.
Qed.
Lemma slopes_z x y z : slope_hydro3 xp (prof (x, y, z)) (fun d => prof (move d 1 (x, y, z))) (fun d => prof (move d (-1) (x, y, z))) CZ = only_A (sig z).
Proof.
  assert (S12 : slope12 xp = true) by (unfold slope12; cbn; destruct (Req_EM_T 1 1); auto).
  unfold slope_hydro3. rewrite S12. unfold slope_vec, prof, st, with_C.
  pos3; cbn [mD mP mU mV mW mA mB mC]; rewrite !limit_same; reflexivity.
Qed.
Lemma dtd_x : dtdx (mh xp) xdt = xdt. Proof. unfold dtdx, xdt. cbn. field. Qed.
Lemma dtd_y : dtdy (mh xp) xdt = xdt. Proof. unfold dtdy, xdt. cbn. field. Qed.
Lemma dtd_z : dtdz (mh xp) xdt = xdt. Proof. unfold dtdz, xdt. cbn. field. Qed.

Lemma edge0 x y z s t :
  te (trace3f xp g xdt prof cons0 (x, y, z)) CY s t = st (wh z) (ah z + (if t then 1 else - 1) * (sig z / 2)).
Proof.
  unfold trace3f. rewrite ?dtd_x, ?dtd_y, ?dtd_z.
  change (prof (x, y, z)) with (st 10 (a z)) at 1.
  rewrite (core_edge _ (a z) (sig z)).
  - cbn [up axis1 axis2]. unfold wh, ah. destruct s; cbn [up]; pos3; rewrite !elec_y.
    all: f_equal; replace (z + 1 + -1)%Z with z by lia; field.
  - apply slopes_xy; congruence.
  - apply slopes_xy; congruence.
  - apply slopes_z.
  - intros. apply elec_x.
  - intros. apply elec_z.
  - intros []; reflexivity.
  - intros []; reflexivity.
  - intros []; reflexivity.
  - intros b. unfold magf, slope_face3. cbn [is]. rewrite slope_min. destruct b; reflexivity.
  - intros b. unfold magf, slope_face3. cbn [is]. destruct b; apply limit_same.
  - cbn [up axis1 axis2]; pos3; rewrite !elec_y; reflexivity.
  - cbn [up axis1 axis2]; pos3; rewrite !elec_y; reflexivity.
Qed.

(** Half-step state and edge states of the low-memory variant. *)
Lemma slopef_prof x y z d : slopef xp prof cons0 d (x, y, z) = only_A (match d with CZ => sig z | _ => 0 end).
Proof.
  unfold slopef, slope_vec, prof, st. destruct d; cbn [setb]; unfold with_A, with_B, with_C; pos3; cbn [mD mP mU mV mW mA mB mC].
  all: rewrite !limit_same; unfold only_A, cons0, mhd_conservative, prof, st; cbn [mD mP mU mV mW mA mB mC bcomp cz fst snd].
  all: f_equal; cbn; ring.
Qed.
Lemma q2_prof x y z : q2f xp xdt prof cons0 (x, y, z) = MS 1 1 10 0 (wh z) (a z - 10 * sig z * xdt / 2) 0 0.
Proof.
  unfold q2f, primvar3. rewrite ?dtd_x, ?dtd_y, ?dtd_z. rewrite !slopef_prof.
  change (prof (x, y, z)) with (st 10 (a z)).
  replace (bcomp CX (cons0 (move CX 1 (x, y, z))) - bcomp CX (cons0 (x, y, z)))%A with 0 by (cbn; ring).
  replace (bcomp CY (cons0 (move CY 1 (x, y, z))) - bcomp CY (cons0 (x, y, z)))%A with 0 by (cbn; ring).
  replace (bcomp CZ (cons0 (move CZ 1 (x, y, z))) - bcomp CZ (cons0 (x, y, z)))%A with 0 by (cbn; ring).
  rewrite source_only. unfold ms_map2, st, wh. cbn [mD mP mU mV mW mA mB mC]. cbn [add mul half RArith].
  f_equal; field.
Qed.
Lemma limit_twice b q : limit1 1 b q q = 0.
Proof.
  unfold limit1. cbn.
  match goal with |- context [Rle_dec ?u 0] => destruct (Rle_dec u 0) as [_|N] end; [|exfalso; apply N; pose proof (Rle_0_sqr (b - q)) as S; unfold Rsqr in S; ring_simplify in S; ring_simplify; lra].
  rewrite Rmin_left, Rmult_0_r by apply Rabs_pos. reflexivity.
Qed.
Lemma sface_prof x y z : (a z + sfacef xp xdt prof cons0 CX (x, y, z))%A = ah z.
Proof.
  unfold sfacef. rewrite ?dtd_x, ?dtd_y, ?dtd_z, !elec_z. pos3. rewrite !elec_y. unfold ah. cbn.
  replace (z + 1 + -1)%Z with z by lia. field.
Qed.
Lemma sface_prof_z x y z : sfacef xp xdt prof cons0 CZ (x, y, z) = 0.
Proof.
  unfold sfacef. rewrite ?dtd_x, ?dtd_y, ?dtd_z, !elec_x. pos3. rewrite !elec_y. cbn. ring.
Qed.
Lemma edge2 x y z s t : ledgef xp xdt prof cons0 CY s t (x, y, z) = st (wh z) (ah z).
Proof.
  unfold ledgef. cbn [axis1 axis2].
  assert (A0 : bcomp CX (cons0 (up CX s (x, y, z))) = a z) by (destruct s; reflexivity).
  assert (A1 : bcomp CX (cons0 (move CZ 1 (up CX s (x, y, z)))) = a (z + 1)%Z) by (destruct s; reflexivity).
  assert (C0 : forall c, bcomp CZ (cons0 c) = 0) by reflexivity.
  assert (F0 : (a z + sfacef xp xdt prof cons0 CX (up CX s (x, y, z)))%A = ah z) by (destruct s; apply sface_prof).
  assert (F1 : sfacef xp xdt prof cons0 CZ (up CZ t (x, y, z)) = 0) by (destruct t; apply sface_prof_z).
  rewrite A0, F0, A1, !C0, F1. unfold limited_slope3. cbn [mh xp slope_type].
  rewrite limit_twice, limit_same, q2_prof, !slopef_prof.
  unfold recon3. cbn [is]. unfold floors, with_P, with_D, only_A, sgn1. cbn [mD mP mU mV mW mA mB mC].
  cbn [maxv mul half add opp RArith xp mh smallr smallp].
  match goal with |- context [Rmax (1 / 100) (1 + ?e)] => replace (1 + e) with 1 by (destruct s, t; cbn; field) end.
  rewrite !(Rmax_right (1 / 100)) by lra.
  match goal with |- context [Rmax ?u ?v] => replace u with (1 / 100) by field; replace v with 1 by (destruct s, t; cbn; field) end.
  rewrite !(Rmax_right (1 / 100)) by lra. unfold st.
  destruct s, t; cbn; f_equal; field.
Qed.

(** The two electromotive forces. *)
Hypothesis fast : forall z, (6 <= z <= 8)%Z -> 9 <= wh z.
Hypothesis weak : forall z, (6 <= z <= 8)%Z -> Rabs (ah z) <= 3 /\ Rabs (ah z + sig z / 2) <= 3 /\ Rabs (ah z - sig z / 2) <= 3.
Lemma emf_v0 x y z : (7 <= z <= 8)%Z ->
  emf3f xp g xdt prof cons0 CY (x, y, z) = wh (z + -1) * (ah (z + -1) + sig (z + -1) / 2).
Proof.
  intros Z. unfold emf3f. cbn [axis1 axis2]. pos3. rewrite !edge0.
  destruct (weak z) as (_ & W1 & W2); [lia|]. destruct (weak (z + -1)) as (_ & W3 & W4); [lia|].
  replace (ah (z + -1) + 1 * (sig (z + -1) / 2)) with (ah (z + -1) + sig (z + -1) / 2) by ring.
  replace (ah z + -1 * (sig z / 2)) with (ah z - sig z / 2) by ring.
  rewrite fast_emf; auto; try (apply fast; lia). field.
Qed.
Lemma emf_v2 x y z : (7 <= z <= 8)%Z ->
  lemf3f xp xdt prof cons0 CY (x, y, z) = wh (z + -1) * ah (z + -1).
Proof.
  intros Z. unfold lemf3f. cbn [axis1 axis2]. pos3. rewrite !edge2.
  destruct (weak z) as (W1 & _); [lia|]. destruct (weak (z + -1)) as (W3 & _); [lia|].
  rewrite fast_emf; auto; try (apply fast; lia). field.
Qed.
(** Increment of Bx in cell (x, y, 7). *)
Definition emf_z (impl : Z) (z : Z) : R :=
  if (impl =? 2)%Z then wh (z + -1) * ah (z + -1) else wh (z + -1) * (ah (z + -1) + sig (z + -1) / 2).
Lemma step_A junk impl x y :
  mA (vstep3 xp g xdt junk impl cons0 (x, y, 7%Z)) = a 7 - (emf_z impl 8 - emf_z impl 7) * xdt.
Proof.
  change (mA ?q) with (bcomp CX q). unfold vstep3. rewrite new3_B. unfold dB. rewrite ?dtd_x, ?dtd_y, ?dtd_z.
  rewrite emff_of_shift by (unfold no_rotation; cbn; destruct (Rlt_dec 0 0); [lra|reflexivity]).
  set (P := prim3 xp cons0).
  assert (EP : forall c, P c = prof c) by apply prof_prim. clearbody P.
  assert (X : emff_of xp g xdt impl (shf CY 1 P) (shf CY 1 cons0) CZ (x, y, 7%Z) = emff_of xp g xdt impl P cons0 CZ (x, y, 7%Z)).
  { apply emff_of_ext; [|reflexivity]. intros [[x' y'] z'] _. unfold shf. rewrite !EP. reflexivity. }
  rewrite X. pos3. cbn [bcomp].
  assert (Y : forall z, (7 <= z <= 8)%Z -> emff_of xp g xdt impl P cons0 CY (x, y, z) = emf_z impl z).
  { intros z Hz. rewrite (emff_of_ext _ _ _ _ P prof cons0 cons0); [|intros; apply EP|reflexivity].
    unfold emff_of, emf_z. destruct (impl =? 2)%Z; [apply emf_v2|apply emf_v0]; auto. }
  change (7 + 1)%Z with 8%Z. rewrite !Y by lia. change (mA (cons0 (x, y, 7%Z))) with (a 7). ring.
Qed.
End Profile.

(** The ramp: no field up to layer 6, growing linearly above. *)
Definition ramp (z : Z) : R := if (z <=? 6)%Z then 0 else IZR (z - 6).
Definition vgrid : grid := Grid 8 8 8 3 8 (fun _ => 3%Z).
Lemma sig_ramp z : (6 <= z <= 8)%Z -> sig ramp z = if (z =? 6)%Z then 0 else 1.
Proof.
  intros H. assert (C : z = 6%Z \/ z = 7%Z \/ z = 8%Z) by lia. unfold sig, limit1, ramp.
  destruct C as [-> | [-> | ->]]; cbn;
    repeat match goal with |- context [Rle_dec ?u ?v] => destruct (Rle_dec u v) as [?|N]; try lra end.
  all: unfold Rabs; repeat destruct Rcase_abs; try lra; unfold Rmin; repeat destruct Rle_dec; lra.
Qed.
Lemma ramp_fast z : (6 <= z <= 8)%Z -> 9 <= wh ramp z.
Proof.
  intros H. unfold wh. rewrite sig_ramp by auto. assert (C : z = 6%Z \/ z = 7%Z \/ z = 8%Z) by lia. unfold ramp, xdt.
  destruct C as [-> | [-> | ->]]; cbn; lra.
Qed.
Lemma ramp_weak z : (6 <= z <= 8)%Z -> Rabs (ah ramp z) <= 3 /\ Rabs (ah ramp z + sig ramp z / 2) <= 3 /\ Rabs (ah ramp z - sig ramp z / 2) <= 3.
Proof.
  intros H. unfold ah. rewrite sig_ramp by auto. assert (C : z = 6%Z \/ z = 7%Z \/ z = 8%Z) by lia. unfold ramp, xdt.
  destruct C as [-> | [-> | ->]]; cbn; unfold Rabs; repeat destruct Rcase_abs; lra.
Qed.
(** The two variants give different fields. *)
Lemma variants_differ junk x y :
  mA (vstep3 xp vgrid xdt junk 0 (cons0 ramp) (x, y, 7%Z)) <> mA (vstep3 xp vgrid xdt junk 2 (cons0 ramp) (x, y, 7%Z)).
Proof.
  rewrite !step_A by (apply ramp_fast || apply ramp_weak). unfold emf_z. cbn [Z.eqb Pos.eqb].
  change (8 + -1)%Z with 7%Z. change (7 + -1)%Z with 6%Z.
  rewrite !sig_ramp by lia. pose proof (ramp_fast 7 ltac:(lia)) as F. unfold xdt. cbn [Z.eqb Pos.eqb]. intros E. lra.
Qed.

(** Store holding the ramp in array aU. *)
Definition ramp_store : store R := fun l => mget (cons0 ramp (li l, lj l, lk l)) (lv l).
Lemma ramp_fil c : (4 <= cx c <= 9)%Z -> (4 <= cy c <= 9)%Z -> (5 <= cz c <= 10)%Z -> mfil vgrid ramp_store aU c = cons0 ramp c.
Proof.
  destruct c as [[x y] z]. unfold cx, cy, cz. cbn [fst snd]. intros. rewrite mfil_inside.
  - reflexivity.
  - unfold inside3. cbn. lia.
Qed.
Lemma runs_differ junk s0 s2 :
  run_kernels (mgodunov3 xp vgrid xdt junk 0 aU aU2) ramp_store s0 -> run_kernels (mgodunov3 xp vgrid xdt junk 2 aU aU2) ramp_store s2 ->
  mA (mst s0 aU2 6 6 7) <> mA (mst s2 aU2 6 6 7).
Proof.
  assert (S : mslope_ok xp) by (left; cbn; destruct Req_EM_T; auto; lra).
  assert (G : mhd_grid3 vgrid) by (unfold mhd_grid3, mhd_grid2; cbn; lia).
  assert (I : inside3 vgrid 6 6 7) by (unfold inside3; cbn; lia).
  intros R0 R2.
  destruct (mgodunov3_spec xp vgrid xdt junk 0 aU aU2 ramp_store s0) as (K0 & _); [left; auto|left; auto|auto..|].
  destruct (mgodunov3_spec xp vgrid xdt junk 2 aU aU2 ramp_store s2) as (K2 & _); [right; right; auto|left; auto|auto..|].
  rewrite K0, K2 by auto.
  assert (N : forall c, near 2 3 (6, 6, 7)%Z c -> mfil vgrid ramp_store aU c = cons0 ramp c).
  { intros [[x y] z] H. apply ramp_fil; unfold near, cx, cy, cz in *; cbn [fst snd] in *; lia. }
  rewrite !(vstep3_ext xp vgrid xdt junk _ (mfil vgrid ramp_store aU) (cons0 ramp)) by exact N.
  apply variants_differ.
Qed.
