(** Double precision as an instance of the arithmetic interface: every
    operation is the exact one followed by rounding to nearest, ties to even,
    in the binary64 format.  Simplification: no overflow, infinities or NaN;
    fabs, fmin, fmax, negation and comparisons are exact. *)
From Coq Require Import ZArith Reals Lia Lra Bool.
From Flocq Require Import Core.
From Verif Require Import Arith Par LoopModel LoopProofs.
Open Scope R_scope.

Definition fexp64 : Z -> Z := FLT_exp (-1074) 53.
Definition rnd (x : R) : R := round radix2 fexp64 ZnearestE x.
Definition B64 : Arith R := {|
  zero := 0; one := 1; two := 2; half := / 2;
  lit := fun n d => rnd (IZR n / IZR (Zpos d));
  add := fun x y => rnd (x + y); sub := fun x y => rnd (x - y);
  mul := fun x y => rnd (x * y); div := fun x y => rnd (x / y); opp := Ropp;
  sqr := fun x => rnd (R_sqrt.sqrt x);
  copysign1 := fun x => if Rlt_dec x 0 then (-1) else 1;
  absv := Rabs; minv := Rmin; maxv := Rmax;
  ltb := fun x y => if Rlt_dec x y then true else false;
  leb := fun x y => if Rle_dec x y then true else false;
  eqb := fun x y => if Req_EM_T x y then true else false |}.

(** Numbers of the two formats. *)
Definition double (x : R) : Prop := generic_format radix2 fexp64 x.
Definition single (x : R) : Prop := generic_format radix2 (FLT_exp (-149) 24) x.

Global Instance prec64 : Prec_gt_0 53. Proof. reflexivity. Qed.
Global Instance prec32 : Prec_gt_0 24. Proof. reflexivity. Qed.
Global Instance valid64 : Valid_exp fexp64. Proof. unfold fexp64. apply FLT_exp_valid. reflexivity. Qed.
Global Instance mono64 : Monotone_exp fexp64. Proof. unfold fexp64. apply FLT_exp_monotone. Qed.

Lemma rnd_le x y : x <= y -> rnd x <= rnd y.
Proof. apply round_le; typeclasses eauto. Qed.
Lemma rnd_id x : double x -> rnd x = x.
Proof. apply round_generic; typeclasses eauto. Qed.
Lemma rnd_double x : double (rnd x).
Proof. apply generic_format_round; typeclasses eauto. Qed.
Lemma double_0 : double 0. Proof. apply generic_format_0. Qed.
Lemma rnd_pos x : 0 <= x -> 0 <= rnd x.
Proof. intros H. rewrite <- (rnd_id 0 double_0). apply rnd_le; auto. Qed.

Lemma single_double x : single x -> double x.
Proof.
  unfold single, double. apply generic_inclusion_mag. intros _. unfold fexp64, FLT_exp. lia.
Qed.
(** The mantissa of a single in double format is even. *)
Lemma single_even x : single x -> exists m, scaled_mantissa radix2 fexp64 x = IZR m /\ Z.even m = true.
Proof.
  intros H. unfold single, generic_format in H. set (e := cexp radix2 (FLT_exp (-149) 24) x) in *.
  set (M := Ztrunc (scaled_mantissa radix2 (FLT_exp (-149) 24) x)) in *.
  assert (E : (cexp radix2 fexp64 x <= e - 1)%Z) by (unfold e, cexp, fexp64, FLT_exp; lia).
  exists (M * 2 ^ (e - cexp radix2 fexp64 x))%Z. split.
  - unfold scaled_mantissa. rewrite H at 1. unfold F2R. cbn [Fnum Fexp]. rewrite Rmult_assoc, <- bpow_plus.
    rewrite mult_IZR. f_equal. change 2%Z with (radix_val radix2). rewrite IZR_Zpower by lia. f_equal.
  - rewrite Z.even_mul. rewrite (Z.even_pow 2) by lia. apply orb_true_r.
Qed.

Lemma round_half_ulp x : 0 < x -> single x -> rnd (x + ulp radix2 fexp64 x / 2) = x.
Proof.
  intros H0 Hs. pose proof (single_double x Hs) as Hd. destruct (single_even x Hs) as (m & Hm & He).
  unfold rnd, round. set (u := ulp radix2 fexp64 x).
  assert (U : u = bpow radix2 (cexp radix2 fexp64 x)) by (apply ulp_neq_0; lra).
  assert (U0 : 0 < u) by (rewrite U; apply bpow_gt_0).
  assert (C : cexp radix2 fexp64 (x + u / 2) = cexp radix2 fexp64 x).
  { unfold cexp. f_equal. apply (mag_plus_eps radix2 fexp64); auto. split; [lra|]. fold u. lra. }
  rewrite C.
  assert (SM : scaled_mantissa radix2 fexp64 (x + u / 2) = IZR m + / 2).
  { unfold scaled_mantissa in *. rewrite C, Rmult_plus_distr_r, Hm. f_equal.
    rewrite U. unfold Rdiv. rewrite (Rmult_comm (bpow _ _) (/2)), Rmult_assoc, <- bpow_plus.
    replace (cexp radix2 fexp64 x + - cexp radix2 fexp64 x)%Z with 0%Z by lia. cbn. lra. }
  rewrite SM.
  assert (FL : Zfloor (IZR m + / 2) = m). { apply Zfloor_imp. rewrite plus_IZR. lra. }
  unfold Znearest. rewrite FL. replace (IZR m + / 2 - IZR m) with (/ 2) by lra. rewrite Rcompare_Eq by reflexivity.
  rewrite He. cbn [negb]. unfold F2R. cbn [Fnum Fexp]. rewrite <- Hm. apply scaled_mantissa_mult_bpow.
Qed.

(** Clipped steps do not pass the end. *)
Lemma clipped_le E t : single E -> 0 <= t <= E -> rnd (t + rnd (E - t)) <= E.
Proof.
  intros HE Ht. destruct (Req_dec E 0) as [->|HE0].
  { assert (t = 0) by lra. subst. replace (0 - 0) with 0 by lra. rewrite (rnd_id 0 double_0), Rplus_0_l, (rnd_id 0 double_0). lra. }
  rewrite <- (round_half_ulp E) at 2 by (auto; lra). apply rnd_le.
  pose proof (error_le_half_ulp radix2 fexp64 (fun x => negb (Z.even x)) (E - t)) as Herr.
  fold (rnd (E - t)) in Herr.
  assert (Hu : ulp radix2 fexp64 (E - t) <= ulp radix2 fexp64 E).
  { apply ulp_le; [typeclasses eauto|typeclasses eauto|]. rewrite !Rabs_pos_eq; lra. }
  apply Rabs_le_inv in Herr. lra.
Qed.

Section Loop64.
Context {T : Type}.
Variable c : lconf R.
Variable dt_local : Z -> store T -> R -> Prop.
Variable godunov : Z -> Z -> R -> store T -> store T -> Prop.
Hypothesis Hpos : forall a m d, dt_local a m d -> 0 < d.
Hypothesis Hend : single (l_tEnd c).

Theorem time_bounds64 n s s' : double (m_t s) -> 0 <= m_t s <= l_tEnd c ->
  loop (AT := B64) c dt_local godunov n s s' -> double (m_t s') /\ m_t s <= m_t s' <= l_tEnd c.
Proof.
  intros Hd H0 Hl. induction Hl as [s|n s s1 s2 Hl IH Hf Hn]; [split; auto; lra|].
  destruct (IH Hd H0) as [I1 I2].
  inversion Hn as [dtl m' Hlog Hdl Hg]; subst s2. cbn [m_t]. apply Hpos in Hdl. cbn [add B64].
  split; [apply rnd_double|].
  assert (P : m_t s1 <= rnd (m_t s1 + clip_dt (AT := B64) c (m_t s1) dtl) <= l_tEnd c).
  { unfold clip_dt. cbn [ltb add sub B64]. destruct Rlt_dec as [L|L].
    - split; [|apply clipped_le; auto; lra]. rewrite <- (rnd_id (m_t s1)) at 1 by auto. apply rnd_le.
      pose proof (rnd_pos (l_tEnd c - m_t s1)). lra.
    - split; [|lra]. rewrite <- (rnd_id (m_t s1)) at 1 by auto. apply rnd_le. lra. }
  lra.
Qed.
End Loop64.

(** For an end time that is a double but not a single the last step may pass
    it by one unit in the last place: E = 2^52 + 5, t = 3/2. *)
Lemma rnd_int x : bpow radix2 52 <= x < bpow radix2 53 -> rnd x = IZR (ZnearestE x).
Proof.
  intros H. unfold rnd, round.
  assert (M : mag radix2 x = 53%Z :> Z).
  { apply mag_unique_pos. exact H. }
  assert (C : cexp radix2 fexp64 x = 0%Z) by (unfold cexp; rewrite M; reflexivity).
  unfold scaled_mantissa. rewrite C. cbn [Z.opp]. unfold F2R. cbn [Fnum Fexp bpow]. rewrite !Rmult_1_r. reflexivity.
Qed.
Lemma nearest_half m : ZnearestE (IZR m + / 2) = if Z.even m then m else (m + 1)%Z.
Proof.
  assert (FL : Zfloor (IZR m + / 2) = m). { apply Zfloor_imp. rewrite plus_IZR. lra. }
  assert (CL : Zceil (IZR m + / 2) = (m + 1)%Z). { apply Zceil_imp. replace (m + 1 - 1)%Z with m by lia. rewrite plus_IZR. lra. }
  unfold Znearest. rewrite FL, CL. replace (IZR m + / 2 - IZR m) with (/ 2) by lra. rewrite Rcompare_Eq by reflexivity.
  destruct (Z.even m); reflexivity.
Qed.
Lemma double_big m : (4503599627370496 <= m < 9007199254740992)%Z -> double (IZR m).
Proof.
  intros H. assert (E : rnd (IZR m) = IZR m).
  { rewrite rnd_int. 2:{ cbn. split; [apply IZR_le|apply IZR_lt]; lia. }
    f_equal. rewrite Znearest_imp with (n := m); auto. replace (IZR m - IZR m) with 0 by lra. rewrite Rabs_R0. lra. }
  rewrite <- E. apply rnd_double.
Qed.
Lemma double_3_2 : double (3 / 2).
Proof.
  unfold double, fexp64. apply generic_format_FLT. exists (Float radix2 3 (-1)); [unfold F2R; cbn; lra|cbn; lia|cbn; lia].
Qed.
Lemma overshoot : double 4503599627370501 /\ double (3 / 2) /\
  4503599627370501 < rnd (3 / 2 + rnd (4503599627370501 - 3 / 2)).
Proof.
  split; [apply double_big; lia|]. split; [apply double_3_2|].
  replace (4503599627370501 - 3 / 2) with (4503599627370499 + / 2) by lra.
  rewrite (rnd_int (4503599627370499 + / 2)) by (cbn; lra). rewrite nearest_half. cbn [Z.even].
  replace (3 / 2 + IZR (4503599627370499 + 1)) with (4503599627370501 + / 2) by (cbn; lra).
  rewrite rnd_int by (cbn; lra). rewrite nearest_half. cbn. lra.
Qed.
