(** Exactness of the interpolation and derivative matrices, and the quadrature
    identity behind conservation. *)
From Coq Require Import ZArith List Bool Reals Lra Lia.
From Coquelicot Require Import Coquelicot.
From Verif Require Import Arith Par ParProofs SdmGeom SdmSpec SdmLagrange.
Import ListNotations.
Open Scope R_scope.

(** ** Derivative of a polynomial *)
Fixpoint dl (l : list R) : list R :=
  match l with
  | [] => []
  | a :: l' => match l' with [] => [] | _ => padd l' (0 :: dl l') end
  end.
Lemma dl_length l : (length (dl l) <= pred (length l))%nat.
Proof.
  induction l as [|a l IH]; cbn; [lia|]. destruct l as [|b l]; [cbn; lia|].
  rewrite padd_length. change (length (0 :: dl (b :: l))) with (S (length (dl (b :: l)))).
  cbn [length] in *. lia.
Qed.
Lemma is_derive_peval l x : is_derive (peval l) x (peval (dl l) x).
Proof.
  induction l as [|a l IH]; [cbn; auto_derive; auto|].
  destruct l as [|b l].
  - cbn. auto_derive; auto. ring.
  - change (dl (a :: b :: l)) with (padd (b :: l) (0 :: dl (b :: l))). rewrite peval_padd.
    set (q := b :: l) in *.
    change (peval (0 :: dl q) x) with (0 + x * peval (dl q) x).
    eapply is_derive_ext; [intros t; symmetry; change (peval (a :: q) t) with (a + t * peval q t); reflexivity|].
    replace (peval q x + (0 + x * peval (dl q) x)) with (0 + (1 * peval q x + x * peval (dl q) x)) by ring.
    apply (is_derive_plus (fun _ => a) (fun t => t * peval q t)); [auto_derive; auto|].
    apply (is_derive_mult (fun t => t) (peval q) x 1); auto.
    + auto_derive; auto.
    + intros u v. apply Rmult_comm.
Qed.
Lemma peval_continuous l x : continuous (peval l) x.
Proof. apply (ex_derive_continuous (peval l)). eexists. apply is_derive_peval. Qed.
Lemma ispoly_derive n f : ispoly (S n) f ->
  exists f', ispoly n f' /\ forall x, is_derive f x (f' x).
Proof.
  intros (l & Hl & El). exists (peval (dl l)). split.
  - exists (dl l). split; auto. pose proof (dl_length l). lia.
  - intros x. eapply is_derive_ext; [intros t; symmetry; apply El|]. apply is_derive_peval.
Qed.
Lemma ispoly_continuous n f x : ispoly n f -> continuous f x.
Proof.
  intros (l & Hl & El). eapply continuous_ext; [intros t; symmetry; apply El|]. apply peval_continuous.
Qed.

(** ** The two derivative matrices *)
Lemma prodl_without f ks l : NoDup ks -> In l ks -> prodl f ks = f l * prodl f (without l ks).
Proof.
  induction 1 as [|k ks Hk Hks IH]; cbn; [tauto|]. intros [H|H].
  - subst k. rewrite Z.eqb_refl. cbn. rewrite filter_id; auto.
    intros k Hk'. apply negb_true_iff, Z.eqb_neq. intros ->. tauto.
  - destruct (k =? l)%Z eqn:E; [apply Z.eqb_eq in E; subst; tauto|]. cbn. unfold without in IH.
    rewrite IH; auto. ring.
Qed.

Section Exact.
Variable P : points R.
Let N := npts P.
Hypothesis HN : (1 <= N)%Z.

Lemma exact_sol2flux_fun v j : sol2flux P v j = interp N (solp P) v (flxp P j).
Proof. unfold sol2flux. rewrite dot_suml. reflexivity. Qed.
Lemma exact_flux2sol_fun v j : flux2sol P v j = interp (N + 1) (flxp P) v (solp P j).
Proof. unfold flux2sol. rewrite dot_suml. reflexivity. Qed.

Lemma m_flux_derivative i j : (forall k, (0 <= k <= N)%Z -> solp P j <> flxp P k) ->
  is_derive (lagrange (N + 1) (flxp P) i) (solp P j) (m_flux2sol_derivative P i j).
Proof.
  intros Hne. unfold m_flux2sol_derivative, loopv. cbn [add mul sub div zero one RArith].
  rewrite (fold_sumb (fun k => (k =? i)%Z) (fun k => 1 / (solp P j - flxp P k))).
  fold N. fold (others (N + 1) i). unfold m_flux2sol. fold N. rewrite lagrange_prod, Rplus_0_l.
  set (x := solp P j) in *. set (y := flxp P) in *.
  replace (suml (fun k => 1 / (x - y k)) (others (N + 1) i) *
    prodl (fun k => (x - y k) / (y i - y k)) (others (N + 1) i))
    with (suml (fun l => / (y i - y l) *
        prodl (fun k => (x - y k) / (y i - y k)) (without l (others (N + 1) i))) (others (N + 1) i)).
  - apply is_derive_lagrange.
  - rewrite Rmult_comm, <- suml_scal. apply suml_ext. intros l Hl.
    rewrite (prodl_without _ (others (N + 1) i) l); auto; [|apply NoDup_others].
    apply In_others in Hl. assert (x - y l <> 0) by (intros E; apply (Hne l); [lia|lra]).
    unfold Rdiv. set (q := prodl _ _). set (r := / (y i - y l)). field. auto.
Qed.

Lemma m_sol_derivative i j : (0 <= i < N)%Z ->
  is_derive (lagrange N (solp P) i) (solp P j) (m_sol2sol_derivative P i j).
Proof.
  intros Hi. unfold m_sol2sol_derivative, loopv. cbn [add mul sub div zero one RArith].
  fold N. set (x := solp P j) in *. set (y := solp P) in *.
  rewrite (fold_sumb (fun k => (k =? i)%Z) (fun l => fold_left (fun a k =>
    if (k =? i)%Z || (k =? l)%Z then a else a * ((x - y k) / (y i - y k))) (zrange 0 N) (1 / (y i - y l)))).
  fold (others N i). rewrite Rplus_0_l.
  replace (suml _ (others N i)) with (suml (fun l => / (y i - y l) *
        prodl (fun k => (x - y k) / (y i - y k)) (without l (others N i))) (others N i)).
  - apply is_derive_lagrange.
  - apply suml_ext. intros l Hl.
    rewrite (fold_prodb (fun k => (k =? i)%Z || (k =? l)%Z) (fun k => (x - y k) / (y i - y k))).
    f_equal; [unfold Rdiv; ring|]. f_equal. unfold without, others.
    induction (zrange 0 N) as [|k ks IH]; cbn; auto.
    destruct (k =? i)%Z; cbn; auto. destruct (k =? l)%Z; cbn; auto. f_equal; auto.
Qed.

Lemma flux_derivative_fun v j : (forall k, (0 <= k <= N)%Z -> solp P j <> flxp P k) ->
  forall r, flux2sol_derivative P v j r = Derive (interp (N + 1) (flxp P) v) (solp P j) * r.
Proof.
  intros Hne r. unfold flux2sol_derivative. cbn [mul RArith]. f_equal. rewrite dot_suml. symmetry.
  apply is_derive_unique, is_derive_interp. intros i Hi. apply m_flux_derivative; auto.
Qed.
Lemma sol_derivative_fun v j r :
  sol2sol_derivative P v j r = Derive (interp N (solp P) v) (solp P j) * r.
Proof.
  unfold sol2sol_derivative. cbn [mul RArith]. f_equal. rewrite dot_suml. symmetry.
  apply is_derive_unique, is_derive_interp. intros i Hi. apply m_sol_derivative; auto.
Qed.

Lemma poly_le n l : (Z.of_nat (length l) <= n)%Z -> ispoly (Z.to_nat n) (peval l).
Proof. intros H. exists l. split; [lia|]. reflexivity. Qed.

Lemma exact_sol2flux l j : distinct N (solp P) -> (Z.of_nat (length l) <= N)%Z ->
  sol2flux P (fun i => peval l (solp P i)) j = peval l (flxp P j).
Proof. intros Hd Hl. rewrite exact_sol2flux_fun. apply (interp_unique N); auto. now apply poly_le. Qed.
Lemma exact_flux2sol l j : distinct (N + 1) (flxp P) -> (Z.of_nat (length l) <= N + 1)%Z ->
  flux2sol P (fun i => peval l (flxp P i)) j = peval l (solp P j).
Proof. intros Hd Hl. rewrite exact_flux2sol_fun. apply (interp_unique (N + 1)); auto. now apply poly_le. Qed.
Lemma exact_flux_derivative l j r : distinct (N + 1) (flxp P) -> (Z.of_nat (length l) <= N + 1)%Z ->
  (forall k, (0 <= k <= N)%Z -> solp P j <> flxp P k) ->
  flux2sol_derivative P (fun i => peval l (flxp P i)) j r = Derive (peval l) (solp P j) * r.
Proof.
  intros Hd Hl Hne. rewrite flux_derivative_fun; auto. f_equal. apply Derive_ext. intros t.
  apply (interp_unique (N + 1)); auto. now apply poly_le.
Qed.
Lemma exact_sol_derivative l j r : distinct N (solp P) -> (Z.of_nat (length l) <= N)%Z ->
  sol2sol_derivative P (fun i => peval l (solp P i)) j r = Derive (peval l) (solp P j) * r.
Proof.
  intros Hd Hl. rewrite sol_derivative_fun; auto. f_equal. apply Derive_ext. intros t.
  apply (interp_unique N); auto. now apply poly_le.
Qed.

(** ** Quadrature *)
Lemma is_RInt_suml (f : Z -> R -> R) (a b : R) (w : Z -> R) ks :
  (forall k, In k ks -> is_RInt (f k) a b (w k)) ->
  is_RInt (fun t => suml (fun k => f k t) ks) a b (suml w ks).
Proof.
  induction ks as [|k ks IH]; cbn; intros H.
  - pose proof (is_RInt_const (V := R_NormedModule) a b 0) as H0.
    unfold scal in H0; cbn in H0; unfold mult in H0; cbn in H0. rewrite Rmult_0_r in H0. exact H0.
  - apply (is_RInt_plus (f k) (fun t => suml (fun k => f k t) ks)); auto.
Qed.

Definition weight (j : Z) : R := RInt (lagrange N (solp P) j) 0 1.

Lemma weight_int j : (0 <= j < N)%Z -> is_RInt (lagrange N (solp P) j) 0 1 (weight j).
Proof.
  intros Hj. apply (RInt_correct (V := R_CompleteNormedModule)). apply (ex_RInt_continuous (V := R_CompleteNormedModule)).
  intros z _. eapply ispoly_continuous, lagrange_ispoly; auto.
Qed.

Lemma weighted_sum n f : distinct N (solp P) -> (n <= Z.to_nat N)%nat -> ispoly n f ->
  is_RInt f 0 1 (suml (fun j => weight j * f (solp P j)) (zrange 0 N)).
Proof.
  intros Hd Hn Hf.
  eapply (is_RInt_ext (V := R_NormedModule)).
  { intros x _. apply (interp_unique N (solp P) f Hd). eapply ispoly_mono; eauto. }
  unfold interp.
  rewrite (suml_ext (fun j => weight j * f (solp P j)) (fun j => f (solp P j) * weight j)) by (intros; ring).
  apply (is_RInt_suml (fun i x => f (solp P i) * lagrange N (solp P) i x)).
  intros k Hk. apply (is_RInt_scal (V := R_NormedModule)), weight_int. now apply In_zrange.
Qed.

(** The weighted sum of the discrete derivative is the difference of the end
    values. *)
Lemma telescope v : distinct N (solp P) -> distinct (N + 1) (flxp P) ->
  (forall j k, (0 <= j < N)%Z -> (0 <= k <= N)%Z -> solp P j <> flxp P k) ->
  flxp P 0 = 0 -> flxp P N = 1 ->
  suml (fun j => weight j * flux2sol_derivative P v j 1) (zrange 0 N) = v N - v 0%Z.
Proof.
  intros Hs Hf Hne H0 H1. set (F := interp (N + 1) (flxp P) v).
  assert (HF : ispoly (S (Z.to_nat N)) F).
  { replace (S (Z.to_nat N)) with (Z.to_nat (N + 1)) by lia. apply interp_ispoly. }
  destruct (ispoly_derive _ _ HF) as (F' & HF' & HD).
  assert (I1 : is_RInt F' 0 1 (F 1 - F 0)).
  { apply (is_RInt_derive (V := R_CompleteNormedModule) F F').
    - intros x _. apply HD.
    - intros x _. eapply ispoly_continuous; eauto. }
  pose proof (weighted_sum _ F' Hs (Nat.le_refl _) HF') as I2.
  apply (is_RInt_unique (V := R_CompleteNormedModule)) in I1. apply (is_RInt_unique (V := R_CompleteNormedModule)) in I2. rewrite I1 in I2.
  rewrite (suml_ext _ (fun j => weight j * F' (solp P j))).
  - rewrite <- I2. unfold F. rewrite <- H1 at 1. rewrite <- H0 at 1. rewrite !interp_node; auto; lia.
  - intros j Hj. apply In_zrange in Hj. f_equal. rewrite flux_derivative_fun by auto.
    fold F. rewrite (is_derive_unique _ _ _ (HD _)). ring.
Qed.

Lemma weights_one : distinct N (solp P) -> suml weight (zrange 0 N) = 1.
Proof.
  intros Hs. pose proof (weighted_sum 1 (fun _ => 1) Hs ltac:(lia) (ispoly_const 1 1 ltac:(lia))) as H.
  apply (is_RInt_unique (V := R_CompleteNormedModule)) in H. rewrite RInt_const in H.
  rewrite (suml_ext weight (fun j => weight j * 1)) by (intros; ring). rewrite <- H.
  unfold scal; cbn; unfold mult; cbn; ring.
Qed.
End Exact.
