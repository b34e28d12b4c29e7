(** Refinement by two keeps the divergence of the magnetic field and the cell averages. *)
From Coq Require Import ZArith List Bool Lia Reals Lra.
From Verif Require Import Arith Par ParProofs GridModel HydroSpec HydroSums MpiModel IoModel IoSpec IoFieldSpec.
Open Scope R_scope.

Lemma parent_step g i : (parent g (i + 1) = parent g i /\ Z.odd (i - gw g) = false /\ Z.odd (i + 1 - gw g) = true) \/
  (parent g (i + 1) = parent g i + 1 /\ Z.odd (i - gw g) = true /\ Z.odd (i + 1 - gw g) = false)%Z.
Proof.
  unfold parent. replace (i + 1 - gw g)%Z with (Z.succ (i - gw g)) by lia.
  set (n := (i - gw g)%Z). clearbody n. rewrite Z.odd_succ, <- Z.negb_odd.
  pose proof (Zdiv2_odd_eqn n) as E. rewrite Z.div2_div in E.
  destruct (Z.odd n) eqn:O; cbn [negb]; [right|left]; repeat split.
  - assert (Z.succ n / 2 = n / 2 + 1)%Z; [|lia]. symmetry. apply (Z.div_unique_pos _ 2 _ 0); lia.
  - f_equal. symmetry. apply (Z.div_unique_pos _ 2 _ 1); lia.
Qed.

Lemma refined_div b3 g F hx hy hz i j k : 0 < hx -> 0 < hy -> 0 < hz ->
  face_div b3 (hx / 2) (hy / 2) (hz / 2) (refined b3 g F) i j k
  = face_div b3 hx hy hz F (parent g i) (parent g j) (if b3 then parent g k else 0%Z).
Proof.
  intros Hx Hy Hz. unfold face_div.
  assert (A : forall a b h, 0 < h -> a = b / 2 -> a / (h / 2) = b / h) by (intros a b h Hh ->; field; lra).
  f_equal; [f_equal|].
  - apply A; auto. unfold refined. change (IA =? IA)%Z with true. change (IA =? IB)%Z with false. change (IA =? IC)%Z with false.
    rewrite !andb_false_r, !andb_true_l. cbn [andb]. destruct (parent_step g i) as [(E & O1 & O2)|(E & O1 & O2)]; rewrite E, O1, O2; cbn; lra.
  - apply A; auto. unfold refined. change (IB =? IA)%Z with false. change (IB =? IB)%Z with true. change (IB =? IC)%Z with false.
    rewrite !andb_false_r, !andb_true_l. cbn [andb]. destruct (parent_step g j) as [(E & O1 & O2)|(E & O1 & O2)]; rewrite E, O1, O2; cbn; lra.
  - destruct b3; [|reflexivity]. apply A; auto. unfold refined. change (IC =? IA)%Z with false. change (IC =? IB)%Z with false. change (IC =? IC)%Z with true.
    cbn [andb]. destruct (parent_step g k) as [(E & O1 & O2)|(E & O1 & O2)]; rewrite E, O1, O2; cbn; lra.
Qed.

Lemma sum_pairs a n h : (0 <= n)%Z -> sumZ a (a + 2 * n) (fun i => h (a + (i - a) / 2)%Z) = 2 * sumZ a (a + n) h.
Proof.
  intros Hn. revert a h. pattern n. apply natlike_ind; auto.
  - intros a h. rewrite !sumZ_empty by lia. lra.
  - intros m Hm IH a h. rewrite (sumZ_cons a (a + 2 * Z.succ m)) by lia. rewrite (sumZ_cons (a + 1)) by lia.
    rewrite (sumZ_cons a (a + Z.succ m)) by lia.
    replace (a + (a - a) / 2)%Z with a by (rewrite Z.sub_diag; cbn; lia).
    replace (a + (a + 1 - a) / 2)%Z with a by (replace (a + 1 - a)%Z with 1%Z by lia; cbn; lia).
    replace (a + 1 + 1)%Z with (a + 2)%Z by lia. replace (a + 2 * Z.succ m)%Z with (a + 2 * m + 2)%Z by lia.
    replace (a + Z.succ m)%Z with (a + m + 1)%Z by lia.
    rewrite <- (sumZ_shift a (a + 2 * m) 2), <- (sumZ_shift a (a + m) 1).
    rewrite (sumZ_ext a (a + 2 * m) _ (fun i => (fun x => h (x + 1)%Z) (a + (i - a) / 2)%Z)).
    + rewrite (IH a (fun x => h (x + 1)%Z)). lra.
    + intros i _. cbv beta. f_equal. replace (i + 2 - a)%Z with (i - a + 1 * 2)%Z by lia. rewrite Z.div_add by lia. lia.
Qed.

Lemma refined_total b3 gc g F v : twice b3 gc g -> (0 <= nx gc)%Z -> (0 <= ny gc)%Z -> (b3 = true -> 0 <= nz gc)%Z ->
  v <> IA -> v <> IB -> (b3 = true -> v <> IC) ->
  total b3 g (fun i j k => refined b3 g F i j k v) = (if b3 then 8 else 4) * total b3 gc (fun i j k => F i j k v).
Proof.
  intros (Tx & Ty & Tz & Tw & _) Nx Ny Nz Ha Hb Hc.
  assert (E : forall i j k, refined b3 g F i j k v = F (parent g i) (parent g j) (if b3 then parent g k else 0%Z) v).
  { intros. unfold refined. rewrite (proj2 (Z.eqb_neq v IA)), (proj2 (Z.eqb_neq v IB)) by assumption. cbn [andb].
    destruct b3; cbn [andb]; [rewrite (proj2 (Z.eqb_neq v IC)) by auto; cbn [andb]|]; reflexivity. }
  unfold total. rewrite Tx, Ty, <- Tw.
  pose (H := fun p => sumZ (gw g) (gw g + 2 * ny gc) (fun j =>
    (fun q => if b3 then sumZ (gw g) (gw g + nz g) (fun k => F p q (parent g k) v) else F p q 0%Z v) (gw g + (j - gw g) / 2)%Z)).
  rewrite (sumZ_ext _ _ _ (fun i => H (gw g + (i - gw g) / 2)%Z)).
  2:{ intros i _. unfold H. apply sumZ_ext. intros j _. unfold parent in E. destruct b3; [|apply E]. apply sumZ_ext. intros k _. apply E. }
  rewrite (sum_pairs (gw g) (nx gc) H) by assumption. unfold H.
  rewrite (sumZ_ext _ _ _ (fun p => 2 * sumZ (gw g) (gw g + ny gc) (fun q => if b3 then sumZ (gw g) (gw g + nz g) (fun k => F p q (parent g k) v) else F p q 0%Z v))).
  2:{ intros p _. apply (sum_pairs (gw g) (ny gc) (fun q => if b3 then sumZ (gw g) (gw g + nz g) (fun k => F p q (parent g k) v) else F p q 0%Z v)). assumption. }
  rewrite sumZ_scal. destruct b3; [|lra]. rewrite (Tz eq_refl). unfold parent.
  rewrite (sumZ_ext _ _ _ (fun p => 2 * sumZ (gw g) (gw g + ny gc) (fun q => sumZ (gw g) (gw g + nz gc) (fun k => F p q k v)))).
  2:{ intros p _. rewrite <- sumZ_scal. apply sumZ_ext. intros q _. apply (sum_pairs (gw g) (nz gc) (fun k => F p q k v)). auto. }
  rewrite sumZ_scal. lra.
Qed.
