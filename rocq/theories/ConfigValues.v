(** Proofs about the parameter file: lookups and typed values. *)
From Coq Require Import ZArith List Bool Ascii String Lia.
From Verif Require Import ConfigModel ConfigSpec ConfigProofs.
Import ListNotations.
Open Scope Z_scope.

(** ** Letter case *)
Definition all_chars : list ascii := map ascii_of_nat (seq 0 256).
Lemma in_all c : In c all_chars.
Proof.
  unfold all_chars. apply in_map_iff. exists (nat_of_ascii c). split; [apply ascii_nat_embedding|].
  apply in_seq. pose proof (nat_ascii_bounded c). lia.
Qed.
Definition pairs : list (ascii * ascii) := combine upper_letters lower_letters.
Lemma lower_case_pairs : forallb (fun c => is (tolower c) c || existsb (fun p => is (fst p) c && is (snd p) (tolower c)) pairs) all_chars
  && forallb (fun p => is (tolower (fst p)) (snd p) && is (tolower (snd p)) (snd p)) pairs = true.
Proof. vm_compute. reflexivity. Qed.
Lemma nth_pairs n c d : nth_error upper_letters n = Some c -> nth_error lower_letters n = Some d -> In (c, d) pairs.
Proof.
  unfold pairs. generalize upper_letters lower_letters. intros l. revert n. induction l as [|x l IH]; intros n l' H1 H2.
  - destruct n; discriminate.
  - destruct l' as [|y l']; [destruct n; discriminate|]. destruct n as [|n]; cbn in *.
    + left. congruence. + right. eapply IH; eauto.
Qed.
Lemma pairs_nth c d : In (c, d) pairs -> exists n, nth_error upper_letters n = Some c /\ nth_error lower_letters n = Some d.
Proof.
  unfold pairs. generalize upper_letters lower_letters. intros l. induction l as [|x l IH]; intros l' H; [destruct H|].
  destruct l' as [|y l']; [destruct H|]. destruct H as [[= -> ->]|H]; [exists 0%nat; auto|].
  destruct (IH l' H) as (n & H1 & H2). exists (S n). auto.
Qed.
Lemma pair_lower c d : In (c, d) pairs -> tolower c = d /\ tolower d = d.
Proof.
  intros H. pose proof lower_case_pairs as E. apply andb_true_iff in E. destruct E as [_ E]. rewrite forallb_forall in E.
  specialize (E _ H). cbn in E. apply andb_true_iff in E. destruct E as [E1 E2]. apply is_true in E1, E2. auto.
Qed.
Lemma lower_pair c : tolower c = c \/ In (c, tolower c) pairs.
Proof.
  pose proof lower_case_pairs as E. apply andb_true_iff in E. destruct E as [E _]. rewrite forallb_forall in E.
  specialize (E c (in_all c)). cbv beta in E. apply orb_true_iff in E. destruct E as [E|E]; [left; apply is_true; exact E|].
  right. apply existsb_exists in E. destruct E as ([x y] & H & E). cbn [fst snd] in E. apply andb_true_iff in E. destruct E as [E1 E2].
  apply is_true in E1, E2. subst. exact H.
Qed.
Lemma lower_idem c : tolower (tolower c) = tolower c.
Proof. destruct (lower_pair c) as [E|H]; [rewrite E; exact E|]. apply pair_lower in H. tauto. Qed.
Lemma same_char_lower c d : same_char c d <-> tolower c = tolower d.
Proof.
  split.
  - intros [->|(n & [[H1 H2]|[H1 H2]])]; [reflexivity| |];
      destruct (pair_lower _ _ (nth_pairs n _ _ H1 H2)) as [E1 E2]; congruence.
  - intros E. destruct (lower_pair c) as [Ec|Hc], (lower_pair d) as [Ed|Hd].
    + left; congruence.
    + right. rewrite <- E, Ec in Hd. destruct (pairs_nth _ _ Hd) as (n & H). exists n. auto.
    + right. rewrite E, Ed in Hc. destruct (pairs_nth _ _ Hc) as (n & H). exists n. auto.
    + left. rewrite E in Hc. clear Ec E || idtac. revert Hc Hd. generalize (tolower d). intros e Hc Hd.
      destruct (pairs_nth _ _ Hc) as (n & H1 & H2). destruct (pairs_nth _ _ Hd) as (m & G1 & G2).
      assert (n = m); [|congruence]. clear -H2 G2.
      assert (N : NoDup lower_letters). { vm_compute. repeat constructor; cbn; intuition discriminate. }
      apply (proj1 (NoDup_nth_error _) N); [|congruence]. apply nth_error_Some. congruence.
Qed.
Lemma same_name_lower a b : same_name a b <-> map tolower a = map tolower b.
Proof.
  split.
  - induction 1 as [|x y l l' H _ IH]; [reflexivity|]. cbn. apply same_char_lower in H. congruence.
  - revert b. induction a as [|x a IH]; intros [|y b] E; try discriminate; [constructor|]. injection E as E1 E2.
    constructor; [apply same_char_lower; exact E1|apply IH; exact E2].
Qed.
Definition DOT : ascii := "."%char.
Lemma lower_dot c : tolower c = DOT -> c = DOT.
Proof.
  intros E. destruct (lower_pair c) as [Ec|H]; [congruence|]. rewrite E in H. exfalso. revert H. cbn. intuition discriminate.
Qed.
Lemma map_lower_dot a : In DOT (map tolower a) -> In DOT a.
Proof. intros H. apply in_map_iff in H. destruct H as (c & E & Hc). apply lower_dot in E. subst. exact Hc. Qed.
Lemma split_dot (a b c d : text) : ~ In DOT a -> ~ In DOT c -> a ++ DOT :: b = c ++ DOT :: d -> a = c /\ b = d.
Proof.
  revert c. induction a as [|x a IH]; intros c Ha Hc E; destruct c as [|y c]; cbn in E.
  - injection E as ->. auto.
  - injection E as E1 _. exfalso. apply Hc. left; auto.
  - injection E as E1 _. exfalso. apply Ha. left; auto.
  - injection E as E1 E2. destruct (IH c) as [-> ->]; [intros G; apply Ha; right; exact G|intros G; apply Hc; right; exact G|exact E2|].
    subst. auto.
Qed.
Lemma key_eq s n s' n' : ~ In DOT s -> ~ In DOT s' -> makeKey s n = makeKey s' n' <-> same_name s s' /\ same_name n n'.
Proof.
  intros H H'. unfold makeKey. rewrite !map_app, !same_name_lower. cbn [map]. change (tolower ".") with DOT. split.
  - apply split_dot; intros G; [apply H|apply H']; apply map_lower_dot; exact G.
  - intros [-> ->]. reflexivity.
Qed.
Lemma key_same s n s' n' : same_name s s' -> same_name n n' -> makeKey s n = makeKey s' n'.
Proof. rewrite !same_name_lower. intros H1 H2. unfold makeKey. rewrite !map_app. cbn [map]. congruence. Qed.

(** ** Lookups *)
Lemma store_same m k v : store_value m k v k = Some v.
Proof. unfold store_value. rewrite (proj2 (text_eqb_true k k) eq_refl). reflexivity. Qed.
Lemma store_other m k v k' : k' <> k -> store_value m k v k' = m k'.
Proof. intros H. unfold store_value. destruct (text_eqb k' k) eqn:E; [|reflexivity]. apply text_eqb_true in E. congruence. Qed.
Definition sections_plain (l : list call) : Prop := forall s n v, In (s, n, v) l -> ~ In DOT s.
Lemma values_answer cs sec key def : sections_plain cs -> ~ In DOT sec ->
  answer (rev cs) sec key def (getString (values_of cs) sec key def).
Proof.
  intros Hp Hd. induction cs as [|[[s n] v] cs IH].
  - apply Missing. intros a [].
  - assert (Hp' : sections_plain cs) by (intros x y z H; apply (Hp x y z); right; exact H). specialize (IH Hp').
    unfold getString, values_of in *. cbn [fold_right rev].
    destruct (list_eq_dec ascii_dec (makeKey sec key) (makeKey s n)) as [E|E].
    + rewrite E, store_same. apply key_eq in E; [|exact Hd|apply (Hp s n v); left; reflexivity].
      eapply (Found _ _ _ _ (rev cs) s n v []); [reflexivity| |intros a []].
      destruct E as [E1 E2]. split; apply same_name_lower; symmetry; apply same_name_lower; assumption.
    + rewrite store_other by exact E.
      assert (Hno : ~ assigns sec key (s, n, v)).
      { intros [G1 G2]. apply E. symmetry. apply key_same; assumption. }
      destruct IH as [l1 s1 n1 v1 l2 E1 E2 E3|H].
      * eapply (Found _ _ _ _ l1 s1 n1 v1 (l2 ++ [(s, n, v)])); [rewrite E1, <- app_assoc; reflexivity|exact E2|].
        intros a Ha. apply in_app_or in Ha. destruct Ha as [Ha|[<-|[]]]; auto.
      * apply Missing. intros a Ha. apply in_app_or in Ha. destruct Ha as [Ha|[<-|[]]]; auto.
Qed.

(** ** Integers *)
Lemma digit_spec_all : forallb (fun c => forallb (fun d =>
   Bool.eqb (match digit c with Some e => e =? Z.of_nat d | None => false end)
     (match nth_error (lit_text "0123456789abcdef") d with Some x => is x c | None => false end
      || match nth_error (lit_text "0123456789ABCDEF") d with Some x => is x c | None => false end)) (seq 0 16)) all_chars
   && forallb (fun c => match digit c with Some e => (0 <=? e) && (e <? 16) | None => true end) all_chars = true.
Proof. vm_compute. reflexivity. Qed.
Lemma digit_range c d : digit c = Some d -> 0 <= d < 16.
Proof.
  intros H. pose proof digit_spec_all as E. apply andb_true_iff in E. destruct E as [_ E]. rewrite forallb_forall in E.
  specialize (E c (in_all c)). cbv beta in E. rewrite H in E. apply andb_true_iff in E. rewrite Z.leb_le, Z.ltb_lt in E. lia.
Qed.
Lemma digit_char_iff base c d : base <= 16 -> digit_char base c d <-> digit_in base c = Some d.
Proof.
  intros Hb. assert (Q : forall d, 0 <= d < 16 -> digit c = Some d <->
     (nth_error (lit_text "0123456789abcdef") (Z.to_nat d) = Some c \/ nth_error (lit_text "0123456789ABCDEF") (Z.to_nat d) = Some c)).
  { intros e He. pose proof digit_spec_all as E. apply andb_true_iff in E. destruct E as [E _]. rewrite forallb_forall in E.
    specialize (E c (in_all c)). cbv beta in E. rewrite forallb_forall in E. specialize (E (Z.to_nat e) ltac:(apply in_seq; lia)).
    apply eqb_prop in E. rewrite Z2Nat.id in E by lia. split; intros H.
    - rewrite H, Z.eqb_refl in E. symmetry in E. apply orb_true_iff in E.
      destruct E as [E|E]; [left|right]; destruct (nth_error _ (Z.to_nat e)); try discriminate; apply is_true in E; congruence.
    - assert (X : (match nth_error (lit_text "0123456789abcdef") (Z.to_nat e) with Some x => is x c | None => false end
      || match nth_error (lit_text "0123456789ABCDEF") (Z.to_nat e) with Some x => is x c | None => false end) = true).
      { apply orb_true_iff. destruct H as [-> | ->]; [left|right]; apply is_true; reflexivity. }
      rewrite X in E. destruct (digit c); [|discriminate]. apply Z.eqb_eq in E. congruence. }
  unfold digit_char, digit_in. split.
  - intros [H1 H2]. rewrite (proj2 (Q d ltac:(lia)) H2). destruct (d <? base) eqn:E; [reflexivity|]. apply Z.ltb_ge in E. lia.
  - destruct (digit c) as [e|] eqn:E; [|discriminate]. destruct (e <? base) eqn:E2; [|discriminate]. intros [= <-].
    apply Z.ltb_lt in E2. pose proof (digit_range c e E). split; [lia|]. apply Q; [lia|reflexivity].
Qed.
Lemma digits_from_app base (Hb : base <= 16) t v : digits base t v -> forall acc r, exists k,
  digits_from base acc (t ++ r) = digits_from base (acc * k + v) r /\ k = base ^ Z.of_nat (List.length t).
Proof.
  induction 1 as [c d H|t v c d H IH Hc]; intros acc r.
  - exists base. apply digit_char_iff in H; [|exact Hb]. cbn [app digits_from]. rewrite H. split; [reflexivity|]. cbn. lia.
  - destruct (IH acc ([c] ++ r)) as (k & E & Ek). rewrite <- app_assoc, E. exists (k * base).
    apply digit_char_iff in Hc; [|exact Hb]. cbn [app digits_from]. rewrite Hc. split; [f_equal; ring|].
    rewrite app_length, Nat2Z.inj_add. cbn. rewrite Z.pow_add_r, <- Ek by lia. lia.
Qed.
Lemma digits_from_stop base acc r (Hb : base <= 16) : no_digit base r -> digits_from base acc r = acc.
Proof.
  intros H. destruct r as [|c r]; [reflexivity|]. cbn. destruct (digit_in base c) as [d|] eqn:E; [|reflexivity].
  exfalso. apply digit_char_iff in E; [|exact Hb]. exact (H c r d eq_refl E).
Qed.
Lemma digits_value base t v r (Hb : base <= 16) : digits base t v -> no_digit base r -> digits_from base 0 (t ++ r) = v.
Proof.
  intros H Hr. destruct (digits_from_app base Hb t v H 0 r) as (k & -> & _). rewrite digits_from_stop by assumption. reflexivity.
Qed.
Lemma digits_nonempty base t v : digits base t v -> t <> [].
Proof. destruct 1; [discriminate|destruct t; discriminate]. Qed.
(** Longest sequence of digits. *)
Lemma digits_longest base r (Hb : base <= 16) : forall t v, digits base t v -> exists t' v' r',
  t ++ r = t' ++ r' /\ digits base t' v' /\ no_digit base r' /\ exists u, t' = t ++ u.
Proof.
  induction r as [|c r IH]; intros t v H.
  - exists t, v, []. split; [reflexivity|]. split; [exact H|]. split; [intros c r' d; discriminate|]. exists []. rewrite app_nil_r; reflexivity.
  - destruct (digit_in base c) as [d|] eqn:E.
    + apply digit_char_iff in E; [|exact Hb]. destruct (IH (t ++ [c]) _ (DMore base t v c d H E)) as (t' & v' & r' & E1 & E2 & E3 & u & E4).
      exists t', v', r'. split; [rewrite <- E1, <- app_assoc; reflexivity|]. split; [exact E2|]. split; [exact E3|].
      exists (c :: u). rewrite E4, <- app_assoc. reflexivity.
    + exists t, v, (c :: r). split; [reflexivity|]. split; [exact H|]. split.
      * intros c' r' d [= <- <-] G. apply digit_char_iff in G; [|exact Hb]. congruence.
      * exists []. rewrite app_nil_r; reflexivity.
Qed.
Lemma digit_in_x base : base <= 16 -> digit_in base "x" = None /\ digit_in base "X" = None.
Proof. intros; split; reflexivity. Qed.
Lemma digits_head base c t v : base <= 16 -> digits base (c :: t) v -> exists d, digit_in base c = Some d.
Proof.
  intros Hb H. remember (c :: t) as l eqn:E. revert c t E. induction H as [c d H|t v c d H IH Hc]; intros c' t' E.
  - injection E as <- <-. exists d. apply digit_char_iff in H; assumption.
  - destruct t as [|x t]; [exfalso; exact (digits_nonempty _ _ _ H eq_refl)|]. injection E as <- _. eapply IH; reflexivity.
Qed.
Lemma x_lower x : In x (lit_text "xX") <-> is (tolower x) "x" = true.
Proof.
  split; [intros [<-|[<-|[]]]; reflexivity|]. intros H. apply is_true in H.
  assert (same_char x "x") by (apply same_char_lower; exact H). clear H.
  destruct (ascii_dec x "x") as [->|H1]; [left; reflexivity|]. destruct (ascii_dec x "X") as [->|H2]; [right; left; reflexivity|].
  exfalso. destruct (lower_pair x) as [E|E].
  - apply same_char_lower in H0. change (tolower "x") with "x"%char in H0. congruence.
  - apply same_char_lower in H0. rewrite H0 in E. change (tolower "x") with "x"%char in E. revert E. cbn. intuition congruence.
Qed.
Lemma unsigned_abs t r v : unsigned_int t r v -> strtol_abs (t ++ r) = Some v.
Proof.
  intros [t0 r0 v0 H1 H2 H3|x t0 r0 v0 H1 H2 H3|t0 r0 v0 H1 H2 H3].
  - destruct t0 as [|c t0]; [exfalso; exact (digits_nonempty _ _ _ H1 eq_refl)|]. cbn [app strtol_abs].
    destruct (is c "0") eqn:E; [apply is_true in E; subst; exfalso; apply H2; exists "0"%char, t0; split; [reflexivity|left; reflexivity]|].
    destruct (digits_head 10 c t0 v0 ltac:(lia) H1) as (d & ->). f_equal.
    exact (digits_value 10 (c :: t0) v0 r0 ltac:(lia) H1 H3).
  - destruct t0 as [|c t0]; [exfalso; exact (digits_nonempty _ _ _ H2 eq_refl)|]. cbn [app strtol_abs]. change (is "0" "0") with true. cbv iota.
    apply x_lower in H1. rewrite H1. destruct (digits_head 16 c t0 v0 ltac:(lia) H2) as (d & ->). cbn [andb tl]. f_equal.
    exact (digits_value 16 (c :: t0) v0 r0 ltac:(lia) H2 H3).
  - assert (Q : Some (digits_from 8 0 (("0"%char :: t0) ++ r0)) = Some v0) by (f_equal; apply digits_value; [lia|exact H1|exact H2]).
    cbn [app strtol_abs]. change (is "0" "0") with true. cbv iota.
    cbn [app] in Q. destruct (t0 ++ r0) as [|x [|d u]] eqn:E; [exact Q|exact Q|].
    destruct (is (tolower x) "x" && match digit_in 16 d with Some _ => true | None => false end) eqn:E2; [|exact Q].
    exfalso. apply andb_true_iff in E2. destruct E2 as [E2 E3]. apply x_lower in E2.
    destruct (digit_in 16 d) as [e|] eqn:E4; [|discriminate]. apply digit_char_iff in E4; [|lia].
    destruct t0 as [|y t0].
    + cbn in E. apply (H3 eq_refl). exists x, d, e, u. split; [exact E|]. split; [exact E2|exact E4].
    + injection E as -> E. clear -H1 E2.
      assert (G : exists e, digit_in 8 x = Some e).
      { remember ("0"%char :: x :: t0) as l eqn:El. revert t0 El. induction H1 as [c d H|t v c d H IH Hc]; intros t0 El; [discriminate|].
        destruct (last_case t0) as [->|(t1 & z & ->)].
        - change ["0"%char; x] with (["0"%char] ++ [x]) in El. apply app_inj_tail in El. destruct El as [_ ->]. exists d. apply digit_char_iff in Hc; [exact Hc|lia].
        - change ("0"%char :: x :: t1 ++ [z]) with (("0"%char :: x :: t1) ++ [z]) in El. apply app_inj_tail in El. destruct El as [-> _]. eapply IH; reflexivity. }
      destruct G as (e & G). destruct E2 as [<-|[<-|[]]]; discriminate.
Qed.
Lemma abs_unsigned s v : strtol_abs s = Some v -> exists t r, s = t ++ r /\ unsigned_int t r v.
Proof.
  intros H. assert (Q : exists t r v', s = t ++ r /\ unsigned_int t r v').
  2: { destruct Q as (t & r & v' & -> & U). pose proof (unsigned_abs t r v' U) as E. rewrite H in E. injection E as <-. eauto. }
  destruct s as [|c s]; [discriminate|]. unfold strtol_abs in H. destruct (is c "0") eqn:E.
  - apply is_true in E. subst c. clear H.
    assert (D0 : digits 8 ["0"%char] 0) by (constructor; split; [lia|left; reflexivity]).
    assert (O : (~ exists x c d r', s = x :: c :: r' /\ In x (lit_text "xX") /\ digit_char 16 c d) ->
      exists t r v', "0"%char :: s = t ++ r /\ unsigned_int t r v').
    { intros Hx. destruct (digits_longest 8 s ltac:(lia) ["0"%char] 0 D0) as (t' & v' & r' & E1 & E2 & E3 & u & ->).
      exists (["0"%char] ++ u), r', v'. split; [exact E1|]. cbn [app] in *. apply UOct; auto. intros ->. injection E1 as ->. exact Hx. }
    destruct s as [|x [|d s]].
    + apply O. intros (a & b & c & r' & G & _). discriminate.
    + apply O. intros (a & b & c & r' & G & _). discriminate.
    + destruct (is (tolower x) "x" && match digit_in 16 d with Some _ => true | None => false end) eqn:E2.
      * apply andb_true_iff in E2. destruct E2 as [E2 E3]. apply x_lower in E2. destruct (digit_in 16 d) as [e|] eqn:E4; [|discriminate].
        apply digit_char_iff in E4; [|lia]. destruct (digits_longest 16 s ltac:(lia) [d] e (DOne 16 d e E4)) as (t' & v' & r' & F1 & F2 & F3 & _).
        exists ("0"%char :: x :: t'), r', v'. split; [cbn [app] in *; congruence|]. apply UHex; assumption.
      * apply O. intros (a & b & c & r' & G & Ha & Hb). injection G as -> -> ->. apply x_lower in Ha. apply digit_char_iff in Hb; [|lia].
        rewrite Ha, Hb in E2. discriminate.
  - destruct (digit_in 10 c) as [d|] eqn:E2; [|discriminate]. apply digit_char_iff in E2; [|lia].
    destruct (digits_longest 10 s ltac:(lia) [c] d (DOne 10 c d E2)) as (t' & v' & r' & F1 & F2 & F3 & u & ->).
    exists ([c] ++ u), r', v'. split; [exact F1|]. apply UDec; [exact F2| |exact F3].
    intros (y & z & [= <- _] & [<-|[]]). discriminate.
Qed.
Lemma unsigned_start t r v : unsigned_int t r v -> exists c u, t ++ r = c :: u /\ ~ space c /\ c <> "-"%char /\ c <> "+"%char.
Proof.
  intros [t0 r0 v0 H1 H2 H3|x t0 r0 v0 H1 H2 H3|t0 r0 v0 H1 H2 H3].
  - destruct t0 as [|c t0]; [exfalso; exact (digits_nonempty _ _ _ H1 eq_refl)|]. exists c, (t0 ++ r0).
    destruct (digits_head 10 c t0 v0 ltac:(lia) H1) as (d & Hd). split; [reflexivity|].
    assert (F : forallb (fun c => match digit_in 10 c with Some _ => negb (isspace c || is c "-" || is c "+") | None => true end) all_chars = true)
      by (vm_compute; reflexivity).
    rewrite forallb_forall in F. specialize (F c (in_all c)). cbv beta in F. rewrite Hd in F. apply negb_true_iff in F.
    apply orb_false_iff in F. destruct F as [F F3]. apply orb_false_iff in F. destruct F as [F1 F2].
    rewrite not_space. apply is_false in F2, F3. auto.
  - exists "0"%char, ((x :: t0) ++ r0). split; [reflexivity|]. split; [intros G; cbn in G; intuition discriminate|split; discriminate].
  - exists "0"%char, (t0 ++ r0). split; [reflexivity|]. split; [intros G; cbn in G; intuition discriminate|split; discriminate].
Qed.
Lemma space_sign : ~ space "-" /\ ~ space "+".
Proof. split; intros G; cbn in G; intuition discriminate. Qed.
Lemma strtol_leading s z : leading_int s z -> strtol s = Some (clamp_long z).
Proof.
  intros [w t r v Hw U|w t r v Hw U|w t r v Hw U]; unfold strtol; rewrite lskip_blank by exact Hw.
  - destruct (unsigned_start t r v U) as (c & u & E & Hs & H1 & H2). pose proof (unsigned_abs t r v U) as Ea. rewrite E in *.
    rewrite lskip_start by exact Hs. rewrite (proj2 (is_false c "-") H1), (proj2 (is_false c "+") H2), Ea. reflexivity.
  - rewrite lskip_start by apply space_sign. cbn [is Ascii.eqb Bool.eqb]. rewrite (unsigned_abs t r v U). reflexivity.
  - rewrite lskip_start by apply space_sign. change (is "-" "-") with true. cbv iota. rewrite (unsigned_abs t r v U). reflexivity.
Qed.
Lemma leading_strtol s n : strtol s = Some n -> exists z, leading_int s z /\ n = clamp_long z.
Proof.
  unfold strtol. destruct (lskip_spec s) as (w & Hw & E & _). intros H. destruct (lskip s) as [|c t] eqn:El; [discriminate|].
  destruct (is c "-") eqn:E1; [|destruct (is c "+") eqn:E2].
  - apply is_true in E1. subst c. destruct (strtol_abs t) as [v|] eqn:Ea; [|discriminate]. injection H as <-.
    apply abs_unsigned in Ea. destruct Ea as (a & r & -> & U). exists (- v). split; [rewrite E; apply LeadMinus; assumption|reflexivity].
  - apply is_true in E2. subst c. destruct (strtol_abs t) as [v|] eqn:Ea; [|discriminate]. injection H as <-.
    apply abs_unsigned in Ea. destruct Ea as (a & r & -> & U). exists v. split; [rewrite E; apply LeadPlus; assumption|reflexivity].
  - destruct (strtol_abs (c :: t)) as [v|] eqn:Ea; [|discriminate]. injection H as <-.
    apply abs_unsigned in Ea. destruct Ea as (a & r & Er & U). exists v. split; [rewrite E, Er; apply LeadPos; assumption|reflexivity].
Qed.
Lemma clamp_nearest z : nearest_long z (clamp_long z).
Proof. unfold nearest_long, is_long, clamp_long, LONG_MAX. change (2 ^ 63) with 9223372036854775808. lia. Qed.

(** Decimal output. *)
Lemma decimal_digit_char d : 0 <= d < 10 -> digit_char 10 (decimal_digit d) d.
Proof.
  intros H. split; [exact H|left]. assert (C : In d [0;1;2;3;4;5;6;7;8;9]) by (cbn; lia).
  cbn [In] in C. intuition (subst; reflexivity).
Qed.
Lemma digits_prepend base c d t v : digit_char base c d -> digits base t v -> digits base (c :: t) (d * base ^ Z.of_nat (List.length t) + v).
Proof.
  intros Hc H. induction H as [c' d' H'|t v c' d' H' IH Hd'].
  - cbn [List.length]. replace (d * base ^ Z.of_nat 1 + d') with (d * base + d') by (cbn; lia). apply (DMore base [c] d c' d'); [constructor; exact Hc|exact H'].
  - rewrite app_length, Nat2Z.inj_add. cbn [List.length]. rewrite Z.pow_add_r by lia. cbn [Z.of_nat].
    replace (d * (base ^ Z.of_nat (List.length t) * base ^ Z.pos (Pos.of_succ_nat 0)) + (v * base + d'))
      with ((d * base ^ Z.of_nat (List.length t) + v) * base + d') by (cbn; ring).
    apply (DMore base (c :: t) _ c' d' IH Hd').
Qed.
Lemma decimal_rec_app f : forall n acc, decimal_rec f n acc = decimal_rec f n [] ++ acc.
Proof.
  induction f as [|f IH]; intros n acc; [reflexivity|]. cbn [decimal_rec]. destruct (n <? 10); [reflexivity|].
  rewrite IH, (IH (n / 10) [_]), <- app_assoc. reflexivity.
Qed.
Lemma decimal_digits f : forall n, 0 <= n < 10 ^ Z.of_nat f -> (0 < f)%nat -> digits 10 (decimal_rec f n []) n /\
  (0 < n -> ~ starts_with (lit_text "0") (decimal_rec f n [])) /\ (n = 0 -> decimal_rec f n [] = ["0"%char]).
Proof.
  induction f as [|f IH]; intros n Hn Hf; [lia|]. cbn [decimal_rec]. destruct (n <? 10) eqn:E.
  - apply Z.ltb_lt in E. rewrite Z.mod_small by lia. split; [constructor; apply decimal_digit_char; lia|]. split.
    + intros Hp (c & t & [= <- <-] & [H|[]]).
      assert (C : In n [1;2;3;4;5;6;7;8;9]) by (cbn; lia). cbn [In] in C. intuition (subst; discriminate).
    + intros ->. reflexivity.
  - apply Z.ltb_ge in E. rewrite decimal_rec_app.
    rewrite Nat2Z.inj_succ, Z.pow_succ_r in Hn by lia.
    assert (H1 : 0 < n / 10) by (apply Z.div_str_pos; lia). assert (H2 : n / 10 < 10 ^ Z.of_nat f) by (apply Z.div_lt_upper_bound; lia).
    assert (Hf' : (0 < f)%nat). { destruct f; [cbn in H2; lia|lia]. }
    destruct (IH (n / 10) ltac:(lia) Hf') as (I1 & I2 & _). split; [|split; [|lia]].
    + assert (Q := DMore 10 _ _ (decimal_digit (n mod 10)) (n mod 10) I1 (decimal_digit_char (n mod 10) (Z.mod_pos_bound n 10 ltac:(lia)))).
      replace (n / 10 * 10 + n mod 10) with n in Q by (rewrite (Z.div_mod n 10) at 1 by lia; ring). exact Q.
    + intros _ (c & t & E2 & [<-|[]]). apply (I2 H1). destruct (decimal_rec f (n / 10) []) as [|y z] eqn:Ed.
      * exfalso. exact (digits_nonempty _ _ _ I1 eq_refl).
      * injection E2 as -> _. exists "0"%char, z. split; [reflexivity|left; reflexivity].
Qed.
Lemma decimal_unsigned n : 0 <= n <= 2 ^ 63 -> unsigned_int (decimal_rec 20 n []) [] n.
Proof.
  intros Hn. destruct (decimal_digits 20 n) as (H1 & H2 & H3); [|lia|].
  { change (10 ^ Z.of_nat 20) with 100000000000000000000. change (2 ^ 63) with 9223372036854775808 in Hn. lia. }
  assert (N : forall b, no_digit b []) by (intros b c r d; discriminate).
  destruct (Z.eq_dec n 0) as [->|E].
  - cbn. apply UOct; [constructor; split; [lia|left; reflexivity]|apply N|]. intros _ (x & c & d & r' & G & _). discriminate.
  - apply UDec; [exact H1|apply H2; lia|apply N].
Qed.
Lemma decimal_leading z : is_long z -> leading_int (decimal z) z.
Proof.
  intros H. unfold is_long in H. unfold decimal. destruct (z <? 0) eqn:E.
  - apply Z.ltb_lt in E. replace z with (- (- z)) at 2 by lia.
    pose proof (LeadMinus [] _ _ (- z) (Forall_nil _) (decimal_unsigned (- z) ltac:(lia))) as L. rewrite app_nil_r in L. exact L.
  - apply Z.ltb_ge in E. pose proof (LeadPos [] _ _ z (Forall_nil _) (decimal_unsigned z ltac:(lia))) as L. rewrite app_nil_r in L. exact L.
Qed.
Lemma digits_no_nul t v : digits 10 t v -> ~ In NUL t.
Proof.
  induction 1 as [c d H|t v c d H IH Hc].
  - intros [->|[]]. apply digit_char_iff in H; [discriminate|lia].
  - intros G. apply in_app_or in G. destruct G as [G|[->|[]]]; [auto|]. apply digit_char_iff in Hc; [discriminate|lia].
Qed.
Lemma decimal_no_nul z : is_long z -> ~ In NUL (decimal z).
Proof.
  intros H. unfold is_long in H. change (2 ^ 63) with 9223372036854775808 in H. unfold decimal. destruct (z <? 0) eqn:E.
  - apply Z.ltb_lt in E. intros [G|G]; [discriminate|]. revert G. apply (digits_no_nul _ (- z)). apply decimal_digits; [|lia].
    change (10 ^ Z.of_nat 20) with 100000000000000000000. lia.
  - apply Z.ltb_ge in E. apply (digits_no_nul _ z). apply decimal_digits; [|lia].
    change (10 ^ Z.of_nat 20) with 100000000000000000000. lia.
Qed.
