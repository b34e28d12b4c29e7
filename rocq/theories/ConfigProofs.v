(** Proofs about the parameter file: lines and files. *)
From Coq Require Import ZArith List Bool Ascii String Lia.
From Verif Require Import ConfigModel ConfigSpec.
Import ListNotations.
Open Scope Z_scope.

Lemma is_true c d : is c d = true <-> c = d.
Proof. apply Ascii.eqb_eq. Qed.
Lemma is_false c d : is c d = false <-> c <> d.
Proof. apply Ascii.eqb_neq. Qed.
Lemma text_eqb_true a b : text_eqb a b = true <-> a = b.
Proof. unfold text_eqb. destruct list_eq_dec; split; auto; discriminate. Qed.
Lemma space_isspace c : space c <-> isspace c = true.
Proof.
  unfold space, isspace, code. rewrite orb_true_iff, andb_true_iff, !Z.leb_le, Z.eqb_eq. cbn [In]. lia.
Qed.
Lemma not_space c : ~ space c <-> isspace c = false.
Proof. rewrite space_isspace. destruct (isspace c); split; congruence. Qed.

(** ** Trimming *)
Lemma lskip_blank w s : blank w -> lskip (w ++ s) = lskip s.
Proof. induction 1 as [|c w Hc _ IH]; [reflexivity|]. cbn. apply space_isspace in Hc. rewrite Hc. exact IH. Qed.
Lemma lskip_start c s : ~ space c -> lskip (c :: s) = c :: s.
Proof. intros H. apply not_space in H. cbn. rewrite H. reflexivity. Qed.
Lemma lskip_spec s : exists w, blank w /\ s = w ++ lskip s /\ (forall c t, lskip s = c :: t -> ~ space c).
Proof.
  induction s as [|c s (w & H1 & H2 & H3)].
  - exists []. repeat split; [constructor|]. intros; discriminate.
  - cbn. destruct (isspace c) eqn:E.
    + exists (c :: w). split; [constructor; [apply space_isspace; exact E|exact H1]|]. split; [cbn; congruence|exact H3].
    + exists []. split; [constructor|]. split; [reflexivity|]. intros d t [= <- <-]. apply not_space; exact E.
Qed.
Lemma rstrip_blank w : blank w -> rstrip w = [].
Proof. induction 1 as [|c w Hc _ IH]; [reflexivity|]. cbn. rewrite IH. apply space_isspace in Hc. rewrite Hc. reflexivity. Qed.
Lemma rstrip_app s w : blank w -> rstrip (s ++ w) = rstrip s.
Proof. intros H. induction s as [|c s IH]; [cbn; apply rstrip_blank; exact H|]. cbn. rewrite IH. reflexivity. Qed.
Lemma rstrip_end s c : ~ space c -> rstrip (s ++ [c]) = s ++ [c].
Proof.
  intros H. apply not_space in H. induction s as [|d s IH]; cbn.
  - rewrite H. reflexivity.
  - rewrite IH. destruct (s ++ [c]) eqn:E; [destruct s; discriminate|reflexivity].
Qed.
Lemma rstrip_spec s : exists w, blank w /\ s = rstrip s ++ w /\ (forall c t, rstrip s = t ++ [c] -> ~ space c).
Proof.
  induction s as [|c s IH] using rev_ind.
  - exists []. repeat split; [constructor|]. intros c [|] H; discriminate.
  - destruct IH as (w & H1 & H2 & H3). destruct (isspace c) eqn:E.
    + apply space_isspace in E. rewrite (rstrip_app s [c]) by (constructor; [exact E|constructor]).
      exists (w ++ [c]). split; [apply Forall_app; split; [exact H1|constructor; [exact E|constructor]]|].
      split; [rewrite app_assoc, <- H2; reflexivity|exact H3].
    + apply not_space in E. rewrite rstrip_end by exact E. exists []. split; [constructor|].
      split; [rewrite app_nil_r; reflexivity|]. intros d t H. apply app_inj_tail in H. destruct H as [_ <-]. exact E.
Qed.

Lemma blank_app a b : blank (a ++ b) <-> blank a /\ blank b.
Proof. apply Forall_app. Qed.
Lemma trim_blank_or s : blank s \/ exists w t w', s = w ++ t ++ w' /\ blank w /\ blank w' /\ trimmed t /\ t <> [].
Proof.
  destruct (lskip_spec s) as (w & H1 & H2 & H3). destruct (rstrip_spec (lskip s)) as (w' & G1 & G2 & G3).
  destruct (rstrip (lskip s)) as [|c t] eqn:E.
  - left. rewrite H2, G2. cbn. apply blank_app; auto.
  - right. exists w, (c :: t), w'. split; [congruence|]. split; [exact H1|]. split; [exact G1|]. split; [|discriminate].
    split.
    + intros d t' [= <- <-]. apply (H3 c (t ++ w')). rewrite G2. reflexivity.
    + exact G3.
Qed.
Lemma last_case (t : text) : t = [] \/ exists t' c, t = t' ++ [c].
Proof. destruct t as [|d t]; [auto|]. right. destruct (@exists_last _ (d :: t)) as (t' & c & E); [discriminate|]. eauto. Qed.
Lemma rstrip_trimmed t : trimmed t -> rstrip t = t.
Proof. intros [_ H]. destruct (last_case t) as [->|(t' & c & ->)]; [reflexivity|]. apply rstrip_end. exact (H c t' eq_refl). Qed.
Lemma lskip_trimmed t s : trimmed t -> t <> [] -> lskip (t ++ s) = t ++ s.
Proof. intros [H _] Hn. destruct t as [|c t]; [congruence|]. apply (lskip_start c (t ++ s)). exact (H c t eq_refl). Qed.
Lemma cstr_id s : ~ In NUL s -> cstr s = s.
Proof.
  induction s as [|c s IH]; [reflexivity|]. intros H. cbn [cstr]. destruct (is c NUL) eqn:E.
  - apply is_true in E. exfalso. apply H. left; auto.
  - rewrite IH; [reflexivity|]. intros G; apply H; right; exact G.
Qed.
Lemma rstrip_length_split s : exists w, blank w /\ s = rstrip s ++ w.
Proof. destruct (rstrip_spec s) as (w & H & E & _). eauto. Qed.

(** ** find_char_or_comment *)
Lemma find_from_app b stop s : let '(x, y) := find_from b stop s in s = x ++ y.
Proof.
  revert b. induction s as [|c s IH]; intros b; cbn; [reflexivity|].
  destruct (_ || _); [reflexivity|]. specialize (IH (isspace c)). destruct (find_from (isspace c) stop s). cbn. congruence.
Qed.
(** [b] tells whether the character before is white space. *)
Definition comment_in (b : bool) (t : text) : Prop := has_comment t \/ b = true /\ exists t', t = ";"%char :: t'.
Lemma comment_cons b c t : comment_in b (c :: t) <-> (b = true /\ c = ";"%char) \/ comment_in (isspace c) t.
Proof.
  split.
  - intros [(a & d & r & E & Hd)|(Hb & t' & E)].
    + destruct a as [|e a]; injection E as <- ->.
      * right. right. split; [apply space_isspace; exact Hd|eauto].
      * right. left. exists a, d, r. auto.
    + injection E as -> ->. auto.
  - intros [[-> ->]|[(a & d & r & -> & Hd)|(Hb & t' & ->)]].
    + right. split; [reflexivity|eauto].
    + left. exists (c :: a), d, r. auto.
    + left. exists [], c, t'. split; [reflexivity|apply space_isspace; exact Hb].
Qed.
Lemma no_comment_nil b : ~ comment_in b [].
Proof. intros [(a & c & r & E & _)|(_ & t & E)]; [destruct a; discriminate|discriminate]. Qed.
Definition stops (stop : option ascii) (c : ascii) : Prop := stop = Some c.
Lemma find_found b stop n c r : (forall d, In d n -> ~ stops stop d) -> ~ comment_in b n -> stops stop c ->
  find_from b stop (n ++ c :: r) = (n, c :: r).
Proof.
  intros Hn. revert b. induction n as [|d n IH]; intros b Hc Hs.
  - cbn. rewrite Hs. rewrite (proj2 (is_true c c) eq_refl). reflexivity.
  - cbn. rewrite comment_cons in Hc.
    destruct ((match stop with Some d0 => is d d0 | None => false end) || (b && is d ";")) eqn:E.
    + exfalso. apply orb_true_iff in E. destruct E as [E|E].
      * destruct stop as [e|]; [|discriminate]. apply is_true in E. subst e. apply (Hn d (or_introl eq_refl)). reflexivity.
      * apply andb_true_iff in E. destruct E as [E1 E2]. apply is_true in E2. apply Hc. auto.
    + rewrite IH; [reflexivity| | |exact Hs].
      * intros e He. apply Hn. right; exact He.
      * intros G. apply Hc. right; exact G.
Qed.
Lemma find_comment b stop n c r : (forall d, In d (n ++ [c]) -> ~ stops stop d) -> ~ comment_in b (n ++ [c]) -> space c ->
  find_from b stop (n ++ c :: ";"%char :: r) = (n ++ [c], ";"%char :: r).
Proof.
  intros Hn. revert b. induction n as [|d n IH]; intros b Hc Hs; cbn in *.
  - destruct ((match stop with Some d0 => is c d0 | None => false end) || (b && is c ";")) eqn:E.
    + exfalso. apply orb_true_iff in E. destruct E as [E|E].
      * destruct stop as [e|]; [|discriminate]. apply is_true in E. subst e. apply (Hn c (or_introl eq_refl)). reflexivity.
      * apply andb_true_iff in E. destruct E as [E1 E2]. apply is_true in E2. apply Hc. right; subst; eauto.
    + apply space_isspace in Hs. rewrite Hs.
      match goal with |- context [if ?x then _ else _] => replace x with true by (symmetry; apply orb_true_iff; right; reflexivity) end.
      reflexivity.
  - destruct ((match stop with Some d0 => is d d0 | None => false end) || (b && is d ";")) eqn:E.
    + exfalso. apply orb_true_iff in E. destruct E as [E|E].
      * destruct stop as [e|]; [|discriminate]. apply is_true in E. subst e. apply (Hn d (or_introl eq_refl)). reflexivity.
      * apply andb_true_iff in E. destruct E as [E1 E2]. apply is_true in E2. apply Hc. right; subst; eauto.
    + rewrite IH; [reflexivity| | |exact Hs].
      * intros e He. apply Hn. right; exact He.
      * intros G. apply Hc. rewrite comment_cons. right; exact G.
Qed.
Lemma find_none b stop n : (forall d, In d n -> ~ stops stop d) -> ~ comment_in b n -> find_from b stop n = (n, []).
Proof.
  intros Hn. revert b. induction n as [|d n IH]; intros b Hc; [reflexivity|].
  cbn. rewrite comment_cons in Hc.
  destruct ((match stop with Some d0 => is d d0 | None => false end) || (b && is d ";")) eqn:E.
  - exfalso. apply orb_true_iff in E. destruct E as [E|E].
    + destruct stop as [e|]; [|discriminate]. apply is_true in E. subst e. apply (Hn d (or_introl eq_refl)). reflexivity.
    + apply andb_true_iff in E. destruct E as [E1 E2]. apply is_true in E2. apply Hc. auto.
  - rewrite IH; [reflexivity| |].
    + intros e He. apply Hn. right; exact He.
    + intros G. apply Hc. right; exact G.
Qed.
(** What is found. *)
Lemma find_inv b stop s : let '(n, r) := find_from b stop s in
  s = n ++ r /\ (forall d, In d n -> ~ stops stop d) /\ ~ comment_in b n /\
  (r = [] \/ (exists c r', r = c :: r' /\ stops stop c) \/
   exists r', r = ";"%char :: r' /\ ~ stops stop ";" /\ (n = [] /\ b = true \/ exists n' c, n = n' ++ [c] /\ space c)).
Proof.
  revert b. induction s as [|c s IH]; intros b; cbn.
  - split; [reflexivity|]. split; [intros d []|]. split; [apply no_comment_nil|auto].
  - destruct (match stop with Some d0 => is c d0 | None => false end) eqn:E.
    + cbn. split; [reflexivity|]. split; [intros d []|]. split; [apply no_comment_nil|]. right; left. exists c, s.
      destruct stop; [|discriminate]. apply is_true in E. subst. split; reflexivity.
    + assert (Hc : ~ stops stop c). { intros G. unfold stops in G. rewrite G in E. rewrite (proj2 (is_true c c) eq_refl) in E. discriminate. }
      cbn. destruct (b && is c ";") eqn:E2.
      * apply andb_true_iff in E2. destruct E2 as [-> E2]. apply is_true in E2. subst c.
        split; [reflexivity|]. split; [intros d []|]. split; [apply no_comment_nil|]. right; right. exists s. auto.
      * specialize (IH (isspace c)). destruct (find_from (isspace c) stop s) as [n r]. destruct IH as (I1 & I2 & I3 & I4).
        split; [cbn; congruence|]. split; [intros d [<-|H]; auto|]. split.
        { rewrite comment_cons. intros [[-> ->]|G]; [discriminate|auto]. }
        destruct I4 as [I4|[I4|(r' & J1 & J2 & J3)]]; [auto|auto|].
        right; right. exists r'. split; [exact J1|]. split; [exact J2|]. right.
        destruct J3 as [[-> Hs]|(n' & d & -> & Hd)].
        -- exists [], c. split; [reflexivity|apply space_isspace; exact Hs].
        -- exists (c :: n'), d. auto.
Qed.
Lemma comment_false t : comment_in false t <-> has_comment t.
Proof. unfold comment_in. intuition congruence. Qed.

(** ** One line *)
Lemma length_pos {X} (l : list X) : negb (Nat.eqb (List.length l) 0) = true <-> l <> [].
Proof. destruct l; cbn; split; congruence. Qed.
Lemma eqb_nil k : negb (text_eqb k []) = negb (Nat.eqb (List.length k) 0).
Proof. destruct k; [reflexivity|]. unfold text_eqb. destruct list_eq_dec; [discriminate|reflexivity]. Qed.

(** What the parser does with an item. *)
Definition next_line (s : pst) : pst := PSt (section s) (prev_name s) (lineno s + 1) (error s) (calls s).
Definition apply_item (s : pst) (it : item) : pst :=
  match it with
  | Nothing => s
  | Malformed => note_error s
  | Heading h => PSt (strncpy0 h MAX_SECTION) [] (lineno s) (error s) (calls s)
  | Assign n v => handle (PSt (section s) (strncpy0 n MAX_NAME) (lineno s) (error s) (calls s)) n v
  | Continue v => handle s (prev_name s) v
  end.

(** Not a continuation. *)
Definition body (s : pst) (start : text) : pst :=
  match start with
  | [] => s
  | c :: rest =>
    if is c ";" || is c "#" then s
    else if is c "[" then
      match find_char_or_comment rest (Some "]"%char) with
      | (name, d :: _) => if is d "]" then PSt (strncpy0 name MAX_SECTION) [] (lineno s) (error s) (calls s) else note_error s
      | (_, []) => note_error s
      end
    else
      match find_char_or_comment start (Some "="%char) with
      | (n, d :: v) =>
        if is d "=" then
          let name := rstrip n in
          let value := rstrip (fst (find_char_or_comment (lskip v) None)) in
          handle (PSt (section s) (strncpy0 name MAX_NAME) (lineno s) (error s) (calls s)) name value
        else note_error s
      | (_, []) => note_error s
      end
  end.
Lemma parse_line_blank s l : blank l -> ~ In NUL l -> parse_line s l = next_line s.
Proof.
  intros H Hn. unfold parse_line. rewrite (cstr_id l Hn), (rstrip_blank l H). cbn [lskip List.length Nat.eqb negb andb].
  rewrite andb_false_r. reflexivity.
Qed.
Lemma rstrip_cons_nonblank a t : rstrip t <> [] -> rstrip (a ++ t) = a ++ rstrip t.
Proof.
  intros H. induction a as [|c a IH]; [reflexivity|]. cbn. rewrite IH. destruct (a ++ rstrip t) eqn:E; [|reflexivity].
  apply app_eq_nil in E. destruct E as [_ E]. congruence.
Qed.
Lemma rstrip_start c t : ~ space c -> exists t', rstrip (c :: t) = c :: t' /\ exists w, blank w /\ t = t' ++ w.
Proof.
  intros H. apply not_space in H. destruct (rstrip_spec t) as (w & H1 & H2 & _). cbn. destruct (rstrip t) as [|d t'].
  - rewrite H. exists []. split; [reflexivity|]. exists w. auto.
  - exists (d :: t'). split; [reflexivity|]. exists w. auto.
Qed.
Lemma parse_line_body s w c t : blank w -> ~ space c -> ~ In NUL (w ++ c :: t) -> prev_name s = [] \/ w = [] ->
  parse_line s (w ++ c :: t) = body (next_line s) (rstrip (c :: t)).
Proof.
  intros Hw Hc Hn Hp. unfold parse_line. rewrite (cstr_id _ Hn).
  destruct (rstrip_start c t Hc) as (t' & E & _).
  rewrite rstrip_cons_nonblank by (rewrite E; discriminate). rewrite lskip_blank by exact Hw.
  assert (E2 : lskip (rstrip (c :: t)) = rstrip (c :: t)) by (rewrite E; apply lskip_start; exact Hc).
  rewrite E2. cbn [prev_name].
  match goal with |- (if ?b then _ else _) = _ => replace b with false end; [reflexivity|].
  symmetry. destruct Hp as [-> | ->]; [reflexivity|]. cbn [app]. rewrite Nat.ltb_irrefl. apply andb_false_r.
Qed.
Lemma parse_line_continue s w t w' : blank w -> w <> [] -> trimmed t -> t <> [] -> blank w' -> ~ In NUL (w ++ t ++ w') ->
  prev_name s <> [] -> parse_line s (w ++ t ++ w') = apply_item (next_line s) (Continue t).
Proof.
  intros Hw Hwn Ht Htn Hw' Hn Hp. unfold parse_line. rewrite (cstr_id _ Hn).
  rewrite rstrip_cons_nonblank; rewrite (rstrip_app t w' Hw'), (rstrip_trimmed t Ht); [|exact Htn].
  rewrite lskip_blank by exact Hw. pose proof (lskip_trimmed t [] Ht Htn) as E. rewrite app_nil_r in E. rewrite E.
  cbn [prev_name]. rewrite (proj2 (length_pos (prev_name s)) Hp), (proj2 (length_pos t) Htn). cbn [andb].
  replace (Nat.ltb _ _) with true; [reflexivity|]. symmetry. apply Nat.ltb_lt. rewrite app_length.
  destruct w; [congruence|]. cbn [List.length]. lia.
Qed.
Lemma space_semicolon : ~ space ";". Proof. intros H; cbn in H; intuition discriminate. Qed.
Lemma has_comment_snoc_space n x : space x -> has_comment (n ++ [x]) -> has_comment n.
Proof.
  intros Hx (a & c & b & E & Hc). destruct (last_case b) as [->|(b' & y & ->)].
  - change (a ++ c :: [";"%char]) with (a ++ [c] ++ [";"%char]) in E. rewrite app_assoc in E.
    apply app_inj_tail in E. destruct E as [_ ->]. exfalso. exact (space_semicolon Hx).
  - exists a, c, b'. split; [|exact Hc]. replace (a ++ c :: ";"%char :: b' ++ [y]) with ((a ++ c :: ";"%char :: b') ++ [y]) in E
      by (rewrite <- app_assoc; reflexivity). apply app_inj_tail in E. tauto.
Qed.
Lemma has_comment_app_blank n w : blank w -> has_comment (n ++ w) -> has_comment n.
Proof.
  revert n. induction w as [|x w IH]; intros n Hw H; [rewrite app_nil_r in H; exact H|].
  inversion Hw; subst. apply (has_comment_snoc_space n x); [assumption|]. apply IH; [assumption|]. rewrite <- app_assoc. exact H.
Qed.
Lemma has_comment_app n w : has_comment n -> has_comment (n ++ w).
Proof. intros (a & c & b & -> & Hc). exists a, c, (b ++ w). rewrite <- app_assoc. auto. Qed.
Lemma blank_no_comment w : blank w -> ~ has_comment w.
Proof.
  intros H (a & c & b & E & _). assert (In ";"%char w) by (subst; apply in_or_app; right; right; left; reflexivity).
  apply (proj1 (Forall_forall _ _) H) in H0. exact (space_semicolon H0).
Qed.

(** Headings. *)
Lemma body_heading s t : body s ("["%char :: t) =
  match find_char_or_comment t (Some "]"%char) with
  | (name, d :: _) => if is d "]" then apply_item s (Heading name) else note_error s
  | (_, []) => note_error s end.
Proof. reflexivity. Qed.
Lemma closed_find stop t n r : closed_by stop t n r -> find_char_or_comment t (Some stop) = (n, stop :: r).
Proof.
  intros (-> & H1 & H2). apply find_found.
  - intros d Hd [= ->]. exact (H1 Hd).
  - rewrite comment_false. exact H2.
  - reflexivity.
Qed.
Lemma open_find stop t : stop <> ";"%char -> ~ (exists n r, closed_by stop t n r) ->
  match find_char_or_comment t (Some stop) with (_, d :: _) => is d stop = false | (_, []) => True end.
Proof.
  intros Hs H. unfold find_char_or_comment. pose proof (find_inv false (Some stop) t) as F.
  destruct (find_from false (Some stop) t) as [n r]. destruct F as (F1 & F2 & F3 & F4).
  destruct r as [|d r]; [exact I|]. destruct F4 as [F4|[(c & r' & [= -> ->] & Hc)|(r' & [= -> ->] & _)]]; [discriminate| |].
  - exfalso. apply H. injection Hc as ->. exists n, r'. split; [exact F1|]. split.
    + intros G. exact (F2 c G eq_refl).
    + rewrite <- comment_false. exact F3.
  - apply is_false. auto.
Qed.
Lemma closed_strip stop t' w : blank w -> ~ space stop -> (exists n r, closed_by stop t' n r) <-> (exists n r, closed_by stop (t' ++ w) n r).
Proof.
  intros Hw Hs. split.
  - intros (n & r & -> & H). exists n, (r ++ w). split; [rewrite <- app_assoc; reflexivity|exact H].
  - intros (n & r & E & H1 & H2). apply app_eq_app in E.
    assert (Hw' : ~ In stop w) by (intros G; apply Hs; exact (proj1 (Forall_forall _ _) Hw _ G)).
    destruct E as (l & [[-> E]|[-> E]]).
    + destruct l as [|c l].
      * exfalso. apply Hw'. cbn in E. rewrite <- E. left; reflexivity.
      * injection E as <- ->. exists n, l. split; auto.
    + exfalso. apply Hw'. rewrite E. apply in_or_app. right; left; reflexivity.
Qed.

Lemma find_value s : let '(n, r) := find_char_or_comment s None in
  s = n ++ r /\ ~ has_comment n /\ (r = [] \/ exists r' n' c, r = ";"%char :: r' /\ n = n' ++ [c] /\ space c).
Proof.
  unfold find_char_or_comment. pose proof (find_inv false None s) as F. destruct (find_from false None s) as [n r].
  destruct F as (F1 & _ & F3 & F4). split; [exact F1|]. split; [rewrite <- comment_false; exact F3|].
  destruct F4 as [F4|[(c & r' & _ & Hc)|(r' & -> & _ & [[_ Hb]|(n' & c & -> & Hc)])]]; [auto|discriminate|discriminate|].
  right. exists r', n', c. auto.
Qed.

(** Assignments: value part. *)
Lemma value_spec w2 value tail : blank w2 -> trimmed value -> ~ has_comment value ->
  blank tail \/ (value <> [] /\ exists w3 c, tail = w3 ++ ";"%char :: c /\ blank w3 /\ w3 <> []) ->
  rstrip (fst (find_char_or_comment (lskip (rstrip (w2 ++ value ++ tail))) None)) = value.
Proof.
  intros Hw2 Hv Hc Ht. destruct value as [|v0 vs].
  - destruct Ht as [Ht|[G _]]; [|congruence]. cbn [app]. rewrite (rstrip_blank (w2 ++ tail)) by (apply blank_app; auto). reflexivity.
  - set (value := v0 :: vs) in *. assert (Hne : value <> []) by discriminate. clearbody value.
    destruct Ht as [Ht|(_ & w3 & c & -> & Hw3 & Hw3n)].
    + rewrite app_assoc, (rstrip_app _ tail Ht). rewrite rstrip_cons_nonblank by (rewrite rstrip_trimmed; assumption).
      rewrite (rstrip_trimmed value Hv), lskip_blank by exact Hw2.
      pose proof (lskip_trimmed value [] Hv Hne) as E. rewrite app_nil_r in E. rewrite E.
      unfold find_char_or_comment. rewrite find_none; [apply rstrip_trimmed; exact Hv|intros d _ G; discriminate|].
      rewrite comment_false. exact Hc.
    + destruct (rstrip_start ";"%char c space_semicolon) as (c' & E & _).
      replace (w2 ++ value ++ w3 ++ ";"%char :: c) with ((w2 ++ value ++ w3) ++ ";"%char :: c) by (rewrite <- !app_assoc; reflexivity).
      rewrite rstrip_cons_nonblank by (rewrite E; discriminate). rewrite E, <- !app_assoc, lskip_blank by exact Hw2.
      rewrite lskip_trimmed by assumption.
      destruct (last_case w3) as [->|(w4 & x & ->)]; [congruence|].
      apply blank_app in Hw3. destruct Hw3 as [Hw4 Hx]. inversion Hx; subst.
      replace (value ++ (w4 ++ [x]) ++ ";"%char :: c') with ((value ++ w4) ++ x :: ";"%char :: c') by (rewrite <- !app_assoc; reflexivity).
      unfold find_char_or_comment. rewrite find_comment; [|intros d _ G; discriminate| |assumption].
      * cbn [fst]. rewrite <- app_assoc, rstrip_app by (apply blank_app; auto). apply rstrip_trimmed; exact Hv.
      * rewrite comment_false, <- app_assoc. intros G. apply Hc. eapply has_comment_app_blank; [|exact G]. apply blank_app; auto.
Qed.

Lemma no_nul_app_l a b : ~ In NUL (a ++ b) -> ~ In NUL a.
Proof. intros H G. apply H. apply in_or_app; auto. Qed.

Lemma body_other s c t : ~ In c (lit_text ";#[") -> body s (c :: t) =
  match find_char_or_comment (c :: t) (Some "="%char) with
  | (n, d :: v) => if is d "=" then apply_item s (Assign (rstrip n) (rstrip (fst (find_char_or_comment (lskip v) None)))) else note_error s
  | (_, []) => note_error s end.
Proof.
  intros H. unfold body.
  destruct (is c ";") eqn:E1; [apply is_true in E1; subst; exfalso; apply H; left; reflexivity|].
  destruct (is c "#") eqn:E2; [apply is_true in E2; subst; exfalso; apply H; right; left; reflexivity|].
  destruct (is c "[") eqn:E3; [apply is_true in E3; subst; exfalso; apply H; right; right; left; reflexivity|].
  reflexivity.
Qed.

(** The parser does what the format says. *)
Lemma line_correct s l it : ~ In NUL l -> line_is (negb (text_eqb (prev_name s) [])) l it ->
  parse_line s l = apply_item (next_line s) it.
Proof.
  intros Hn H. assert (Hprev : forall w : text, negb (text_eqb (prev_name s) []) = false \/ w = [] -> prev_name s = [] \/ w = []).
  { intros w [G|G]; [left|right; exact G]. apply negb_false_iff, text_eqb_true in G. exact G. }
  destruct H as [w Hw|w t w' Ha Hw Hwn Ht Htn Hw'|w t Ha Hw (c & t' & -> & Hc)|w t n r Ha Hw Hcl|w t Ha Hw Hcl
    |w name w1 w2 value tail Ha Hw Hnm He Hnc Hst Hw1 Hw1n Hw2 Hv Hvc Htail|w c t Ha Hw Hsp Hc Hcl].
  - rewrite parse_line_blank; auto.
  - apply parse_line_continue; auto. intros G. rewrite G in Ha. discriminate.
  - assert (Hsp : ~ space c) by (destruct Hc as [<-|[<-|[]]]; intros G; cbn in G; intuition discriminate).
    rewrite parse_line_body; auto. destruct (rstrip_start c t' Hsp) as (t2 & -> & _).
    destruct Hc as [<-|[<-|[]]]; reflexivity.
  - assert (Hsp : ~ space "[") by (intros G; cbn in G; intuition discriminate).
    rewrite parse_line_body; auto. destruct (rstrip_start "["%char t Hsp) as (t2 & -> & ww & Hww & E).
    rewrite body_heading.
    assert (Hcl' : exists r', closed_by "]" t2 n r').
    { destruct (proj2 (closed_strip "]" t2 ww Hww ltac:(intros G; cbn in G; intuition discriminate))) as (n' & r' & C).
      - exists n, r. rewrite <- E. exact Hcl.
      - pose proof (closed_find _ _ _ _ Hcl) as F1.
        assert (C2 : closed_by "]" t n' (r' ++ ww)).
        { destruct C as (-> & C). split; [rewrite E, <- app_assoc; reflexivity|exact C]. }
        pose proof (closed_find _ _ _ _ C2) as F2. rewrite F1 in F2. injection F2 as <- _. eauto. }
    destruct Hcl' as (r' & C). rewrite (closed_find _ _ _ _ C). reflexivity.
  - assert (Hsp : ~ space "[") by (intros G; cbn in G; intuition discriminate).
    rewrite parse_line_body; auto. destruct (rstrip_start "["%char t Hsp) as (t2 & -> & ww & Hww & E).
    rewrite body_heading. rewrite E, <- (closed_strip "]" t2 ww Hww) in Hcl by (intros G; cbn in G; intuition discriminate).
    pose proof (open_find "]"%char t2 ltac:(discriminate) Hcl) as F. destruct (find_char_or_comment t2 _) as [n [|d r]]; [reflexivity|].
    rewrite F. reflexivity.
  - assert (Heq : ~ space "=") by (intros G; cbn in G; intuition discriminate).
    assert (Hbody : forall c t, name ++ w1 ++ "="%char :: w2 ++ value ++ tail = c :: t -> ~ space c /\ ~ In c (lit_text ";#[")).
    { intros c t E. destruct name as [|c' name].
      - rewrite (Hw1n eq_refl) in E. injection E as <- _. split; [exact Heq|]. intros G; cbn in G; intuition discriminate.
      - injection E as <- _. split; [exact (proj1 Hnm c' name eq_refl)|]. intros G. apply Hst. exists c', name. auto. }
    destruct (name ++ w1 ++ "="%char :: w2 ++ value ++ tail) as [|c t] eqn:E.
    { destruct name; [destruct w1; discriminate|discriminate]. }
    destruct (Hbody c t eq_refl) as [Hsp Hc]. rewrite parse_line_body; auto. rewrite <- E.
    replace (name ++ w1 ++ "="%char :: w2 ++ value ++ tail) with ((name ++ w1 ++ ["="%char]) ++ w2 ++ value ++ tail)
      by (rewrite <- !app_assoc; reflexivity).
    assert (Estrip : exists v, rstrip ((name ++ w1 ++ ["="%char]) ++ w2 ++ value ++ tail) = name ++ w1 ++ "="%char :: v /\ v = rstrip (w2 ++ value ++ tail)).
    { destruct (rstrip (w2 ++ value ++ tail)) as [|y z] eqn:Ez.
      - exists []. split; [|reflexivity]. destruct (rstrip_spec (w2 ++ value ++ tail)) as (ww & Hww & Eww & _). rewrite Ez in Eww. cbn in Eww.
        rewrite Eww, rstrip_app by exact Hww. rewrite !app_assoc. rewrite rstrip_end by exact Heq. rewrite <- app_assoc. reflexivity.
      - exists (y :: z). split; [|reflexivity]. rewrite rstrip_cons_nonblank by (rewrite Ez; discriminate). rewrite Ez, <- !app_assoc. reflexivity. }
    destruct Estrip as (v & Es & Ev). rewrite Es.
    assert (Ecv : exists t2, name ++ w1 ++ "="%char :: v = c :: t2).
    { destruct name as [|c' name]; [rewrite (Hw1n eq_refl) in *|]; cbn in E |- *; injection E as -> _; eauto. }
    destruct Ecv as (t2 & Ecv). rewrite Ecv. rewrite body_other by exact Hc. rewrite <- Ecv.
    assert (Hcl : closed_by "=" (name ++ w1 ++ "="%char :: v) (name ++ w1) v).
    { split; [rewrite <- app_assoc; reflexivity|]. split.
      - intros G. apply in_app_or in G. destruct G as [G|G]; [auto|]. apply Heq. exact (proj1 (Forall_forall _ _) Hw1 _ G).
      - intros G. apply Hnc. exact (has_comment_app_blank name w1 Hw1 G). }
    rewrite (closed_find _ _ _ _ Hcl). cbn [is Ascii.eqb Bool.eqb]. rewrite Ev, value_spec by assumption.
    rewrite rstrip_app by exact Hw1. rewrite rstrip_trimmed by exact Hnm. reflexivity.
  - rewrite parse_line_body; auto. destruct (rstrip_start c t Hsp) as (t2 & -> & ww & Hww & E).
    rewrite body_other by exact Hc. rewrite E in Hcl. change (c :: t2 ++ ww) with ((c :: t2) ++ ww) in Hcl.
    rewrite <- (closed_strip "=" (c :: t2) ww Hww) in Hcl by (intros G; cbn in G; intuition discriminate).
    pose proof (open_find "="%char (c :: t2) ltac:(discriminate) Hcl) as F. destruct (find_char_or_comment (c :: t2) _) as [n [|d r]]; [reflexivity|].
    rewrite F. reflexivity.
Qed.

(** Every line is of one of the forms. *)
Lemma closed_dec stop t : stop <> ";"%char -> (exists n r, closed_by stop t n r) \/ ~ (exists n r, closed_by stop t n r).
Proof.
  intros Hs. pose proof (find_inv false (Some stop) t) as F. destruct (find_from false (Some stop) t) as [n r] eqn:Ef.
  destruct F as (F1 & F2 & F3 & F4).
  assert (Hno : forall n' r', closed_by stop t n' r' -> (n, r) = (n', stop :: r')).
  { intros n' r' C. apply closed_find in C. unfold find_char_or_comment in C. congruence. }
  destruct F4 as [->|[(c & r' & -> & Hc)|(r' & -> & _ & _)]].
  - right. intros (n' & r' & C). apply Hno in C. discriminate.
  - left. injection Hc as ->. exists n, r'. split; [exact F1|]. split; [intros G; exact (F2 c G eq_refl)|].
    rewrite <- comment_false. exact F3.
  - right. intros (n' & r'' & C). apply Hno in C. injection C as _ G _. congruence.
Qed.
Lemma trimmed_prefix a b : trimmed (a ++ b) -> forall c t, a = c :: t -> ~ space c.
Proof. intros [H _] c t ->. apply (H c (t ++ b)). reflexivity. Qed.
Lemma value_exists v : exists w2 value tail, v = w2 ++ value ++ tail /\ blank w2 /\ trimmed value /\ ~ has_comment value /\
  (blank tail \/ (value <> [] /\ exists w3 c, tail = w3 ++ ";"%char :: c /\ blank w3 /\ w3 <> [])).
Proof.
  destruct (lskip_spec v) as (w2 & H1 & H2 & H3). pose proof (find_value (lskip v)) as F.
  destruct (find_char_or_comment (lskip v) None) as [n r]. destruct F as (F1 & F2 & F3).
  destruct (rstrip_spec n) as (w3 & G1 & G2 & G3).
  exists w2, (rstrip n), (w3 ++ r). split; [rewrite H2, F1, G2 at 1; rewrite <- app_assoc; reflexivity|]. split; [exact H1|].
  assert (Hstart : forall c t, rstrip n = c :: t -> ~ space c).
  { intros c t E. apply (H3 c (t ++ w3 ++ r)). rewrite F1, G2, E, <- app_assoc. reflexivity. }
  split; [split; [exact Hstart|exact G3]|]. split; [intros C; apply F2; rewrite G2; apply has_comment_app; exact C|].
  destruct F3 as [->|(r' & n' & c & -> & -> & Hc)]; [left; rewrite app_nil_r; exact G1|].
  destruct (rstrip (n' ++ [c])) as [|x y] eqn:E.
  - exfalso. destruct n' as [|d n'].
    + apply (H3 c (";"%char :: r')); [exact F1|exact Hc].
    + apply (H3 d ((n' ++ [c]) ++ ";"%char :: r')); [exact F1|]. rewrite G2 in F1. cbn in G2.
      rewrite <- G2 in G1. inversion G1; assumption.
  - right. split; [discriminate|]. exists w3, r'. split; [reflexivity|]. split; [exact G1|]. intros ->.
    rewrite app_nil_r in G2. apply (G3 c n'); [congruence|exact Hc].
Qed.
Lemma line_total after l : exists it, line_is after l it.
Proof.
  destruct (trim_blank_or l) as [H|(w & t & w' & -> & Hw & Hw' & Ht & Htn)]; [exists Nothing; constructor; exact H|].
  destruct t as [|c t]; [congruence|]. assert (Hsp : ~ space c) by exact (proj1 Ht c t eq_refl).
  assert (D : (after = true /\ w <> []) \/ (after = false \/ w = [])).
  { destruct after; [|auto]. destruct w; [auto|]. left. split; [reflexivity|discriminate]. }
  destruct D as [[-> Hwn]|Ha]; [eexists; apply LContinue; auto|].
  destruct (in_dec ascii_dec c (lit_text ";#")) as [Hc|Hc].
  { exists Nothing. apply LComment; auto. exists c, (t ++ w'). auto. }
  destruct (ascii_dec c "["%char) as [->|Hb].
  { cbn [app]. destruct (closed_dec "]" (t ++ w') ltac:(discriminate)) as [(n & r & C)|C].
    - eexists. eapply LHeading; eauto. - eexists. eapply LBadHeading; eauto. }
  assert (Hc3 : ~ In c (lit_text ";#[")).
  { intros [G|[G|[G|[]]]]; [apply Hc; left; exact G|apply Hc; right; left; exact G|congruence]. }
  destruct (closed_dec "=" ((c :: t) ++ w') ltac:(discriminate)) as [(n & r & C)|C].
  - destruct C as (E & C1 & C2). rewrite E.
    destruct (rstrip_spec n) as (w1 & G1 & G2 & G3). destruct (value_exists r) as (w2 & value & tail & E2 & V1 & V2 & V3 & V4).
    assert (Hstart : forall d u, n = d :: u -> d = c) by (intros d u ->; injection E as <- _; reflexivity).
    remember (rstrip n) as nm eqn:Enm. clear Enm E. subst n r. rewrite <- app_assoc. exists (Assign nm value).
    apply LAssign; auto.
    + split; [|exact G3]. intros d u ->. rewrite (Hstart d (u ++ w1) eq_refl). exact Hsp.
    + intros G. apply C1. apply in_or_app; auto.
    + intros G. apply C2. apply has_comment_app; exact G.
    + intros (d & u & -> & Hd). rewrite (Hstart d (u ++ w1) eq_refl) in Hd. auto.
    + intros ->. destruct w1 as [|x w1]; [reflexivity|]. exfalso.
      inversion G1 as [|? ? Hx]; subst. rewrite (Hstart x w1 eq_refl) in Hx. auto.
  - exists Malformed. apply LBadLine; auto.
Qed.

(** ** Files *)
Definition no_nul (ls : list text) : Prop := forall l, In l ls -> ~ In NUL l.
Lemma reads_correct sec key n ls out b : reads sec key n ls out b -> no_nul ls -> 0 < n -> forall e cs,
  let s := fold_left parse_line ls (PSt sec key (n - 1) e cs) in
  calls s = rev out ++ cs /\ error s = (if e =? 0 then b else e).
Proof.
  induction 1 as [s k n|s k n l ls out b H _ IH|s k n l ls out b H _ IH|s k n l ls out b h H _ IH|s k n l ls out b nm v H _ IH|s k n l ls out b v H _ IH];
    intros Hn Hpos e cs; [cbn; split; [reflexivity|destruct (e =? 0) eqn:E; [apply Z.eqb_eq; exact E|reflexivity]]|..];
    (assert (Hl : ~ In NUL l) by (apply Hn; left; reflexivity));
    (assert (Hn' : no_nul ls) by (intros x Hx; apply Hn; right; exact Hx));
    cbn [fold_left]; rewrite (line_correct (PSt s k (n - 1) e cs) l _ Hl H);
    unfold next_line, apply_item, handle, note_error, strncpy0; cbn [section prev_name lineno error calls];
    replace (n - 1 + 1) with n by lia; replace (n + 1 - 1) with n in IH by lia.
  - apply IH; [exact Hn'|lia].
  - assert (Hx := IH Hn' ltac:(lia) (if e =? 0 then n else e) cs). cbn zeta in *.
    destruct Hx as [X1 X2]. split; [exact X1|]. rewrite X2.
    destruct (e =? 0) eqn:E; [|rewrite E; reflexivity]. destruct (n =? 0) eqn:E2; [apply Z.eqb_eq in E2; lia|reflexivity].
  - apply IH; [exact Hn'|lia].
  - assert (Hx := IH Hn' ltac:(lia) e ((s, nm, v) :: cs)). cbn zeta in *. destruct Hx as [X1 X2].
    split; [|exact X2]. etransitivity; [exact X1|]. cbn. rewrite <- app_assoc. reflexivity.
  - assert (Hx := IH Hn' ltac:(lia) e ((s, k, v) :: cs)). cbn zeta in *. destruct Hx as [X1 X2].
    split; [|exact X2]. etransitivity; [exact X1|]. cbn. rewrite <- app_assoc. reflexivity.
Qed.
Lemma reads_total ls : forall sec key n, exists out b, reads sec key n ls out b.
Proof.
  induction ls as [|l ls IH]; intros sec key n; [exists [], 0; constructor|].
  destruct (line_total (negb (text_eqb key [])) l) as ([| |h|nm v|v] & H).
  - destruct (IH sec key (n + 1)) as (out & b & R). eexists _, _. eapply RNothing; eauto.
  - destruct (IH sec key (n + 1)) as (out & b & R). eexists _, _. eapply RMalformed; eauto.
  - destruct (IH (firstn 49 h) [] (n + 1)) as (out & b & R). eexists _, _. eapply RHeading; eauto.
  - destruct (IH sec (firstn 49 nm) (n + 1)) as (out & b & R). eexists _, _. eapply RAssign; eauto.
  - destruct (IH sec key (n + 1)) as (out & b & R). eexists _, _. eapply RContinue; eauto.
Qed.
Lemma parse_reads ls out b : no_nul ls -> reads [] [] 1 ls out b ->
  rev (calls (parse_lines ls)) = out /\ error (parse_lines ls) = b.
Proof.
  intros Hn H. destruct (reads_correct [] [] 1 ls out b H Hn ltac:(lia) 0 []) as [E1 E2]. unfold parse_lines, pst0.
  change (1 - 1) with 0 in *. cbn zeta in *. rewrite E1, E2, app_nil_r, rev_involutive. auto.
Qed.

(** ** File and buffer *)
Lemma cstr_nl l : cstr (l ++ [NL]) = cstr l ++ [NL] \/ cstr (l ++ [NL]) = cstr l.
Proof.
  induction l as [|c l IH]; [left; reflexivity|]. cbn [app cstr]. destruct (is c NUL); [auto|].
  destruct IH as [-> | ->]; auto.
Qed.
Lemma parse_line_nl s l : parse_line s (l ++ [NL]) = parse_line s l.
Proof.
  unfold parse_line. destruct (cstr_nl l) as [-> | ->]; [|reflexivity]. rewrite rstrip_app; [reflexivity|].
  constructor; [|constructor]. cbn. auto.
Qed.
Lemma getlines_line l rest acc : ~ In NL l -> getlines acc (l ++ NL :: rest) = (rev acc ++ l) :: getlines [] rest.
Proof.
  revert acc. induction l as [|c l IH]; intros acc H; [cbn; rewrite app_nil_r; reflexivity|]. cbn [app getlines].
  destruct (is c NL) eqn:E; [apply is_true in E; subst; exfalso; apply H; left; reflexivity|].
  rewrite IH by (intros G; apply H; right; exact G). cbn [rev]. rewrite <- app_assoc. reflexivity.
Qed.
Lemma getlines_last l acc : ~ In NL l -> rev acc ++ l <> [] -> getlines acc l = [rev acc ++ l].
Proof.
  revert acc. induction l as [|c l IH]; intros acc H Hn; cbn [getlines].
  - rewrite app_nil_r in *. destruct acc; [cbn in Hn; congruence|reflexivity].
  - destruct (is c NL) eqn:E; [apply is_true in E; subst; exfalso; apply H; left; reflexivity|].
    rewrite IH; [cbn [rev]; rewrite <- app_assoc; reflexivity|intros G; apply H; right; exact G|]. cbn [rev]. rewrite <- app_assoc. destruct (rev acc); discriminate.
Qed.
Lemma fgets_line l rest : forall room acc, ~ In NL l -> (List.length l < room)%nat ->
  fgets_chunks room acc (l ++ NL :: rest) = (rev acc ++ l ++ [NL]) :: fgets_chunks 199 [] rest.
Proof.
  induction l as [|c l IH]; intros room acc H Hr; [reflexivity|]. cbn [app fgets_chunks].
  destruct (is c NL) eqn:E; [apply is_true in E; subst; exfalso; apply H; left; reflexivity|].
  cbn [List.length] in Hr. destruct room as [|[|r]]; [lia|lia|].
  rewrite IH; [cbn [rev]; rewrite <- app_assoc; reflexivity|intros G; apply H; right; exact G|lia].
Qed.
Lemma fgets_last l : forall room acc, ~ In NL l -> (List.length l < room)%nat -> rev acc ++ l <> [] ->
  fgets_chunks room acc l = [rev acc ++ l].
Proof.
  induction l as [|c l IH]; intros room acc H Hr Hn; cbn [fgets_chunks].
  - rewrite app_nil_r in *. destruct acc; [cbn in Hn; congruence|reflexivity].
  - destruct (is c NL) eqn:E; [apply is_true in E; subst; exfalso; apply H; left; reflexivity|].
    cbn [List.length] in Hr. destruct room as [|[|r]]; [lia|lia|].
    rewrite IH; [cbn [rev]; rewrite <- app_assoc; reflexivity|intros G; apply H; right; exact G|lia|]. cbn [rev]. rewrite <- app_assoc. destruct (rev acc); discriminate.
Qed.
Lemma getlines_many ls rest : (forall l, In l ls -> ~ In NL l) -> getlines [] (with_newlines ls ++ rest) = ls ++ getlines [] rest.
Proof.
  induction ls as [|l ls IH]; intros H; [reflexivity|]. unfold with_newlines. cbn [map List.concat]. rewrite <- !app_assoc. cbn [app].
  change (ascii_of_nat 10) with NL. rewrite getlines_line by (apply H; left; reflexivity). cbn [rev app]. f_equal.
  apply IH. intros x Hx. apply H. right; exact Hx.
Qed.
Lemma buffer_lines file ls : file_lines file ls -> getlines [] file = ls.
Proof.
  intros [ls0 H|ls0 l H Hl Hn].
  - rewrite <- (app_nil_r (with_newlines ls0)), getlines_many by exact H. cbn. apply app_nil_r.
  - rewrite getlines_many by exact H. f_equal. apply (getlines_last l []); assumption.
Qed.
Lemma file_lines_exist file : exists ls, file_lines file ls.
Proof.
  induction file as [|c file (ls & H)]; [exists []; apply (Complete []); intros l []|].
  destruct (ascii_dec c NL) as [->|Hc].
  - exists ([] :: ls). destruct H as [ls H|ls l H Hl Hn].
    + apply (Complete ([] :: ls)). intros x [<-|Hx]; [intros []|auto].
    + apply (Unfinished ([] :: ls) l); [|assumption|assumption]. intros x [<-|Hx]; [intros []|auto].
  - destruct H as [[|l0 ls] H|[|l0 ls] l H Hl Hn].
    + exists [[c]]. apply (Unfinished [] [c]); [intros x []| |discriminate]. intros [G|[]]. exact (Hc G).
    + exists ((c :: l0) :: ls). apply (Complete ((c :: l0) :: ls)). intros x [<-|Hx]; [|apply H; right; exact Hx].
      intros [G|G]; [exact (Hc G)|]. exact (H l0 (or_introl eq_refl) G).
    + exists [c :: l]. apply (Unfinished [] (c :: l)); [intros x []| |discriminate]. intros [G|G]; [exact (Hc G)|auto].
    + exists ((c :: l0) :: ls ++ [l]). apply (Unfinished ((c :: l0) :: ls) l); [|assumption|assumption].
      intros x [<-|Hx]; [|apply H; right; exact Hx]. intros [G|G]; [exact (Hc G)|]. exact (H l0 (or_introl eq_refl) G).
Qed.
Lemma file_chunks ls rest : forall s, (forall l, In l ls -> ~ In NL l) -> (forall l, In l ls -> (List.length l <= 198)%nat) ->
  fold_left parse_line (fgets_chunks 199 [] (with_newlines ls ++ rest)) s =
  fold_left parse_line (fgets_chunks 199 [] rest) (fold_left parse_line ls s).
Proof.
  induction ls as [|l ls IH]; intros s H1 H2; [reflexivity|]. unfold with_newlines. cbn [map List.concat]. rewrite <- !app_assoc. cbn [app].
  change (ascii_of_nat 10) with NL.
  rewrite fgets_line; [|apply H1; left; reflexivity|specialize (H2 l (or_introl eq_refl)); lia]. cbn [rev app fold_left].
  rewrite parse_line_nl. apply IH; intros x Hx; [apply H1|apply H2]; right; exact Hx.
Qed.
Lemma serial_lines file ls : file_lines file ls -> (forall l, In l ls -> (List.length l <= 198)%nat) -> ini_parse file = parse_lines ls.
Proof.
  unfold ini_parse, parse_lines. change (MAX_LINE - 1)%nat with 199%nat. intros [ls0 H|ls0 l H Hl Hn] Hs.
  - rewrite <- (app_nil_r (with_newlines ls0)), file_chunks by assumption. reflexivity.
  - rewrite file_chunks; [|exact H|intros x Hx; apply Hs, in_or_app; auto]. rewrite fold_left_app.
    specialize (Hs l ltac:(apply in_or_app; right; left; reflexivity)).
    rewrite (fgets_last l 199 []); [reflexivity|exact Hl|lia|exact Hn].
Qed.
Lemma same_parse file ls : file_lines file ls -> (forall l, In l ls -> (List.length l <= 198)%nat) -> ini_parse file = ini_parse_buffer file.
Proof. intros H Hs. rewrite (serial_lines file ls H Hs). unfold ini_parse_buffer. rewrite (buffer_lines file ls H). reflexivity. Qed.

(** ** Replacing and dropping lines *)
Lemma line_weaken l it : line_is true l it -> (forall v, it <> Continue v) -> forall after, line_is after l it.
Proof.
  intros H Hc after. assert (W : forall w : text, true = false \/ w = [] -> after = false \/ w = []) by (intros w [G|G]; [discriminate|auto]).
  destruct H; [|exfalso; eapply Hc; reflexivity|..]; [constructor; auto|apply LComment|eapply LHeading|apply LBadHeading|apply LAssign|apply LBadLine]; eauto.
Qed.
(** Everything but the line number and the error. *)
Definition same_state (s s' : pst) : Prop := section s = section s' /\ prev_name s = prev_name s' /\ calls s = calls s'.
Lemma same_state_line s s' l : same_state s s' -> same_state (parse_line s l) (parse_line s' l).
Proof.
  destruct s as [a b n e cs], s' as [a' b' n' e' cs']. intros (H1 & H2 & H3). cbn [section prev_name calls] in *. subst a' b' cs'.
  unfold parse_line. cbn [section prev_name lineno error calls].
  repeat match goal with
  | |- context [if ?x then _ else _] => destruct x
  | |- context [match ?x with [] => _ | _ :: _ => _ end] => destruct x
  | |- context [match ?x with (_, _) => _ end] => destruct x
  end; repeat split.
Qed.
Lemma same_state_lines ls : forall s s', same_state s s' -> same_state (fold_left parse_line ls s) (fold_left parse_line ls s').
Proof. induction ls as [|l ls IH]; intros s s' H; [exact H|]. apply IH, same_state_line, H. Qed.
Lemma drop_line ls1 l ls2 : ~ In NUL l -> line_is true l Nothing \/ line_is true l Malformed ->
  calls (parse_lines (ls1 ++ l :: ls2)) = calls (parse_lines (ls1 ++ ls2)).
Proof.
  intros Hn H. unfold parse_lines. rewrite !fold_left_app. cbn [fold_left].
  set (s := fold_left parse_line ls1 pst0). assert (Q : same_state (parse_line s l) s); [|exact (proj2 (proj2 (same_state_lines ls2 _ _ Q)))]. destruct H as [H|H].
  - rewrite (line_correct s l Nothing Hn (line_weaken _ _ H ltac:(discriminate) _)). repeat split.
  - rewrite (line_correct s l Malformed Hn (line_weaken _ _ H ltac:(discriminate) _)). repeat split.
Qed.
Lemma replace_line ls1 l l' ls2 it : ~ In NUL l -> ~ In NUL l' -> (forall v, it <> Continue v) -> line_is true l it -> line_is true l' it ->
  parse_lines (ls1 ++ l :: ls2) = parse_lines (ls1 ++ l' :: ls2).
Proof.
  intros Hn Hn' Hc H H'. unfold parse_lines. rewrite !fold_left_app. cbn [fold_left]. f_equal.
  rewrite (line_correct _ l it Hn (line_weaken _ _ H Hc _)), (line_correct _ l' it Hn' (line_weaken _ _ H' Hc _)). reflexivity.
Qed.
