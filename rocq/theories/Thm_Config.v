(** Theorems about the parameter file (properties C01-C06). *)
From Coq Require Import ZArith List Bool Ascii String Lia.
From Verif Require Import ConfigModel ConfigSpec ConfigProofs ConfigValues.
Import ListNotations.
Open Scope Z_scope.

Definition T (s : string) : text := lit_text s.

(** ** C04: the parser *)
(** Reading a file gives exactly the assignments of the specification [reads],
    and the number of the first malformed line.  Lines of at most 198
    characters; see C05 for longer ones. *)
Theorem C04_file : forall file ls out bad, file_lines file ls -> (forall l, In l ls -> (List.length l <= 198)%nat) ->
  (forall l, In l ls -> ~ In (ascii_of_nat 0) l) -> reads [] [] 1 ls out bad ->
  rev (calls (ini_parse file)) = out /\ snd (read_file file) = bad.
Proof.
  intros file ls out bad Hl Hs Hn Hr. unfold read_file. cbn [snd]. rewrite (serial_lines file ls Hl Hs). apply parse_reads; assumption.
Qed.
Print Assumptions C04_file.
(** The specification covers every file. *)
Theorem C04_every_file : forall file, exists ls out bad, file_lines file ls /\ reads [] [] 1 ls out bad.
Proof.
  intros file. destruct (file_lines_exist file) as (ls & H). destruct (reads_total ls [] [] 1) as (out & b & R). eauto 6.
Qed.
Print Assumptions C04_every_file.
(** The in-memory parser of MPI builds, without restriction on the lengths. *)
Theorem C04_buffer : forall file ls out bad, file_lines file ls ->
  (forall l, In l ls -> ~ In (ascii_of_nat 0) l) -> reads [] [] 1 ls out bad ->
  rev (calls (ini_parse_buffer file)) = out /\ snd (read_buffer file) = bad.
Proof.
  intros file ls out bad Hl Hn Hr. unfold read_buffer, ini_parse_buffer. cbn [snd]. rewrite (buffer_lines file ls Hl). apply parse_reads; assumption.
Qed.
Print Assumptions C04_buffer.
(** Blank lines, comment lines and malformed lines can be removed; lines that
    say the same with different white space can be exchanged. *)
Theorem C04_useless_lines : forall ls1 l ls2, ~ In (ascii_of_nat 0) l ->
  blank l \/ starts_with (T ";#") l \/ line_is true l Malformed ->
  calls (parse_lines (ls1 ++ l :: ls2)) = calls (parse_lines (ls1 ++ ls2)).
Proof.
  intros ls1 l ls2 Hn H. apply drop_line; [exact Hn|]. destruct H as [H|[H|H]]; [left; constructor; exact H| |right; exact H].
  left. apply (LComment true []); [right; reflexivity|constructor|exact H].
Qed.
Print Assumptions C04_useless_lines.
Theorem C04_spacing : forall ls1 ls2 name w1 w2 value tail w1' w2' tail',
  let line w1 w2 tail := name ++ w1 ++ "="%char :: w2 ++ value ++ tail in
  ~ In (ascii_of_nat 0) (line w1 w2 tail) -> ~ In (ascii_of_nat 0) (line w1' w2' tail') ->
  trimmed name -> name <> [] -> ~ In "="%char name -> ~ has_comment name -> ~ starts_with (T ";#[") name ->
  trimmed value -> ~ has_comment value ->
  blank w1 -> blank w2 -> blank tail -> blank w1' -> blank w2' -> blank tail' ->
  parse_lines (ls1 ++ line w1 w2 tail :: ls2) = parse_lines (ls1 ++ line w1' w2' tail' :: ls2).
Proof.
  intros ls1 ls2 name w1 w2 value tail w1' w2' tail' line H1 H2 Hn Hne He Hc Hs Hv Hvc B1 B2 B3 B4 B5 B6.
  apply (replace_line ls1 _ _ ls2 (Assign name value)); auto; [discriminate| |].
  - apply (LAssign true [] name w1 w2 value tail); auto; [constructor|contradiction].
  - apply (LAssign true [] name w1' w2' value tail'); auto; [constructor|contradiction].
Qed.
Print Assumptions C04_spacing.
(** Not so for an indented comment after an assignment: it becomes the value. *)
Theorem C04_indented_comment_refuted : exists name value comment w,
  blank w /\ starts_with (T ";") comment /\
  let lines := [name ++ "="%char :: value; w ++ comment] in
  getString (values_of (calls (parse_lines lines))) [] name [] = comment /\ comment <> value.
Proof.
  exists (T "gamma0"), (T "1.4"), (T "; ratio of specific heats"), (T "  ").
  split; [repeat (apply Forall_cons; [apply space_isspace; reflexivity|]); apply Forall_nil|]. split; [eexists _, _; split; [reflexivity|left; reflexivity]|].
  split; [vm_compute; reflexivity|discriminate].
Qed.
Print Assumptions C04_indented_comment_refuted.
(** Not so for white space around a section name. *)
Theorem C04_section_space_refuted : exists sec key value def,
  getString (values_of (calls (parse_lines ["["%char :: T " " ++ sec ++ T " ]"; key ++ "="%char :: value]))) sec key def = def /\
  getString (values_of (calls (parse_lines ["["%char :: sec ++ T "]"; key ++ "="%char :: value]))) sec key def = value /\ value <> def.
Proof. exists (T "mesh"), (T "nx"), (T "256"), (T "1"). repeat split; try (vm_compute; reflexivity). discriminate. Qed.
Print Assumptions C04_section_space_refuted.

Definition NLs : text := [ascii_of_nat 10].
Definition demo_lines : list text :=
  [T "; a test"; T "[Mesh]"; T "nx = 44  ; cells"; T "ny=0x10"; T "  "; T "oops"; T "[hydro]"; T "cfl  = 0.8 "; T "problem=  sod tube "; T "GRAVITY=yes"].
Example C04_demo : file_lines (with_newlines demo_lines) demo_lines /\
  (forall l, In l demo_lines -> (List.length l <= 198)%nat) /\ (forall l, In l demo_lines -> ~ In (ascii_of_nat 0) l) /\
  exists out, reads [] [] 1 demo_lines out 6 /\
  out = [(T "Mesh", T "nx", T "44"); (T "Mesh", T "ny", T "0x10"); (T "hydro", T "cfl", T "0.8"); (T "hydro", T "problem", T "sod tube"); (T "hydro", T "GRAVITY", T "yes")].
Proof.
  split; [constructor; intros l H; repeat (destruct H as [<-|H]; [cbn; intuition discriminate|]); destruct H|].
  split; [intros l H; repeat (destruct H as [<-|H]; [cbn; lia|]); destruct H|].
  assert (Hn : forall l, In l demo_lines -> ~ In (ascii_of_nat 0) l).
  { intros l H; repeat (destruct H as [<-|H]; [cbn; intuition discriminate|]); destruct H. }
  split; [exact Hn|]. destruct (reads_total demo_lines [] [] 1) as (out & b & R).
  destruct (parse_reads demo_lines out b Hn R) as [E1 E2]. exists out.
  assert (Eb : b = 6) by (rewrite <- E2; vm_compute; reflexivity). split; [rewrite <- Eb; exact R|]. rewrite <- E1. vm_compute. reflexivity.
Qed.

(** ** C01: lookups *)
(** After reading any file whose section names contain no dot, a query gives the
    value of the last matching assignment, or the default. *)
Theorem C01_last_assignment_wins : forall file sec key def,
  let assignments := rev (calls (ini_parse file)) in
  (forall s n v, In (s, n, v) assignments -> ~ In "."%char s) -> ~ In "."%char sec ->
  answer assignments sec key def (getString (fst (read_file file)) sec key def).
Proof.
  intros file sec key def asg H1 H2. unfold read_file. cbn [fst]. apply values_answer; [|exact H2].
  intros s n v G. apply (H1 s n v). unfold asg. apply -> in_rev. exact G.
Qed.
Print Assumptions C01_last_assignment_wins.
(** The answer is determined by the assignments. *)
Theorem C01_answer_unique : forall l sec key def v v', answer l sec key def v -> answer l sec key def v' -> v = v'.
Proof.
  intros l sec key def v v' H H'.
  destruct H as [l1 s n v l2 E A N|N]; destruct H' as [l1' s' n' v' l2' E' A' N'|N'].
  - rewrite E in E'. apply app_eq_app in E'. destruct E' as (m & [[-> E']|[-> E']]).
    + destruct m as [|a m]; [injection E' as -> -> ->; reflexivity|]. injection E' as <- ->. exfalso.
      apply (N' (s, n, v)); [apply in_or_app; right; left; reflexivity|exact A].
    + destruct m as [|a m]; [injection E' as -> -> ->; reflexivity|]. injection E' as <- ->. exfalso.
      apply (N (s', n', v')); [apply in_or_app; right; left; reflexivity|exact A'].
  - exfalso. apply (N' (s, n, v)); [rewrite E; apply in_or_app; right; left; reflexivity|exact A].
  - exfalso. apply (N (s', n', v')); [rewrite E'; apply in_or_app; right; left; reflexivity|exact A'].
  - reflexivity.
Qed.
Print Assumptions C01_answer_unique.
(** Letter case never matters, with or without dots, whatever is stored. *)
Theorem C01_case : forall m sec key sec' key' def, same_name sec sec' -> same_name key key' ->
  getString m sec key def = getString m sec' key' def.
Proof. intros m sec key sec' key' def H1 H2. unfold getString. rewrite (key_same sec key sec' key' H1 H2). reflexivity. Qed.
Print Assumptions C01_case.
Example C01_demo :
  let file := with_newlines [T "[Mesh]"; T "nx=1"; T "[hydro]"; T "nx=3"; T "[MESH]"; T "NX=2"; T "nX=5"] in
  getString (fst (read_file file)) (T "mesh") (T "Nx") (T "0") = T "5" /\
  (forall s n v, In (s, n, v) (rev (calls (ini_parse file))) -> ~ In "."%char s) /\ same_name (T "mesh") (T "MeSH").
Proof.
  split; [vm_compute; reflexivity|]. split.
  - assert (E : rev (calls (ini_parse (with_newlines [T "[Mesh]"; T "nx=1"; T "[hydro]"; T "nx=3"; T "[MESH]"; T "NX=2"; T "nX=5"]))) =
      [(T "Mesh", T "nx", T "1"); (T "hydro", T "nx", T "3"); (T "MESH", T "NX", T "2"); (T "MESH", T "nX", T "5")]) by (vm_compute; reflexivity).
    rewrite E. intros s n v H. repeat (destruct H as [H|H]; [injection H as <- <- <-; cbn; intuition discriminate|]). destruct H.
  - apply same_name_lower. reflexivity.
Qed.

(** ** C02: set and get *)
Theorem C02_string : forall m sec key v def, getString (setString m sec key v) sec key def = v.
Proof. intros. unfold getString, setString. rewrite store_same. reflexivity. Qed.
Print Assumptions C02_string.
Theorem C02_integer : forall m sec key z def, is_long z -> getInteger (setInteger m sec key z) sec key def = z.
Proof.
  intros m sec key z def H. unfold getInteger, setInteger. rewrite C02_string.
  rewrite cstr_id by (apply decimal_no_nul; exact H). rewrite (strtol_leading _ z (decimal_leading z H)).
  destruct (clamp_nearest z) as (_ & E & _). apply E. exact H.
Qed.
Print Assumptions C02_integer.
Theorem C02_bool : forall m sec key b def, getBool (setBool m sec key b) sec key def = b.
Proof. intros m sec key b def. unfold getBool, setBool. rewrite C02_string. destruct b; reflexivity. Qed.
Print Assumptions C02_bool.
(** Other keys: anything that does not have the same normalised name. *)
Theorem C02_others : forall m sec key v sec' key', ~ In "."%char sec -> ~ In "."%char sec' ->
  ~ (same_name sec' sec /\ same_name key' key) ->
  forall def idef bdef,
  getString (setString m sec key v) sec' key' def = getString m sec' key' def /\
  getInteger (setString m sec key v) sec' key' idef = getInteger m sec' key' idef /\
  getBool (setString m sec key v) sec' key' bdef = getBool m sec' key' bdef.
Proof.
  intros m sec key v sec' key' H1 H2 Hd def idef bdef.
  assert (E : forall d, getString (setString m sec key v) sec' key' d = getString m sec' key' d).
  { intros d. unfold getString, setString. rewrite store_other; [reflexivity|]. intros E. apply Hd. apply key_eq; assumption. }
  unfold getInteger, getBool. rewrite !E. auto.
Qed.
Print Assumptions C02_others.
Example C02_demo : is_long (-9223372036854775808) /\ decimal (-9223372036854775808) = T "-9223372036854775808" /\ decimal 0 = T "0" /\
  getInteger (setInteger (fun _ => None) (T "mesh") (T "nx") (-1250)) (T "MESH") (T "nx") 7 = -1250.
Proof. split; [unfold is_long; lia|]. repeat split; vm_compute; reflexivity. Qed.

(** ** C03: no interference *)
Theorem C03_distinct : forall cs sec key sec' key' v def,
  ~ In "."%char sec -> ~ In "."%char sec' -> ~ (same_name sec' sec /\ same_name key' key) ->
  getString (values_of ((sec, key, v) :: cs)) sec' key' def = getString (values_of cs) sec' key' def.
Proof.
  intros cs sec key sec' key' v def H1 H2 Hd. apply (C02_others (values_of cs) sec key v sec' key' H1 H2 Hd def 0 true).
Qed.
Print Assumptions C03_distinct.
Theorem C03_dot_refuted : exists sec key sec' key' v v' def,
  ~ (same_name sec' sec /\ same_name key' key) /\
  let file := with_newlines ["["%char :: sec ++ T "]"; key ++ "="%char :: v; "["%char :: sec' ++ T "]"; key' ++ "="%char :: v'] in
  getString (fst (read_file file)) sec key def = v' /\ v' <> v.
Proof.
  exists (T "output"), (T "vtk.enabled"), (T "output.vtk"), (T "enabled"), (T "no"), (T "yes"), (T "").
  split; [intros [H _]; apply same_name_lower in H; discriminate|]. split; [vm_compute; reflexivity|discriminate].
Qed.
Print Assumptions C03_dot_refuted.
Example C03_hypotheses_hold : ~ In "."%char (T "mesh") /\ ~ (same_name (T "mesh") (T "mesh") /\ same_name (T "nx") (T "ny")).
Proof.
  split; [cbn; intuition discriminate|]. intros [_ H]. apply same_name_lower in H. discriminate.
Qed.

(** ** C05: serial and MPI builds *)
Theorem C05_same_configuration : forall file ls, file_lines file ls -> (forall l, In l ls -> (List.length l <= 198)%nat) ->
  read_file file = read_buffer file /\ calls (ini_parse file) = calls (ini_parse_buffer file).
Proof. intros file ls H Hs. unfold read_file, read_buffer. rewrite (same_parse file ls H Hs). auto. Qed.
Print Assumptions C05_same_configuration.
(** A long comment can set a parameter in the serial build only. *)
Theorem C05_long_comment_refuted : exists file sec key, starts_with (T ";") file /\ (forall c, In c file -> c <> ascii_of_nat 10) /\
  getString (fst (read_file file)) sec key (T "none") = T "7" /\ getString (fst (read_buffer file)) sec key (T "none") = T "none".
Proof.
  exists (";"%char :: repeat "-"%char 198 ++ T "nx=7"), [], (T "nx").
  split; [eexists _, _; split; [reflexivity|left; reflexivity]|].
  split; [|split; vm_compute; reflexivity]. intros c [<-|H]; [discriminate|]. apply in_app_or in H. destruct H as [H|H].
  - apply repeat_spec in H. subst. discriminate.
  - cbn in H. intros ->. intuition discriminate.
Qed.
Print Assumptions C05_long_comment_refuted.
(** A long value is cut and reported as an error in the serial build only. *)
Theorem C05_long_value_refuted : exists file, snd (read_buffer file) = 0 /\ snd (read_file file) = 2 /\
  getString (fst (read_file file)) [] (T "a") [] <> getString (fst (read_buffer file)) [] (T "a") [].
Proof. exists (T "a=" ++ repeat "x"%char 250). repeat split; vm_compute; try reflexivity. discriminate. Qed.
Print Assumptions C05_long_value_refuted.
Example C05_hypotheses_hold : file_lines (with_newlines demo_lines) demo_lines /\ (forall l, In l demo_lines -> (List.length l <= 198)%nat).
Proof. split; apply C04_demo. Qed.

(** ** C06: typed getters *)
Theorem C06_integer : forall m sec key def, let v := getString m sec key [] in ~ In (ascii_of_nat 0) v ->
  (forall z, leading_int v z -> nearest_long z (getInteger m sec key def)) /\
  ((forall z, ~ leading_int v z) -> getInteger m sec key def = def).
Proof.
  intros m sec key def v Hn. unfold getInteger. fold v. rewrite (cstr_id v Hn). split.
  - intros z H. rewrite (strtol_leading v z H). apply clamp_nearest.
  - intros H. destruct (strtol v) as [n|] eqn:E; [|reflexivity]. apply leading_strtol in E. destruct E as (z & L & _). exfalso. exact (H z L).
Qed.
Print Assumptions C06_integer.
Theorem C06_bool : forall m sec key def, let v := getString m sec key [] in
  (In v (map T ["1"; "yes"; "true"; "on"]%string) -> getBool m sec key def = true) /\
  (In v (map T ["0"; "no"; "false"; "off"]%string) -> getBool m sec key def = false) /\
  (~ In v (map T ["1"; "yes"; "true"; "on"; "0"; "no"; "false"; "off"]%string) -> getBool m sec key def = def).
Proof.
  intros m sec key def v. unfold getBool. fold v.
  split; [intros H; repeat (destruct H as [<-|H]; [reflexivity|]); destruct H|].
  split; [intros H; repeat (destruct H as [<-|H]; [reflexivity|]); destruct H|].
  intros H. assert (N : forall s, In s ["1"; "yes"; "true"; "on"; "0"; "no"; "false"; "off"]%string -> text_eqb v (lit_text s) = false).
  { intros s Hs. destruct (text_eqb v (lit_text s)) eqn:E; [|reflexivity]. exfalso. apply H. apply text_eqb_true in E. rewrite E.
    apply (in_map T). exact Hs. }
  rewrite !N by (cbn; auto 12). destruct v; reflexivity.
Qed.
Print Assumptions C06_bool.
Example C06_demo : leading_int (T " -0x1Fz") (-31) /\ leading_int (T "017") 15 /\ leading_int (T "0x") 0 /\ leading_int (T "12.5") 12 /\
  (forall z, ~ leading_int (T "abc") z) /\ (forall z, ~ leading_int (T "") z) /\ (forall z, ~ leading_int (T "- 3") z).
Proof.
  assert (P : forall s n, - 1000 < n < 1000 -> strtol (T s) = Some n -> leading_int (T s) n).
  { intros s n Hb H. apply leading_strtol in H. destruct H as (z & L & E). replace n with z; [exact L|].
    unfold clamp_long, LONG_MAX in E. lia. }
  assert (N : forall s, strtol (T s) = None -> forall z, ~ leading_int (T s) z).
  { intros s H z L. apply strtol_leading in L. congruence. }
  repeat split; try (apply P; [lia|reflexivity]); apply N; reflexivity.
Qed.
