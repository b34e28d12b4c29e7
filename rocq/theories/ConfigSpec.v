(** Specification of the parameter file format and of the typed values,
    independent of the parser in ConfigModel.v (only the types of texts and maps
    are shared). *)
From Coq Require Import ZArith List Bool Ascii String.
From Verif Require Import ConfigModel.
Import ListNotations.
Open Scope Z_scope.

(** ** Characters *)
Definition space (c : ascii) : Prop := In (nat_of_ascii c) [9; 10; 11; 12; 13; 32]%nat.
Definition blank (w : text) : Prop := Forall space w.
Definition upper_letters : text := lit_text "ABCDEFGHIJKLMNOPQRSTUVWXYZ".
Definition lower_letters : text := lit_text "abcdefghijklmnopqrstuvwxyz".
(** Equal up to letter case. *)
Definition same_char (c d : ascii) : Prop :=
  c = d \/ exists n, nth_error upper_letters n = Some c /\ nth_error lower_letters n = Some d
                  \/ nth_error upper_letters n = Some d /\ nth_error lower_letters n = Some c.
Definition same_name (a b : text) : Prop := Forall2 same_char a b.

(** No white space at either end. *)
Definition trimmed (t : text) : Prop :=
  (forall c t', t = c :: t' -> ~ space c) /\ (forall c t', t = t' ++ [c] -> ~ space c).
(** A comment starts inside the text: a semicolon after white space. *)
Definition has_comment (t : text) : Prop := exists a c b, t = a ++ c :: ";"%char :: b /\ space c.
Definition starts_with (cs : text) (t : text) : Prop := exists c t', t = c :: t' /\ In c cs.

(** ** Lines *)
Inductive item :=
| Nothing
| Malformed
| Heading (name : text)
| Assign (name value : text)
| Continue (value : text).

(** What a line says.  [after]: the line comes after an assignment of the same
    section, so that an indented line continues it.
    Section names are taken literally between the brackets.  A value ends
    before a comment, which is a semicolon after white space; it has no white
    space at its ends. *)
Definition closed_by (stop : ascii) (t n r : text) : Prop := t = n ++ stop :: r /\ ~ In stop n /\ ~ has_comment n.
Inductive line_is (after : bool) : text -> item -> Prop :=
| LBlank w : blank w -> line_is after w Nothing
| LContinue w t w' : after = true -> blank w -> w <> [] -> trimmed t -> t <> [] -> blank w' ->
    line_is after (w ++ t ++ w') (Continue t)
| LComment w t : after = false \/ w = [] -> blank w -> starts_with (lit_text ";#") t -> line_is after (w ++ t) Nothing
| LHeading w t n r : after = false \/ w = [] -> blank w -> closed_by "]" t n r -> line_is after (w ++ "["%char :: t) (Heading n)
| LBadHeading w t : after = false \/ w = [] -> blank w -> ~ (exists n r, closed_by "]" t n r) ->
    line_is after (w ++ "["%char :: t) Malformed
| LAssign w name w1 w2 value tail : after = false \/ w = [] -> blank w ->
    trimmed name -> ~ In "="%char name -> ~ has_comment name -> ~ starts_with (lit_text ";#[") name ->
    blank w1 -> (name = [] -> w1 = []) -> blank w2 ->
    trimmed value -> ~ has_comment value ->
    blank tail \/ (value <> [] /\ exists w3 c, tail = w3 ++ ";"%char :: c /\ blank w3 /\ w3 <> []) ->
    line_is after (w ++ name ++ w1 ++ "="%char :: w2 ++ value ++ tail) (Assign name value)
| LBadLine w c t : after = false \/ w = [] -> blank w -> ~ space c -> ~ In c (lit_text ";#[") ->
    ~ (exists n r, closed_by "=" (c :: t) n r) -> line_is after (w ++ c :: t) Malformed.

(** ** Files *)
(** [reads sec key n ls out bad]: reading the lines [ls], the first of which has
    number [n], within section [sec] and after an assignment of [key] (empty:
    none) gives the assignments [out] in file order; [bad] is the number of the
    first malformed line, 0 if there is none.  Section names and the keys of
    continued assignments are cut after 49 characters. *)
Inductive reads : text -> text -> Z -> list text -> list call -> Z -> Prop :=
| RNil s k n : reads s k n [] [] 0
| RNothing s k n l ls out b : line_is (negb (text_eqb k [])) l Nothing ->
    reads s k (n + 1) ls out b -> reads s k n (l :: ls) out b
| RMalformed s k n l ls out b : line_is (negb (text_eqb k [])) l Malformed ->
    reads s k (n + 1) ls out b -> reads s k n (l :: ls) out n
| RHeading s k n l ls out b h : line_is (negb (text_eqb k [])) l (Heading h) ->
    reads (firstn 49 h) [] (n + 1) ls out b -> reads s k n (l :: ls) out b
| RAssign s k n l ls out b nm v : line_is (negb (text_eqb k [])) l (Assign nm v) ->
    reads s (firstn 49 nm) (n + 1) ls out b -> reads s k n (l :: ls) ((s, nm, v) :: out) b
| RContinue s k n l ls out b v : line_is (negb (text_eqb k [])) l (Continue v) ->
    reads s k (n + 1) ls out b -> reads s k n (l :: ls) ((s, k, v) :: out) b.

(** The lines of a file; the last one may lack its newline. *)
Definition with_newlines (ls : list text) : text := List.concat (map (fun l => l ++ [ascii_of_nat 10]) ls).
Inductive file_lines : text -> list text -> Prop :=
| Complete ls : (forall l, In l ls -> ~ In (ascii_of_nat 10) l) -> file_lines (with_newlines ls) ls
| Unfinished ls l : (forall l, In l ls -> ~ In (ascii_of_nat 10) l) -> ~ In (ascii_of_nat 10) l -> l <> [] ->
    file_lines (with_newlines ls ++ l) (ls ++ [l]).

(** ** Lookups *)
(** [answer l sec key def v]: [v] is the value of the last of the assignments
    [l] (in file order) to this section and key, or [def] if there is none. *)
Definition assigns (sec key : text) (a : call) : Prop :=
  let '(s, n, _) := a in same_name s sec /\ same_name n key.
Inductive answer (l : list call) (sec key def : text) : text -> Prop :=
| Found l1 s n v l2 : l = l1 ++ (s, n, v) :: l2 -> assigns sec key (s, n, v) ->
    (forall a, In a l2 -> ~ assigns sec key a) -> answer l sec key def v
| Missing : (forall a, In a l -> ~ assigns sec key a) -> answer l sec key def def.

(** ** Integers *)
Definition digit_char (base : Z) (c : ascii) (d : Z) : Prop :=
  0 <= d < base /\ (nth_error (lit_text "0123456789abcdef") (Z.to_nat d) = Some c \/
                    nth_error (lit_text "0123456789ABCDEF") (Z.to_nat d) = Some c).
Inductive digits (base : Z) : text -> Z -> Prop :=
| DOne c d : digit_char base c d -> digits base [c] d
| DMore t v c d : digits base t v -> digit_char base c d -> digits base (t ++ [c]) (v * base + d).
Definition no_digit (base : Z) (r : text) : Prop := forall c r' d, r = c :: r' -> ~ digit_char base c d.
(** The text [t], followed by [r], is an unsigned integer with value [v]; it
    cannot be made longer. *)
Inductive unsigned_int : text -> text -> Z -> Prop :=
| UDec t r v : digits 10 t v -> ~ starts_with (lit_text "0") t -> no_digit 10 r -> unsigned_int t r v
| UHex x t r v : In x (lit_text "xX") -> digits 16 t v -> no_digit 16 r -> unsigned_int ("0"%char :: x :: t) r v
| UOct t r v : digits 8 ("0"%char :: t) v -> no_digit 8 r ->
    (t = [] -> ~ exists x c d r', r = x :: c :: r' /\ In x (lit_text "xX") /\ digit_char 16 c d) ->
    unsigned_int ("0"%char :: t) r v.
(** The text begins with an integer of value [z]. *)
Inductive leading_int : text -> Z -> Prop :=
| LeadPos w t r v : blank w -> unsigned_int t r v -> leading_int (w ++ t ++ r) v
| LeadPlus w t r v : blank w -> unsigned_int t r v -> leading_int (w ++ "+"%char :: t ++ r) v
| LeadMinus w t r v : blank w -> unsigned_int t r v -> leading_int (w ++ "-"%char :: t ++ r) (- v).
Definition is_long (z : Z) : Prop := - 2 ^ 63 <= z < 2 ^ 63.
(** The nearest long. *)
Definition nearest_long (z n : Z) : Prop :=
  is_long n /\ (is_long z -> n = z) /\ (z < - 2 ^ 63 -> n = - 2 ^ 63) /\ (2 ^ 63 <= z -> n = 2 ^ 63 - 1).
