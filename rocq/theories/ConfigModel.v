(** Reading of the parameter file: src/utils/config/inih/ini.cpp, INIReader.cpp
    and src/utils/config/ConfigMap.cpp.

    A string is a list of characters.  The C code works in place on
    zero-terminated buffers; here every pointer into the line buffer is the list
    of characters from that position up to the terminating zero.  Character
    classes are those of the C locale (main never calls setlocale). *)
From Coq Require Import ZArith List Bool Ascii String.
Import ListNotations.
Open Scope Z_scope.

Definition text := list ascii.
Definition lit_text (s : string) : text := list_ascii_of_string s.

Definition code (c : ascii) : Z := Z.of_nat (nat_of_ascii c).
(** isspace: \t \n \v \f \r and space. *)
Definition isspace (c : ascii) : bool := ((9 <=? code c) && (code c <=? 13)) || (code c =? 32).
(** tolower *)
Definition tolower (c : ascii) : ascii :=
  if (65 <=? code c) && (code c <=? 90) then ascii_of_nat (nat_of_ascii c + 32) else c.

Definition NUL : ascii := ascii_of_nat 0.
Definition NL : ascii := ascii_of_nat 10.
Definition is (c d : ascii) : bool := Ascii.eqb c d.

(** The C string stored in a buffer: the characters before the first zero. *)
Fixpoint cstr (s : text) : text :=
  match s with [] => [] | c :: t => if is c NUL then [] else c :: cstr t end.

(** rstrip, ini.cpp:25-33. *)
Fixpoint rstrip (s : text) : text :=
  match s with
  | [] => []
  | c :: t => match rstrip t with [] => if isspace c then [] else [c] | t' => c :: t' end
  end.
(** lskip, ini.cpp:35-42. *)
Fixpoint lskip (s : text) : text :=
  match s with [] => [] | c :: t => if isspace c then lskip t else s end.
(** find_char_or_comment, ini.cpp:44-57: the characters passed over, and the
    string at the position found.  [stop] is the character looked for; the zero
    character is represented by [None]. *)
Fixpoint find_from (was_ws : bool) (stop : option ascii) (s : text) : text * text :=
  match s with
  | [] => ([], [])
  | c :: t =>
      if (match stop with Some d => is c d | None => false end) || (was_ws && is c ";")
      then ([], s)
      else let '(a, b) := find_from (isspace c) stop t in (c :: a, b)
  end.
Definition find_char_or_comment (s : text) (stop : option ascii) : text * text := find_from false stop s.
(** strncpy0, ini.cpp:59-69. *)
Definition strncpy0 (src : text) (size : nat) : text := firstn (size - 1) src.

(** Variables of the parsing loop: section, prev_name, lineno, error
    (ini.cpp:79-92), and the calls of the handler so far, most recent first:
    (section, name, value). *)
Definition call := (text * text * text)%type.
Record pst := PSt { section : text; prev_name : text; lineno : Z; error : Z; calls : list call }.
Definition pst0 : pst := PSt [] [] 0 0 [].

Definition MAX_LINE : nat := 200.
Definition MAX_SECTION : nat := 50.
Definition MAX_NAME : nat := 50.

(** [if (!error) error = lineno;] *)
Definition note_error (s : pst) : pst :=
  PSt (section s) (prev_name s) (lineno s) (if error s =? 0 then lineno s else error s) (calls s).
(** The handler INIReader::valueHandler always returns 1 (INIReader.cpp:110-117),
    so it never sets the error. *)
Definition handle (s : pst) (name value : text) : pst :=
  PSt (section s) (prev_name s) (lineno s) (error s) ((section s, name, value) :: calls s).

(** Body of the loop, ini.cpp:99-155 (file) and 192-254 (buffer): the two texts
    are identical.  INI_ALLOW_MULTILINE is 1 (ini.h:51-53). *)
Definition parse_line (s : pst) (buf : text) : pst :=
  let s := PSt (section s) (prev_name s) (lineno s + 1) (error s) (calls s) in
  let line := rstrip (cstr buf) in
  let start := lskip line in
  if negb (Nat.eqb (List.length (prev_name s)) 0) && negb (Nat.eqb (List.length start) 0)
     && Nat.ltb (List.length start) (List.length line)
  then handle s (prev_name s) start
  else match start with
  | [] => s
  | c :: rest =>
    if is c ";" || is c "#" then s
    else if is c "[" then
      match find_char_or_comment rest (Some "]"%char) with
      | (name, d :: _) => if is d "]" then PSt (strncpy0 name MAX_SECTION) [] (lineno s) (error s) (calls s) else note_error s
      | (_, []) => note_error s
      end
    else
      match find_char_or_comment start (Some "="%char) with
      | (n, d :: v) =>
        if is d "=" then
          let name := rstrip n in
          let value := rstrip (fst (find_char_or_comment (lskip v) None)) in
          handle (PSt (section s) (strncpy0 name MAX_NAME) (lineno s) (error s) (calls s)) name value
        else note_error s
      | (_, []) => note_error s
      end
  end.
Definition parse_lines (ls : list text) : pst := fold_left parse_line ls pst0.

(** fgets(line, sizeof(line), file): at most MAX_LINE - 1 characters, up to and
    including a newline.  [room] characters are still free in the buffer. *)
Fixpoint fgets_chunks (room : nat) (acc : text) (s : text) : list text :=
  match s with
  | [] => match acc with [] => [] | _ => [rev acc] end
  | c :: t =>
      if is c NL then rev (c :: acc) :: fgets_chunks (MAX_LINE - 1) [] t
      else match room with
           | S (S r) => fgets_chunks (S r) (c :: acc) t
           | _ => rev (c :: acc) :: fgets_chunks (MAX_LINE - 1) [] t
           end
  end.
(** std::getline: up to a newline, which is removed. *)
Fixpoint getlines (acc : text) (s : text) : list text :=
  match s with
  | [] => match acc with [] => [] | _ => [rev acc] end
  | c :: t => if is c NL then rev acc :: getlines [] t else getlines (c :: acc) t
  end.
(** ini_parse (ini.cpp:74-162) on a file that can be opened, and
    ini_parse_buffer (167-261), called in MPI builds with the whole file in
    memory (ConfigMap.cpp:99-147).  The latter sets the buffer of a string stream
    with pubsetbuf, whose effect is implementation defined; as in libstdc++ the
    stream then reads the buffer. *)
Definition ini_parse (file : text) : pst := parse_lines (fgets_chunks (MAX_LINE - 1) [] file).
Definition ini_parse_buffer (file : text) : pst := parse_lines (getlines [] file).

(** ** The key-value map *)
(** std::map<string,string> as a function. *)
Definition cmap := text -> option text.
Definition text_eqb (a b : text) : bool := if list_eq_dec ascii_dec a b then true else false.
Definition store_value (m : cmap) (key value : text) : cmap := fun k => if text_eqb k key then Some value else m k.

(** INIReader::makeKey, INIReader.cpp:96-105. *)
Definition makeKey (sec name : text) : text := map tolower (sec ++ "."%char :: name).
(** The constructors, INIReader.cpp:17-27, with valueHandler 109-117. *)
Definition values_of (cs : list call) : cmap :=
  fold_right (fun '(s, n, v) m => store_value m (makeKey s n) v) (fun _ => None) cs.
Definition read_file (file : text) : cmap * Z := let s := ini_parse file in (values_of (calls s), error s).
Definition read_buffer (file : text) : cmap * Z := let s := ini_parse_buffer file in (values_of (calls s), error s).

(** getString, setString: INIReader.cpp:43-58. *)
Definition getString (m : cmap) (sec name def : text) : text :=
  match m (makeKey sec name) with Some v => v | None => def end.
Definition setString (m : cmap) (sec name value : text) : cmap := store_value m (makeKey sec name) value.

(** strtol(value, &end, 0) of the C library (ISO C 7.22.1.4): white space, sign,
    0x prefix if followed by a hexadecimal digit, 0 for octal; the longest
    sequence of digits; saturation at the limits of a 64-bit long.  [None] when
    no conversion is possible (end = value). *)
Definition digit (c : ascii) : option Z :=
  let n := code (tolower c) in
  if (48 <=? n) && (n <=? 57) then Some (n - 48)
  else if (97 <=? n) && (n <=? 102) then Some (n - 87) else None.
Definition digit_in (base : Z) (c : ascii) : option Z :=
  match digit c with Some d => if d <? base then Some d else None | None => None end.
Fixpoint digits_from (base acc : Z) (s : text) : Z :=
  match s with
  | [] => acc
  | c :: t => match digit_in base c with Some d => digits_from base (acc * base + d) t | None => acc end
  end.
Definition LONG_MAX : Z := 9223372036854775807.
Definition clamp_long (z : Z) : Z := Z.max (- LONG_MAX - 1) (Z.min LONG_MAX z).
Definition strtol_abs (s : text) : option Z :=
  match s with
  | [] => None
  | c :: t =>
      if is c "0" then
        match t with
        | x :: d :: _ =>
            if is (tolower x) "x" && (match digit_in 16 d with Some _ => true | None => false end)
            then Some (digits_from 16 0 (tl t)) else Some (digits_from 8 0 s)
        | _ => Some (digits_from 8 0 s)
        end
      else match digit_in 10 c with Some _ => Some (digits_from 10 0 s) | None => None end
  end.
Definition strtol (s : text) : option Z :=
  match lskip s with
  | c :: t => if is c "-" then option_map (fun z => clamp_long (- z)) (strtol_abs t)
              else if is c "+" then option_map clamp_long (strtol_abs t)
              else option_map clamp_long (strtol_abs (c :: t))
  | [] => None
  end.
(** getInteger, INIReader.cpp:61-71; valstr.c_str() ends at the first zero. *)
Definition getInteger (m : cmap) (sec name : text) (def : Z) : Z :=
  match strtol (cstr (getString m sec name [])) with Some n => n | None => def end.
(** Output of a long to a stream (decimal), as in setInteger, INIReader.cpp:73-82. *)
Definition decimal_digit (d : Z) : ascii := ascii_of_nat (48 + Z.to_nat d).
Fixpoint decimal_rec (fuel : nat) (n : Z) (acc : text) : text :=
  match fuel with
  | O => acc
  | S f => let acc := decimal_digit (n mod 10) :: acc in if n <? 10 then acc else decimal_rec f (n / 10) acc
  end.
(** 20 digits are enough for a 64-bit long. *)
Definition decimal (z : Z) : text :=
  if z <? 0 then "-"%char :: decimal_rec 20 (- z) [] else decimal_rec 20 z [].
Definition setInteger (m : cmap) (sec name : text) (z : Z) : cmap := setString m sec name (decimal z).

(** getBool, setBool: ConfigMap.cpp:60-95. *)
Definition getBool (m : cmap) (sec name : text) (def : bool) : bool :=
  let v := getString m sec name [] in
  let cmp (s : string) := text_eqb v (lit_text s) in
  let val := if cmp "1"%string || cmp "yes"%string || cmp "true"%string || cmp "on"%string then true else def in
  let val := if cmp "0"%string || cmp "no"%string || cmp "false"%string || cmp "off"%string then false else val in
  match v with [] => def | _ => val end.
Definition setBool (m : cmap) (sec name : text) (b : bool) : cmap :=
  setString m sec name (lit_text (if b then "true" else "false")).
