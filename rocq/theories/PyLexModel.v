(** A tokenizer for Python's expression syntax in ASCII, as an instance of the tokenizers the other files are
    parametrised by.  This is Python's [tokenize], not patsy code; it covers names, numbers (of which it does not check
    that they are well-formed), strings with prefixes, escapes and three quotes, operators and brackets, and blanks
    between them.  f-strings are single tokens, as before Python 3.12. *)
From Coq Require Import Ascii.
From Verif Require Import Base TokensModel.
Open Scope string_scope.
Open Scope list_scope.

Definition in_range (lo hi c : ascii) : bool := (N_of_ascii lo <=? N_of_ascii c)%N && (N_of_ascii c <=? N_of_ascii hi)%N.
Definition is_digit (c : ascii) : bool := in_range "0" "9" c.
Definition is_letter (c : ascii) : bool := in_range "a" "z" c || in_range "A" "Z" c || Ascii.eqb c "_".
Definition name_char (c : ascii) : bool := is_letter c || is_digit c.
Definition number_char (c : ascii) : bool := name_char c || Ascii.eqb c ".".
Definition is_quote (c : ascii) : bool := Ascii.eqb c "'" || Ascii.eqb c """".
Definition is_backslash (c : ascii) : bool := Ascii.eqb c "\".
(** Blank, tab and form feed. *)
Definition is_blank (c : ascii) : bool := existsb (Ascii.eqb c) [" "; "009"; "012"]%char.
Definition is_e (c : ascii) : bool := Ascii.eqb c "e" || Ascii.eqb c "E".
Definition is_sign (c : ascii) : bool := Ascii.eqb c "+" || Ascii.eqb c "-".
Definition first_is (f : ascii -> bool) (s : string) : bool := match s with String c _ => f c | EmptyString => false end.

(** The operators of Python, longer ones first. *)
Definition operators : list string :=
  ["..."; "**="; "//="; "<<="; ">>=";
   "**"; "//"; "<<"; ">>"; "<="; ">="; "=="; "!="; "->"; ":="; "+="; "-="; "*="; "/="; "%="; "@="; "&="; "|="; "^=";
   "+"; "-"; "*"; "/"; "%"; "@"; "&"; "|"; "^"; "~"; "<"; ">"; "("; ")"; "["; "]"; "{"; "}"; ","; ":"; "."; ";"; "="].
Definition operator_of (s : string) : option string := find (fun o => prefix o s) operators.

(** The longest prefix of characters satisfying [f], and the rest. *)
Fixpoint span (f : ascii -> bool) (s : string) : string * string :=
  match s with
  | EmptyString => (EmptyString, EmptyString)
  | String c r => if f c then let (a, b) := span f r in (String c a, b) else (EmptyString, s)
  end.
Fixpoint drop (n : nat) (s : string) : string :=
  match n, s with S n, String _ r => drop n r | _, _ => s end.

(** A number: digits, letters and dots, and a sign between the e of an exponent and its digits ([exponents] for numbers
    that can have one, [after_e] if the character before is that e).  Python checks more about numbers, and knows where
    one ends that is followed by a letter. *)
Fixpoint read_number (exponents after_e : bool) (s : string) : string * string :=
  match s with
  | EmptyString => (EmptyString, EmptyString)
  | String c r =>
      if number_char c || (after_e && is_sign c && first_is is_digit r)
      then let (a, b) := read_number exponents (exponents && is_e c) r in (String c a, b) else (EmptyString, s)
  end.
Definition hexadecimal (s : string) : bool := prefix "0x" s || prefix "0X" s.
Definition starts_number (s : string) : bool := first_is is_digit s || (prefix "." s && first_is is_digit (drop 1 s)).

(** Strings, from after the opening quotes to after the closing ones; a backslash takes the character after it along. *)
Definition prepend (p : string) (o : option (string * string)) : option (string * string) :=
  match o with Some (a, b) => Some ((p ++ a)%string, b) | None => None end.
Fixpoint read_short (q : ascii) (s : string) : option (string * string) :=
  match s with
  | EmptyString => None
  | String c r =>
      if is_backslash c then match r with EmptyString => None | String d r' => prepend (String c (String d EmptyString)) (read_short q r') end
      else if Ascii.eqb c q then Some (String c EmptyString, r)
      else prepend (String c EmptyString) (read_short q r)
  end.
Definition three (q : ascii) : string := String q (String q (String q EmptyString)).
Fixpoint read_long (q : ascii) (s : string) : option (string * string) :=
  match s with
  | EmptyString => None
  | String c r =>
      if is_backslash c then match r with EmptyString => None | String d r' => prepend (String c (String d EmptyString)) (read_long q r') end
      else if prefix (three q) s then Some (three q, drop 3 s)
      else prepend (String c EmptyString) (read_long q r)
  end.
(** What may stand before a string. *)
Definition string_prefixes : list string :=
  ["r"; "R"; "b"; "B"; "u"; "U"; "f"; "F"; "br"; "bR"; "Br"; "BR"; "rb"; "rB"; "Rb"; "RB"; "fr"; "fR"; "Fr"; "FR"; "rf"; "rF"; "Rf"; "RF"].

(** The first token of the text and the rest; or a string that is not closed, in one pair of quotes or in three; or
    something else. *)
Inductive lexed := LToken (ty : pytype) (w rest : string) | LUnclosed | LOpenLong | LBad.
Definition read_string (pre s : string) : lexed :=
  match s with
  | EmptyString => LBad
  | String q r =>
      if prefix (three q) s then match read_long q (drop 3 s) with Some (b, rest) => LToken PSTRING (pre ++ three q ++ b) rest | None => LOpenLong end
      else match read_short q r with Some (b, rest) => LToken PSTRING (pre ++ String q b) rest | None => LUnclosed end
  end.
Definition next_token (s : string) : lexed :=
  if first_is is_letter s then
    let (w, rest) := span name_char s in
    if existsb (String.eqb w) string_prefixes && first_is is_quote rest then read_string w rest else LToken PNAME w rest
  else if starts_number s then let (w, rest) := read_number (negb (hexadecimal s)) false s in LToken PNUMBER w rest
  else if first_is is_quote s then read_string "" s
  else match operator_of s with Some o => LToken POTHER o (drop (String.length o) s) | None => LBad end.

Definition lex_error : exn := PatsyError "error tokenizing input (maybe an unclosed string?)" None.
(** tokens.py:46-64: at the end of the text inside a string in three quotes the stream just ends. *)
Fixpoint py_lex_from (fuel : nat) (s : string) : result (list (pytype * string)) :=
  match fuel with
  | O => match s with EmptyString => Ok [] | _ => Err OutOfFuel end
  | S fuel =>
      match s with
      | EmptyString => Ok []
      | String c r =>
          if is_blank c then py_lex_from fuel r
          else match next_token s with
               | LToken ty w rest => let* l := py_lex_from fuel rest in Ok ((ty, w) :: l)
               | LOpenLong => Ok []
               | LUnclosed | LBad => Err lex_error
               end
      end
  end.
Definition py_lex (s : string) : result (list (pytype * string)) := py_lex_from (String.length s) s.
(** [tokenize.generate_tokens] ends with NEWLINE and ENDMARKER tokens. *)
Definition generate_tokens (s : string) : result (list (pytype * string)) :=
  let* l := py_lex s in Ok (l ++ [(PNEWLINE, ""); (PENDMARKER, "")]).
