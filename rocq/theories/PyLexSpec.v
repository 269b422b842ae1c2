(** Which token sequences survive printing and tokenizing. *)
From Coq Require Import Ascii.
From Verif Require Import Base TokensModel PyLexModel.
Open Scope string_scope.
Open Scope list_scope.

Fixpoint all_chars (f : ascii -> bool) (s : string) : bool :=
  match s with EmptyString => true | String c r => f c && all_chars f r end.

(** A number, read from the left: digits, letters and dots; also a sign, after an e ([after_e]) and before a digit, unless
    the number is hexadecimal. *)
Fixpoint number_chars (exponents after_e : bool) (s : string) : bool :=
  match s with
  | EmptyString => true
  | String c r => (number_char c || (after_e && is_sign c && first_is is_digit r)) && number_chars exponents (exponents && is_e c) r
  end.
(** A number starts with a digit, or with a dot and a digit; a hexadecimal one with 0x or 0X. *)
Definition number_start (s : string) : bool :=
  match s with
  | String c EmptyString => is_digit c
  | String c (String d _) => is_digit c || (Ascii.eqb c "." && is_digit d)
  | EmptyString => false
  end.
Definition hex_start (s : string) : bool :=
  match s with String a (String b _) => Ascii.eqb a "0" && (Ascii.eqb b "x" || Ascii.eqb b "X") | _ => false end.
Definition number_text (s : string) : bool := number_start s && number_chars (negb (hex_start s)) false s.
(** What comes after the opening quote of a string, up to the closing one. *)
Inductive short (q : ascii) : string -> Prop :=
| short_end : short q (String q EmptyString)
| short_char c r : c <> q -> is_backslash c = false -> short q r -> short q (String c r)
| short_escape b c r : is_backslash b = true -> short q r -> short q (String b (String c r)).
(** The same for three quotes: up to the first three in a row. *)
Inductive long (q : ascii) : string -> Prop :=
| long_end : long q (three q)
| long_char c r : is_backslash c = false -> prefix (three q) (String c r) = false -> long q r -> long q (String c r)
| long_escape b c r : is_backslash b = true -> long q r -> long q (String b (String c r)).
(** What may stand before the quotes: r, b, u, f, and r with b or f in either order, in upper or lower case. *)
Definition lower_char (c : ascii) : ascii :=
  if (Nat.leb 65 (nat_of_ascii c) && Nat.leb (nat_of_ascii c) 90)%bool then ascii_of_nat (nat_of_ascii c + 32) else c.
Fixpoint lower (s : string) : string := match s with EmptyString => EmptyString | String c r => String (lower_char c) (lower r) end.
Definition string_prefix (p : string) : Prop := In (lower p) ["r"; "b"; "u"; "f"; "br"; "rb"; "fr"; "rf"].
Definition string_text (s : string) : Prop :=
  exists p q body, (p = "" \/ string_prefix p) /\ is_quote q = true /\
    ((short q body /\ s = (p ++ String q body)%string) \/ (long q body /\ s = (p ++ three q ++ body)%string)).

(** A token the tokenizer knows: a name, a number, a string or an operator. *)
Definition simple_token (t : pytype * string) : Prop :=
  match t with
  | (PNAME, String c r) => is_letter c = true /\ all_chars name_char r = true
  | (PNUMBER, s) => number_text s = true
  | (PSTRING, s) => string_text s
  | (POTHER, s) => In s operators
  | _ => False
  end.

(** The second token cannot be taken for a continuation of the first one when it follows directly: two
    operators do not start a longer one, there is no number next to a dot, and no sign after a number that ends with e.
    (Expressions allowed by Python's grammar only violate this in cases like [1 .real].) *)
Fixpoint last_is (f : ascii -> bool) (s : string) : bool :=
  match s with EmptyString => false | String c EmptyString => f c | String _ r => last_is f r end.
Definition ends_with_e (s : string) : bool := negb (hex_start s) && last_is is_e s.
Definition separable (t u : string) : bool :=
  forallb (fun o => String.eqb o t || negb (prefix t o) || negb (prefix o (t ++ u) || prefix (t ++ u)%string o)) operators.
Definition fits (t u : pytype * string) : bool :=
  match fst t, fst u with
  | POTHER, POTHER => separable (snd t) (snd u)
  | POTHER, PNUMBER => negb (String.eqb (snd t) ".")
  | PNUMBER, POTHER => negb (prefix "." (snd u)) && negb (ends_with_e (snd t) && first_is is_sign (snd u))
  | _, _ => true
  end.
Fixpoint neighbours_fit (l : list (pytype * string)) : bool :=
  match l with
  | t :: ((u :: _) as r) => fits t u && neighbours_fit r
  | _ => true
  end.
Definition plain (l : list (pytype * string)) : Prop := Forall simple_token l /\ neighbours_fit l = true.

(** The operators and delimiters of Python (The Python Language Reference, 2.5 and 2.6), and the ellipsis. *)
Definition python_operators : list string :=
  ["+"; "-"; "*"; "**"; "/"; "//"; "%"; "@"; "<<"; ">>"; "&"; "|"; "^"; "~"; ":="; "<"; ">"; "<="; ">="; "=="; "!=";
   "("; ")"; "["; "]"; "{"; "}"; ","; ":"; "."; ";"; "="; "->"; "+="; "-="; "*="; "/="; "//="; "%="; "@="; "&="; "|="; "^="; ">>="; "<<="; "**="; "..."].
(** The longest operator that [s] starts with. *)
Definition longest_operator (s : string) (o : option string) : Prop :=
  match o with
  | Some o => In o python_operators /\ prefix o s = true /\ forall o', In o' python_operators -> prefix o' s = true -> String.length o' <= String.length o
  | None => forall o', In o' python_operators -> prefix o' s = false
  end.

(** The characters of a text. *)
Definition one_of (s : string) (c : ascii) : Prop := In c (list_ascii_of_string s).
Definition lower_letters : string := "abcdefghijklmnopqrstuvwxyz".
Definition upper_letters : string := "ABCDEFGHIJKLMNOPQRSTUVWXYZ".
Definition digits : string := "0123456789".
