(** Model of patsy/tokens.py: the pretty printer for Python token sequences. *)
From Verif Require Import Base.

(** Python's [tokenize] token types, as far as tokens.py distinguishes them. *)
Inductive pytype := PNAME | PNUMBER | PSTRING | PNEWLINE | PENDMARKER
                  | PINDENT | PDEDENT | PNL | POTHER.

Definition str_in (s : string) (l : list string) : bool := existsb (String.eqb s) l.

(** tokens.py:101-111 *)
Definition python_space_both : list string :=
  ["+"; "-"; "*"; "/"; "%"; "&"; "^"; "|"; "<"; ">";
   "=="; "<>"; "!="; "<="; ">="; "<<"; ">>"; "**"; "//"]%string.
(** tokens.py:112 *)
Definition python_space_before : list string := python_space_both ++ ["!"; "~"]%string.
(** tokens.py:113 *)
Definition python_space_after : list string := python_space_both ++ [","; ":"]%string.

(** tokens.py:117-122: the loop state; [brackets] has its top at the head. *)
Record pu_state := mkPU {
  prev_was_space_delim : bool;
  prev_wants_space : bool;
  prev_was_open_paren_or_comma : bool;
  prev_was_object_like : bool;
  brackets : list string }.

Definition pu_init : pu_state := mkPU false false false false [].

Definition is_word_type (t : pytype) : bool :=
  match t with PNAME | PNUMBER | PSTRING => true | _ => false end.

Definition opens (s : string) : bool := str_in s ["("; "["; "{"]%string.
Definition closes (s : string) : bool := str_in s [")"; "]"; "}"]%string.

(** tokens.py:123-173: one iteration; returns the pieces appended to [text]. *)
Definition pu_step (st : pu_state) (ty : pytype) (tok : string) : result (list string * pu_state) :=
  match ty with
  | PINDENT | PDEDENT | PNL => Err AssertionError               (* line 124 *)
  | PNEWLINE | PENDMARKER => Ok ([], st)                        (* lines 125-128 *)
  | PNAME | PNUMBER | PSTRING =>                                (* lines 129-134 *)
      Ok ((if prev_wants_space st || prev_was_space_delim st then [" "; tok] else [tok])%string,
          mkPU true false (str_in tok ["("; ","]%string) true (brackets st))
  | POTHER =>
      let br :=                                                  (* lines 136-139 *)
        if opens tok then tok :: brackets st
        else if closes tok then tl (brackets st) else brackets st in
      let before := str_in tok python_space_before in            (* line 140 *)
      let after := str_in tok python_space_after in              (* line 141 *)
      let after :=                                               (* lines 144-145 *)
        if String.eqb tok ":" && match br with b :: _ => String.eqb b "[" | [] => false end
        then false else after in
      let star := str_in tok ["*"; "**"]%string && prev_was_open_paren_or_comma st in
      let before := if star then false else before in            (* lines 147-149 *)
      let after := if star then false else after in
      let eq := String.eqb tok "=" && match br with [] => true | _ => false end in
      let before := if eq then true else before in               (* lines 151-153 *)
      let after := if eq then true else after in
      let unary := str_in tok ["+"; "-"]%string && negb (prev_was_object_like st) in
      let before := if unary then false else before in           (* lines 158-160 *)
      let after := if unary then false else after in
      Ok ((if prev_wants_space st || before then [" "; tok] else [tok])%string,
          mkPU false after (str_in tok ["("; ","]%string) (String.eqb tok ")") br)
  end.

Fixpoint pu_loop (st : pu_state) (toks : list (pytype * string)) : result (list string) :=
  match toks with
  | [] => Ok []
  | (ty, tok) :: r =>
      let* (out, st') := pu_step st ty tok in
      let* rest := pu_loop st' r in Ok (out ++ rest)
  end.

(** tokens.py:116-174 [pretty_untokenize]; [text] joined with the empty string. *)
Definition pretty_untokenize (toks : list (pytype * string)) : result string :=
  let* text := pu_loop pu_init toks in Ok (String.concat "" text).
