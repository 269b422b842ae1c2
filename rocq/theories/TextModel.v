(** Model of [ModelDesc.from_formula] on the text of a formula.

    Python's [tokenize.generate_tokens] is the tokenizer of PyLexModel.v, here with the positions of the
    tokens; comments, unclosed strings and characters that start no token end it with an error, and an unclosed
    string in three quotes just ends it. *)
From Coq Require Import Ascii.
From Verif Require Import Base OriginModel TokensModel InfixModel DescModel ParseFormulaModel FormulaModel PyLexModel EvalModel.
Open Scope string_scope.
Open Scope list_scope.

(** [str.strip()] on ASCII text. *)
Definition strip (s : string) : string :=
  string_of_list_ascii (rev (lstrip (rev (lstrip (list_ascii_of_string s))))).
Definition newline : ascii := ascii_of_nat 10.
(** [str.replace("\n", " ")] *)
Definition no_newlines (s : string) : string :=
  string_of_list_ascii (map (fun c => if Ascii.eqb c newline then " "%char else c) (list_ascii_of_string s)).

(** tokens.py:36-45, 63: the errors the generator ends with.  (An unclosed string makes CPython's
    tokenizer raise, tokens.py:57-61; a character it does not know is an ERRORTOKEN; an unclosed string in three quotes
    makes it raise too, but that is taken for the end of the stream, tokens.py:49-55, 63-64.) *)
Definition comment_error (code : string) (pos : nat) : exn :=
  PatsyError "comments are not allowed" (Some (mkOrigin code pos (String.length code))).
Definition unclosed_error (code : string) : exn :=
  PatsyError "error tokenizing input (unterminated string literal)" (Some (mkOrigin code 0 (String.length code))).
Definition character_error (code : string) (pos : nat) : exn :=
  PatsyError "error tokenizing input (maybe an unclosed string?)" (Some (mkOrigin code pos (S pos))).

(** tokens.py:31-64: the tokens of the rest [s] of the line [code], which starts at [pos], and the exception
    the generator ends with.  [fuel] = length of [s] suffices. *)
Fixpoint py_tokens_from (fuel : nat) (code : string) (pos : nat) (s : string) : list pytok * option exn :=
  match fuel with
  | O => match s with EmptyString => ([], None) | _ => ([], Some OutOfFuel) end
  | S fuel =>
      match s with
      | EmptyString => ([], None)
      | String c r =>
          if is_blank c then py_tokens_from fuel code (S pos) r
          else if Ascii.eqb c "#" then ([], Some (comment_error code pos))
          else match next_token s with
               | LToken ty w rest =>
                   let n := String.length w in
                   let '(l, e) := py_tokens_from fuel code (pos + n) rest in
                   (mkPyTok ty w (mkOrigin code pos (pos + n)) :: l, e)
               | LUnclosed => ([], Some (unclosed_error code))
               | LOpenLong => ([], None)
               | LBad => ([], Some (character_error code pos))
               end
      end
  end.
(** tokens.py:25-64 [python_tokenize]: newlines become spaces, and space at the ends is dropped. *)
Definition python_tokenize (code : string) : list pytok * option exn :=
  let code := strip (no_newlines code) in
  py_tokens_from (String.length code) code 0 code.

(** tokens.py:177-179 [normalize_token_spacing]; text the tokenizer refuses is left alone here (it cannot
    be an embedded expression). *)
Definition norm_text (code : string) : string :=
  match normalize_token_spacing generate_tokens code with Ok s => s | Err _ => code end.

(** parse_formula.py:141-142: blank text is the formula of the intercept alone. *)
Definition formula_text (code : string) : string := if String.eqb (strip code) "" then "~ 1" else code.

(** desc.py:164-181 [ModelDesc.from_formula] on text. *)
Definition from_text (is_float : string -> bool) (code : string) : result model_desc :=
  let '(it, tail) := python_tokenize (formula_text code) in from_formula norm_text is_float it tail.
