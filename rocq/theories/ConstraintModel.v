(** Model of patsy/constraint.py.  Floats are idealised to exact rationals. *)
From Coq Require Import Ascii.
From Verif Require Import Base OriginModel UtilModel PySort InfixModel DescModel TokensModel NumModel.
Open Scope nat_scope.

(** * LinearConstraint *)

(** constraint.py:29-52 [LinearConstraint]: the arrays are rows of coefficients and the
    column of constants. *)
Record lcon := mkLcon { lc_names : list string; lc_coefs : mat; lc_consts : list Qc }.

(** constraint.py:53-68 [LinearConstraint.__init__], for two-dimensional coefficients and
    one-dimensional constants (the [ndim] checks of lines 60 and 62 cannot fail then). *)
Definition mk_lcon (names : list string) (coefs : mat) (consts : option (list Qc)) : result lcon :=
  let consts := match consts with None => repeat 0%Qc (length coefs) | Some c => c end in
  if negb (forallb (fun row => length row =? length names) coefs) then Err (ValueError "wrong shape for coefs")
  else if length coefs =? 0 then Err (ValueError "must have at least one row in constraint matrix")
  else if negb (length coefs =? length consts) then Err (ValueError "shape mismatch between coefs and constants")
  else Ok (mkLcon names coefs consts).

(** Python's [==] on lists of strings. *)
Definition names_eqb (a b : list string) : bool := if list_eq_dec string_dec a b then true else false.

(** constraint.py:80-97 [LinearConstraint.combine]. *)
Definition lc_combine (cs : list lcon) : result lcon :=
  match cs with
  | [] => Err (ValueError "no constraints specified")
  | c :: _ =>
      if negb (forallb (fun d => names_eqb (lc_names d) (lc_names c)) cs)
      then Err (ValueError "variable names don't match")
      else mk_lcon (lc_names c) (flat_map lc_coefs cs) (Some (flat_map lc_consts cs))
  end.

(** * Tokenizer *)

(** constraint.py:161-170 [_ops] *)
Definition constraint_ops : list operator :=
  [mkOp (TName ",") 2 (-100); mkOp (TName "=") 2 0; mkOp (TName "+") 1 100; mkOp (TName "-") 1 100;
   mkOp (TName "+") 2 100; mkOp (TName "-") 2 100; mkOp (TName "*") 2 200; mkOp (TName "/") 2 200].
(** constraint.py:172 [_atomic] *)
Definition constraint_atoms : list ttype := [TName "NUMBER"; TName "VARIABLE"].

(** [s[k:]] *)
Fixpoint str_drop (k : nat) (s : string) : string :=
  match k, s with S k, String _ s => str_drop k s | _, _ => s end.
Definition str_take (k : nat) (s : string) : string := String.substring 0 k s.

(** The regular expressions of constraint.py:187-191 on ASCII text: number of
    characters matched at the start of the string. *)
Definition is_digit (c : ascii) : bool := is_some (digit_val c).
(** [p]* *)
Fixpoint span (p : ascii -> bool) (s : string) : nat :=
  match s with String c r => if p c then S (span p r) else 0 | EmptyString => 0 end.
Definition one_of (l : string) (c : ascii) : bool := existsb (Ascii.eqb c) (list_ascii_of_string l).
Definition first_is (p : ascii -> bool) (s : string) : bool :=
  match s with String c _ => p c | EmptyString => false end.
(** (?:[eE][-+]?[0-9]+)? *)
Definition match_exp (s : string) : nat :=
  if first_is (one_of "eE") s then
    let sign := if first_is (one_of "-+") (str_drop 1 s) then 1 else 0 in
    match span is_digit (str_drop (1 + sign) s) with 0 => 0 | d => 1 + sign + d end
  else 0.
(** [0-9]*\.?[0-9]+ after backtracking: either digits, dot, digits, or just digits. *)
Definition match_mantissa (s : string) : nat :=
  let d1 := span is_digit s in
  if first_is (Ascii.eqb ".") (str_drop d1 s) then
    let d2 := span is_digit (str_drop (S d1) s) in if d2 =? 0 then d1 else d1 + 1 + d2
  else d1.
(** [-+]?[0-9]*\.?[0-9]+(?:[eE][-+]?[0-9]+)? *)
Definition match_num (s : string) : nat :=
  let sign := if first_is (one_of "-+") s then 1 else 0 in
  let m := match_mantissa (str_drop sign s) in
  if m =? 0 then 0 else sign + m + match_exp (str_drop (sign + m) s).

(** constraint.py:194 [sorted(variable_names, key=len, reverse=True)] (stable). *)
Definition by_length (names : list string) : list string :=
  py_sort (fun a b => String.length b <? String.length a) names.

Inductive lexeme := LxTok (ty : ttype) | LxSpace.

(** constraint.py:197-204: the alternatives of the lexicon, in order.  The variable
    alternative with no names at all is the empty pattern, which matches the empty string. *)
Definition lex_one (names : list string) (s : string) : option (lexeme * nat) :=
  if first_is (Ascii.eqb "(") s then Some (LxTok TLParen, 1)
  else if first_is (Ascii.eqb ")") s then Some (LxTok TRParen, 1)
  else if first_is (one_of ",=+-*/") s then Some (LxTok (TName (str_take 1 s)), 1)
  else match find (fun n => String.prefix n s) (match names with [] => [""%string] | _ => by_length names end) with
  | Some n => Some (LxTok (TName "VARIABLE"), String.length n)
  | None =>
      match match_num s with
      | 0 => match span is_space s with 0 => None | k => Some (LxSpace, k) end
      | k => Some (LxTok (TName "NUMBER"), k)
      end
  end.

(** CPython's re.Scanner.scan: stops at the first position with no or an empty match.
    Every step consumes a character, so [fuel] = length + 1 suffices. *)
Fixpoint scan (fuel : nat) (code : string) (names : list string) (pos : nat) (s : string) : list token * string :=
  match fuel with
  | 0 => ([], s)
  | S fuel =>
      match lex_one names s with
      | Some (lx, S k) =>
          let '(toks, leftover) := scan fuel code names (pos + S k) (str_drop (S k) s) in
          (match lx with
           | LxTok ty => mkToken ty (mkOrigin code pos (pos + S k)) (Some (str_take (S k) s)) :: toks
           | LxSpace => toks
           end, leftover)
      | _ => ([], s)
      end
  end.

(** constraint.py:186-216 [_tokenize_constraint]. *)
Definition tokenize_constraint (code : string) (names : list string) : result (list token) :=
  let '(toks, leftover) := scan (S (String.length code)) code names 0 code in
  if String.eqb leftover "" then Ok toks
  else
    let offset := String.length code - String.length leftover in
    Err (PatsyError "unrecognized token in constraint" (Some (mkOrigin code offset (offset + 1)))).

(** constraint.py:257-258 [parse_constraint]. *)
Definition parse_constraint (code : string) (names : list string) : result node :=
  let* toks := tokenize_constraint code names in infix_parse toks constraint_ops constraint_atoms.

(** * Evaluator *)

(** Python's [float(text)] on the texts the tokenizer can produce: sign, digits, dot,
    digits, exponent, exactly. *)
Fixpoint digits_acc (acc : Z) (s : string) : Z :=
  match s with
  | EmptyString => acc
  | String c r => digits_acc (10 * acc + match digit_val c with Some d => d | None => 0 end) r
  end.
Definition q10 (e : Z) : Qc := Qcpower (Q2Qc (10 # 1)) (Z.to_nat e).
Definition scale10 (m : Z) (e : Z) : Qc := if (e <? 0)%Z then (qz m / q10 (- e))%Qc else (qz m * q10 e)%Qc.
Definition decimal_value (s : string) : Qc :=
  let neg := first_is (Ascii.eqb "-") s in
  let s := if first_is (one_of "-+") s then str_drop 1 s else s in
  let d1 := span is_digit s in
  let int_part := str_take d1 s in
  let s := str_drop d1 s in
  let '(frac, s) := if first_is (Ascii.eqb ".") s
                    then (str_take (span is_digit (str_drop 1 s)) (str_drop 1 s), str_drop (1 + span is_digit (str_drop 1 s)) s)
                    else (""%string, s) in
  let ex := if first_is (one_of "eE") s then
              let s := str_drop 1 s in
              if first_is (Ascii.eqb "-") s then (- digits_acc 0 (str_drop 1 s))%Z
              else digits_acc 0 (if first_is (Ascii.eqb "+") s then str_drop 1 s else s)
            else 0%Z in
  let m := digits_acc 0 (int_part ++ frac) in
  scale10 (if neg then - m else m)%Z (ex - Z.of_nat (String.length frac))%Z.

(** [list.index] *)
Fixpoint name_index (x : string) (l : list string) : option nat :=
  match l with [] => None | y :: r => if String.eqb y x then Some 0 else option_map S (name_index x r) end.

(** constraint.py:280-286: a linear combination (N coefficients and a constant), or a
    constraint. *)
Inductive cval := CVec (coefs : list Qc) (const : Qc) | CCon (c : lcon).

Definition all_zero (l : list Qc) : bool := forallb (fun x => Qc_eq_bool x 0%Qc) l.
Definition vmap2 (f : Qc -> Qc -> Qc) (a b : list Qc) : list Qc := map (fun p => f (fst p) (snd p)) (List.combine a b).

Section Eval.
Variable names : list string.

(** constraint.py:355-368 with [constraint=True] *)
Definition force_con (n : node) (r : result cval) : result lcon :=
  let* v := r in
  match v with
  | CCon c => Ok c
  | CVec v c => if all_zero v then Err (PatsyError "term is constant, with no variables" (n_origin n))
                else mk_lcon names [v] (Some [(- c)%Qc])
  end.
(** constraint.py:369-373 with [constraint=False] *)
Definition force_vec (n : node) (r : result cval) : result (list Qc * Qc) :=
  let* v := r in
  match v with
  | CCon _ => Err (PatsyError "unexpected constraint object" (n_origin n))
  | CVec v c => Ok (v, c)
  end.

Definition extra_text (tok : option token) : result string :=
  match tok with
  | Some t => match tk_extra t with Some s => Ok s | None => Err (TypeError "extra is None") end
  | None => Err (TypeError "token is None")
  end.

(** constraint.py:334: [arg.args[k]] *)
Definition is_eq (n : node) : bool := is_type "=" n.

(** constraint.py:261-375 [_EvalConstraint]; the dispatch of lines 266-277 on (type,
    number of arguments).  A division by a constant zero gives inf or nan in numpy: not
    modelled, an error here. *)
Fixpoint eval_con (n : node) : result cval :=
  match n with
  | Node (TName ty) tok args org =>
    match args with
    | [] =>
        if String.eqb ty "VARIABLE" then              (* lines 291-295 *)
          let* x := extra_text tok in
          match name_index x names with
          | Some i => Ok (CVec (set_nth (repeat 0%Qc (length names)) i 1%Qc) 0%Qc)
          | None => Err (ValueError "not in list")
          end
        else if String.eqb ty "NUMBER" then           (* lines 297-300 *)
          let* x := extra_text tok in
          Ok (CVec (repeat 0%Qc (length names)) (decimal_value x))
        else Err AssertionError
    | [a] =>
        if String.eqb ty "+" then                     (* lines 302-303 *)
          let* (v, c) := force_vec a (eval_con a) in Ok (CVec v c)
        else if String.eqb ty "-" then                (* lines 305-306 *)
          let* (v, c) := force_vec a (eval_con a) in Ok (CVec (map (fun x => Qcopp 1 * x)%Qc v) (Qcopp 1 * c)%Qc)
        else Err AssertionError
    | [a; b] =>
        if String.eqb ty "+" then                     (* lines 308-309 *)
          let* (v, c) := force_vec a (eval_con a) in
          let* (w, d) := force_vec b (eval_con b) in Ok (CVec (vmap2 Qcplus v w) (c + d)%Qc)
        else if String.eqb ty "-" then                (* lines 311-312 *)
          let* (v, c) := force_vec a (eval_con a) in
          let* (w, d) := force_vec b (eval_con b) in Ok (CVec (vmap2 Qcminus v w) (c - d)%Qc)
        else if String.eqb ty "/" then                (* lines 314-321 *)
          let* (v, c) := force_vec a (eval_con a) in
          let* (w, d) := force_vec b (eval_con b) in
          if negb (all_zero w) then Err (PatsyError "Can't divide by a variable in a linear constraint" (n_origin b))
          else if Qc_eq_bool d 0%Qc then Err (ValueError "division by zero")
          else Ok (CVec (map (fun x => x / d)%Qc v) (c / d)%Qc)
        else if String.eqb ty "*" then                (* lines 323-333 *)
          let* (v, c) := force_vec a (eval_con a) in
          let* (w, d) := force_vec b (eval_con b) in
          if all_zero v then Ok (CVec (map (fun x => c * x)%Qc w) (c * d)%Qc)
          else if all_zero w then Ok (CVec (map (fun x => x * d)%Qc v) (c * d)%Qc)
          else Err (PatsyError "Can't multiply one variable by another in a linear constraint" org)
        else if String.eqb ty "=" then                (* lines 335-355 *)
          let* cl := (if is_eq a then let* c := force_con a (eval_con a) in Ok [c] else Ok []) in
          let* cr := (if is_eq b then let* c := force_con b (eval_con b) in Ok [c] else Ok []) in
          let left := if is_eq a then match n_args a with _ :: a2 :: _ => force_vec a2 (eval_con a2) | _ => Err IndexError end
                      else force_vec a (eval_con a) in
          let right := if is_eq b then match n_args b with b1 :: _ => force_vec b1 (eval_con b1) | _ => Err IndexError end
                       else force_vec b (eval_con b) in
          let* (v, c) := left in
          let* (w, d) := right in
          let coefs := vmap2 Qcminus v w in
          if all_zero coefs then Err (PatsyError "no variables appear in constraint" org)
          else
            let* k := mk_lcon names [coefs] (Some [(- c + d)%Qc]) in
            let* r := lc_combine (cl ++ cr ++ [k]) in Ok (CCon r)
        else if String.eqb ty "," then                (* lines 357-360 *)
          let* l := force_con a (eval_con a) in
          let* r := force_con b (eval_con b) in
          let* c := lc_combine [l; r] in Ok (CCon c)
        else Err AssertionError
    | _ => Err AssertionError
    end
  | _ => Err AssertionError
  end.

(** [evaluator.eval(tree, constraint=True)] *)
Definition eval_constraint (n : node) : result lcon := force_con n (eval_con n).
End Eval.

(** * linear_constraint *)

Inductive ckey := KName (s : string) | KInt (z : Z).
Inductive constraint_like :=
| LikeConstraint (c : lcon)
| LikeMapping (items : list (ckey * Qc))
| LikeString (s : string)
| LikeStrings (l : list string)                (* non-empty, all strings *)
| LikePair (coefs : mat) (consts : list Qc)
| LikeArray (coefs : mat).

(** constraint.py:397-402: the index of a key. *)
Definition key_index (names : list string) (k : ckey) : result Z :=
  match k with
  | KName s => match name_index s names with
               | Some i => Ok (Z.of_nat i)
               | None => Err (ValueError "unrecognized variable name/index")
               end
  | KInt z => Ok z          (* column names are strings, so an int is never one of them *)
  end.
(** numpy indexing: negative indexes count from the end. *)
Definition np_index (n : nat) (z : Z) : result nat :=
  let z' := if (z <? 0)%Z then (z + Z.of_nat n)%Z else z in
  if ((0 <=? z') && (z' <? Z.of_nat n))%Z then Ok (Z.to_nat z') else Err IndexError.
(** constraint.py:394-409: the loop; [used] is the set of indexes. *)
Fixpoint mapping_rows (names : list string) (items : list (ckey * Qc)) (used : list Z)
  : result (list (list Qc * Qc)) :=
  match items with
  | [] => Ok []
  | (k, v) :: r =>
      let* idx := key_index names k in
      if existsb (Z.eqb idx) used then
        (* line 405 evaluates [variable_names[idx]], which exists since idx was used *)
        Err (ValueError "duplicated constraint")
      else
        let* i := np_index (length names) idx in
        let* rest := mapping_rows names r (idx :: used) in
        Ok ((set_nth (repeat 0%Qc (length names)) i 1%Qc, v) :: rest)
  end.

(** constraint.py:378-437 [linear_constraint]. *)
Definition linear_constraint (like : constraint_like) (names : list string) : result lcon :=
  let strings l :=
    let* cs := mapM (fun code => let* tree := parse_constraint code names in eval_constraint names tree) l in
    lc_combine cs in
  match like with
  | LikeConstraint c =>
      if names_eqb (lc_names c) names then Ok c else Err (ValueError "LinearConstraint has wrong variable_names")
  | LikeMapping items =>
      let* rows := mapping_rows names items [] in
      mk_lcon names (map fst rows) (Some (map snd rows))
  | LikeString s => strings [s]
  | LikeStrings l => strings l
  | LikePair coefs consts => mk_lcon names coefs (Some consts)
  | LikeArray coefs => mk_lcon names coefs None
  end.
