(** Model of patsy/desc.py: terms, model descriptions and the formula evaluator. *)
From Coq Require Import Ascii.
From Verif Require Import Base OriginModel InfixModel UtilModel.

(** A factor in a formula is an EvalFactor; its equality and hash look only at
    its normalised code (patsy/eval.py:488-495), so a factor is that string.
    (The factor's origin, used only in error messages, is dropped.) *)
Definition factor := string.

(** desc.py:26-49 [Term]: the tuple of unique factors. *)
Definition term := list factor.

(** desc.py:42-43 [Term.__init__]. *)
Definition mk_term (fs : list factor) : term := uniqueify_list String.eqb fs.

(** desc.py:45-48 [Term.__eq__]: frozenset equality. *)
Definition subset_eqb (a b : list factor) : bool :=
  forallb (fun x => existsb (String.eqb x) b) a.
Definition term_eqb (a b : term) : bool := subset_eqb b a && subset_eqb a b.

(** desc.py:72 [INTERCEPT]. *)
Definition INTERCEPT : term := mk_term [].

(** [uniqueify_list] on terms. *)
Definition uniq_terms (ts : list term) : list term := uniqueify_list term_eqb ts.
(** [term in terms] *)
Definition term_in (t : term) (ts : list term) : bool := existsb (term_eqb t) ts.

(** desc.py:115-117 [ModelDesc.__init__]. *)
Record model_desc := MkModelDesc { lhs_termlist : list term; rhs_termlist : list term }.
Definition mk_model_desc (l r : list term) : model_desc :=
  MkModelDesc (uniq_terms l) (uniq_terms r).

(** desc.py:210-220 [IntermediateExpr].  [ie_origin] is Python's
    [intercept_origin]: [None], or an object whose [.origin] is the inner option
    (an Origin or a ParseNode, both always truthy). *)
Record inter_expr := MkIE {
  ie_intercept : bool;
  ie_origin : option (option origin);
  ie_removed : bool;
  ie_terms : list term }.

Definition is_some {A} (o : option A) : bool := match o with Some _ => true | None => false end.

(** desc.py:213-220 [IntermediateExpr.__init__] with its two assertions. *)
Definition mk_ie (i : bool) (o : option (option origin)) (r : bool) (ts : list term)
  : result inter_expr :=
  assert (implb i (is_some o))
    (assert (negb (i && r)) (Ok (MkIE i o r (uniq_terms ts)))).

(** The evaluator returns either kind of object (desc.py:403-456). *)
Inductive value := VExpr (e : inter_expr) | VModel (m : model_desc).

(** An attribute [tree.origin] used as [intercept_origin]. *)
Definition origin_obj (o : option origin) : option (option origin) :=
  match o with None => None | Some x => Some (Some x) end.

(** desc.py:235-239 [_maybe_add_intercept]. *)
Definition maybe_add_intercept (doit : bool) (ts : list term) : list term :=
  if doit then INTERCEPT :: ts else ts.

(** desc.py:298-303 [_check_interactable]. *)
Definition check_interactable (e : inter_expr) : result unit :=
  if ie_intercept e then
    Err (PatsyError "intercept term cannot interact with anything else"
           (match ie_origin e with Some o => o | None => None end))
  else Ok tt.

(** desc.py:309-312: the double loop of [_interaction]. *)
Definition interact_terms (ls rs : list term) : list term :=
  flat_map (fun l => map (fun r => mk_term (l ++ r)) rs) ls.

(** desc.py:306-313 [_interaction]. *)
Definition interaction (l r : inter_expr) : result inter_expr :=
  let* _ := check_interactable l in
  let* _ := check_interactable r in
  mk_ie false None false (interact_terms (ie_terms l) (ie_terms r)).

(** Python's [int(s)] on ASCII strings: optional surrounding white space, optional
    sign, decimal digits possibly separated by single underscores. *)
Definition is_space (c : ascii) : bool :=
  let n := nat_of_ascii c in (Nat.leb 9 n && Nat.leb n 13) || (Nat.leb 28 n && Nat.leb n 32).
Fixpoint lstrip (s : list ascii) : list ascii :=
  match s with c :: r => if is_space c then lstrip r else s | [] => [] end.
Definition digit_val (c : ascii) : option Z :=
  let n := nat_of_ascii c in
  if Nat.leb 48 n && Nat.leb n 57 then Some (Z.of_nat (n - 48)) else None.
Fixpoint digits_val (acc : Z) (prev_digit : bool) (s : list ascii) : option Z :=
  match s with
  | [] => if prev_digit then Some acc else None
  | c :: r =>
      match digit_val c with
      | Some d => digits_val (10 * acc + d) true r
      | None => if Ascii.eqb c "_"%char && prev_digit then digits_val acc false r else None
      end
  end.
Definition py_int (s : string) : option Z :=
  let l := rev (lstrip (rev (lstrip (list_ascii_of_string s)))) in
  match l with
  | "-"%char :: r => option_map Z.opp (digits_val 0 false r)
  | "+"%char :: r => digits_val 0 false r
  | _ => digits_val 0 false l
  end.

(** desc.py:364-370: the loop of [_eval_binary_power], [n] remaining rounds. *)
Fixpoint power_loop (left : inter_expr) (n : nat) (big : inter_expr) (all : list term)
  : result (list term) :=
  match n with
  | 0 => Ok all
  | S n => let* big' := interaction left big in
           power_loop left n big' (all ++ ie_terms big')
  end.

Definition is_type (s : string) (n : node) : bool := ttype_eqb (n_type n) (TName s).

(** desc.py:354-361: the exponent. *)
Definition exponent (b : node) : result Z :=
  if is_type "ONE" b || is_type "NUMBER" b then
    match n_token b with
    | None => Err (TypeError "token is None")
    | Some tok =>
        match tk_extra tok with
        | None => Err (TypeError "int() argument is None")
        | Some s => Ok (match py_int s with Some z => z | None => (-1)%Z end)
        end
    end
  else Ok (-1)%Z.

Section Eval.
(** tokens.py:177-179 [normalize_token_spacing], an external function here; applied
    by EvalFactor.__init__ (eval.py:479). *)
Variable norm : string -> string.

(** desc.py:448-453 in [Evaluator.eval] with [require_evalexpr=True]. *)
Definition require_expr (n : node) (r : result value) : result inter_expr :=
  let* v := r in
  match v with
  | VExpr e => Ok e
  | VModel _ => Err (PatsyError "~ can only be used once, and only at the top level" (n_origin n))
  end.

Definition ret_ie (r : result inter_expr) : result value := let* e := r in Ok (VExpr e).

(** desc.py:434-456 [Evaluator.eval] with [require_evalexpr=False], and all the
    operator functions it dispatches to on (type, number of arguments). *)
Fixpoint eval_any (tree : node) : result value :=
  match tree with
  | Node (TName ty) tok args org =>
    let unknown := Err (PatsyError "I don't know how to evaluate this operator"
                          (option_map tk_origin tok)) in
    match args with
    | [] =>
        if String.eqb ty "ZERO" then               (* desc.py:386-387 *)
          ret_ie (mk_ie false None true [])
        else if String.eqb ty "ONE" then           (* desc.py:390-391 *)
          ret_ie (mk_ie true (origin_obj org) false [])
        else if String.eqb ty "NUMBER" then        (* desc.py:394-395 *)
          Err (PatsyError "numbers besides '0' and '1' are only allowed with **" org)
        else if String.eqb ty "PYTHON_EXPR" then   (* desc.py:398-400 *)
          match tok with
          | Some t => match tk_extra t with
                      | Some code => ret_ie (mk_ie false None false [mk_term [norm code]])
                      | None => Err (TypeError "code is None")
                      end
          | None => Err (TypeError "token is None")
          end
        else unknown
    | [a] =>
        if String.eqb ty "~" then                  (* desc.py:242-253 *)
          let* r := require_expr a (eval_any a) in
          let* l := mk_ie false None true [] in
          Ok (VModel (mk_model_desc (maybe_add_intercept (ie_intercept l) (ie_terms l))
                                    (maybe_add_intercept (negb (ie_removed r)) (ie_terms r))))
        else if String.eqb ty "+" then             (* desc.py:373-374 *)
          let* e := require_expr a (eval_any a) in Ok (VExpr e)
        else if String.eqb ty "-" then             (* desc.py:377-383 *)
          if is_type "ZERO" a then ret_ie (mk_ie true (origin_obj org) false [])
          else if is_type "ONE" a then ret_ie (mk_ie false None true [])
          else Err (PatsyError "Unary minus can only be applied to 1 or 0" org)
        else unknown
    | [a; b] =>
        if String.eqb ty "~" then                  (* desc.py:242-253 *)
          let* l := require_expr a (eval_any a) in
          let* r := require_expr b (eval_any b) in
          Ok (VModel (mk_model_desc (maybe_add_intercept (ie_intercept l) (ie_terms l))
                                    (maybe_add_intercept (negb (ie_removed r)) (ie_terms r))))
        else if String.eqb ty "+" then             (* desc.py:256-275 *)
          let* l := require_expr a (eval_any a) in
          if is_type "ZERO" b then ret_ie (mk_ie false None true (ie_terms l))
          else
            let* r := require_expr b (eval_any b) in
            if ie_intercept r then
              ret_ie (mk_ie true (ie_origin r) false (ie_terms l ++ ie_terms r))
            else ret_ie (mk_ie (ie_intercept l) (ie_origin l) (ie_removed l)
                               (ie_terms l ++ ie_terms r))
        else if String.eqb ty "-" then             (* desc.py:278-295 *)
          let* l := require_expr a (eval_any a) in
          if is_type "ZERO" b then
            ret_ie (mk_ie true (Some (n_origin b)) false (ie_terms l))
          else if is_type "ONE" b then
            ret_ie (mk_ie false None true (ie_terms l))
          else
            let* r := require_expr b (eval_any b) in
            let terms := filter (fun t => negb (term_in t (ie_terms r))) (ie_terms l) in
            if ie_intercept r then ret_ie (mk_ie false None true terms)
            else ret_ie (mk_ie (ie_intercept l) (ie_origin l) (ie_removed l) terms)
        else if String.eqb ty "*" then             (* desc.py:316-320 *)
          let* l := require_expr a (eval_any a) in
          let* r := require_expr b (eval_any b) in
          let* i := interaction l r in
          ret_ie (mk_ie false None false (ie_terms l ++ ie_terms r ++ ie_terms i))
        else if String.eqb ty "/" then             (* desc.py:331-343 *)
          let* l := require_expr a (eval_any a) in
          let* r := require_expr b (eval_any b) in
          let* _ := check_interactable l in
          let* lc := mk_ie false None false [mk_term (List.concat (ie_terms l))] in
          let* i := interaction lc r in
          ret_ie (mk_ie false None false (ie_terms l ++ ie_terms i))
        else if String.eqb ty ":" then             (* desc.py:346-348 *)
          let* l := require_expr a (eval_any a) in
          let* r := require_expr b (eval_any b) in
          ret_ie (interaction l r)
        else if String.eqb ty "**" then            (* desc.py:351-370 *)
          let* l := require_expr a (eval_any a) in
          let* _ := check_interactable l in
          let* power := exponent b in
          if Z.ltb power 1 then Err (PatsyError "'**' requires a positive integer" (n_origin b))
          else
            let power := Z.min (Z.of_nat (List.length (ie_terms l))) power in
            let* all := power_loop l (Z.to_nat (power - 1)) l (ie_terms l) in
            ret_ie (mk_ie false None false all)
        else unknown
    | _ => unknown
    end
  | Node _ tok _ _ => Err (PatsyError "I don't know how to evaluate this operator"
                             (option_map tk_origin tok))
  end.

(** [evaluator.eval(tree)] with [require_evalexpr=True]. *)
Definition eval_expr (n : node) : result inter_expr := require_expr n (eval_any n).

(** desc.py:164-178 [ModelDesc.from_formula] on a parse tree. *)
Definition from_tree (tree : node) : result model_desc :=
  let* v := eval_any tree in
  match v with VModel m => Ok m | VExpr _ => Err AssertionError end.
End Eval.
