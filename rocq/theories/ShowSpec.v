(** What a repr is compared with: the expressions of Python that build objects, read from text.

    [read_expr] reads a Python expression made of string literals, lists and calls with positional and keyword
    arguments (Python reference, 2.4.1, 6.2.5, 6.3.4); it answers [None] for everything else.  It knows nothing of patsy;
    [build_desc] then calls the constructors (desc.py:42-43, 115-117, eval.py:480). *)
From Coq Require Import Ascii.
From Verif Require Import Base BuildModel DescModel DescSpec ShowModel.
Open Scope string_scope.
Open Scope list_scope.

Inductive tree :=
| TStr (s : string)
| TList (l : list tree)
| TCall (f : string) (args : list tree) (kwargs : list (string * tree)).

(** String literals with one quote character on each side. *)
Definition is_q (c : ascii) : bool := Ascii.eqb c "'" || Ascii.eqb c """".
Definition hex_value (c : ascii) : option nat :=
  let n := nat_of_ascii c in
  if Nat.leb 48 n && Nat.leb n 57 then Some (n - 48)
  else if Nat.leb 97 n && Nat.leb n 102 then Some (n - 87)
  else if Nat.leb 65 n && Nat.leb n 70 then Some (n - 55) else None.
Definition simple_escape (c : ascii) : option ascii :=
  if Ascii.eqb c "\" || is_q c then Some c
  else if Ascii.eqb c "n" then Some "010"%char else if Ascii.eqb c "r" then Some "013"%char
  else if Ascii.eqb c "t" then Some "009"%char else None.
Definition push (c : ascii) (r : option (string * string)) : option (string * string) :=
  match r with Some (s, rest) => Some (String c s, rest) | None => None end.
Fixpoint literal (q : ascii) (s : string) : option (string * string) :=
  match s with
  | "" => None
  | String c r =>
      if Ascii.eqb c q then Some ("", r)
      else if Ascii.eqb c "\" then
        match r with
        | "" => None
        | String e r =>
            if Ascii.eqb e "x" then
              match r with
              | String h (String l r) =>
                  match hex_value h, hex_value l with
                  | Some h, Some l => push (ascii_of_nat (16 * h + l)) (literal q r)
                  | _, _ => None
                  end
              | _ => None
              end
            else match simple_escape e with Some c => push c (literal q r) | None => None end
        end
      else if Ascii.eqb c "010" || Ascii.eqb c "013" then None
      else push c (literal q r)
  end.
(** An empty literal is not followed by its quote: three quotes open another kind of literal. *)
Definition opens (q : ascii) (s : string) : option (string * string) :=
  match s with
  | String c (String d _) => if Ascii.eqb c q && Ascii.eqb d q then None else literal q s
  | _ => literal q s
  end.

(** Names. *)
Definition name_start (c : ascii) : bool :=
  let n := nat_of_ascii c in Nat.leb 65 n && Nat.leb n 90 || Nat.leb 97 n && Nat.leb n 122 || Nat.eqb n 95.
Definition name_more (c : ascii) : bool := let n := nat_of_ascii c in name_start c || Nat.leb 48 n && Nat.leb n 57.
Fixpoint name_span (s : string) : string * string :=
  match s with
  | String c r => if name_more c then let (n, rest) := name_span r in (String c n, rest) else ("", s)
  | "" => ("", "")
  end.
Definition read_name (s : string) : option (string * string) :=
  match s with String c _ => if name_start c then Some (name_span s) else None | "" => None end.
(** [starts c s]: what follows [c] at the beginning of [s]. *)
Definition starts (c : ascii) (s : string) : option string :=
  match s with String d r => if Ascii.eqb d c then Some r else None | "" => None end.
(** [label=], not [label==]. *)
Definition read_label (s : string) : option (string * string) :=
  match read_name s with
  | Some (n, r) => match starts "=" r with Some r => match starts "=" r with Some _ => None | None => Some (n, r) end | None => None end
  | None => None
  end.

Fixpoint skip_blanks (s : string) : string := match s with String c r => if Ascii.eqb c " " then skip_blanks r else s | "" => s end.

(** Expressions.  [n] bounds the number of steps. *)
Fixpoint expr (n : nat) (s : string) : option (tree * string) :=
  match n with
  | 0 => None
  | S n =>
      match s with
      | "" => None
      | String c r =>
          if is_q c then match opens c r with Some (t, rest) => Some (TStr t, rest) | None => None end
          else if Ascii.eqb c "[" then match elements n (skip_blanks r) with Some (l, rest) => Some (TList l, rest) | None => None end
          else match read_name s with
               | Some (f, r) =>
                   match starts "(" r with
                   | Some r => match arguments n true (skip_blanks r) with Some (a, k, rest) => Some (TCall f a k, rest) | None => None end
                   | None => None
                   end
               | None => None
               end
      end
  end
with elements (n : nat) (s : string) : option (list tree * string) :=
  match n with
  | 0 => None
  | S n =>
      match starts "]" s with
      | Some r => Some ([], r)
      | None =>
          match expr n s with
          | Some (t, s) =>
              match starts "]" (skip_blanks s), starts "," (skip_blanks s) with
              | Some r, _ => Some ([t], r)
              | None, Some r => match elements n (skip_blanks r) with Some (l, rest) => Some (t :: l, rest) | None => None end
              | None, None => None
              end
          | None => None
          end
      end
  end
(** [positional]: no keyword has been seen yet. *)
with arguments (n : nat) (positional : bool) (s : string) : option (list tree * list (string * tree) * string) :=
  match n with
  | 0 => None
  | S n =>
      match starts ")" s with
      | Some r => Some ([], [], r)
      | None =>
          let label := read_label s in
          if match label with None => negb positional | Some _ => false end then None
          else match expr n (skip_blanks match label with Some (_, r) => r | None => s end) with
          | Some (t, s) =>
              let add := fun rest : list tree * list (string * tree) => match label with None => (t :: fst rest, snd rest) | Some (k, _) => (fst rest, (k, t) :: snd rest) end in
              match starts ")" (skip_blanks s), starts "," (skip_blanks s) with
              | Some r, _ => Some (add ([], []), r)
              | None, Some r =>
                  match arguments n (match label with None => positional | Some _ => false end) (skip_blanks r) with
                  | Some (a, k, rest) => Some (add (a, k), rest)
                  | None => None
                  end
              | None, None => None
              end
          | None => None
          end
      end
  end.
(** A text that is one expression. *)
Definition read_expr (s : string) : option tree :=
  match expr (2 * String.length s) s with Some (t, "") => Some t | _ => None end.

(** Names Python can read. *)
Definition is_name (s : string) : bool := match read_name s with Some (_, "") => true | _ => false end.

(** ** What is shown.  The text of an object, and the expression it should be. *)
Section Shown.
Variable repr_of_str : string -> string.
Fixpoint shown (o : pyobj) : string :=
  match o with
  | OStr s => repr_of_str s
  | OText s => s
  | OList l => "[" ++ String.concat ", " (map shown l) ++ "]"
  | OPercent cls args => cls ++ "(" ++ String.concat ", " (map shown args) ++ ")"
  | OPretty cls args kwargs =>
      cls ++ "(" ++ String.concat ", " (app (map shown args) (map (fun lv : string * pyobj => let (l, v) := lv in l ++ "=" ++ shown v) kwargs)) ++ ")"
  | ODelegate cls => ""
  end%string.
End Shown.
(** Nothing in the object is shown by the printer without telling it how. *)
Fixpoint printer_known (o : pyobj) : bool :=
  match o with
  | OStr _ | OText _ => true
  | OList l | OPercent _ l => forallb printer_known l
  | OPretty _ args kwargs => forallb printer_known args && forallb (fun lv : string * pyobj => let (_, v) := lv in printer_known v) kwargs
  | ODelegate _ => false
  end.
(** The object is made of strings, lists and calls alone. *)
Fixpoint made_of_calls (o : pyobj) : bool :=
  match o with
  | OStr _ => true
  | OText _ | ODelegate _ => false
  | OList l => forallb made_of_calls l
  | OPercent cls l => is_name cls && forallb made_of_calls l
  | OPretty cls args kwargs => is_name cls && forallb made_of_calls args && forallb (fun lv : string * pyobj => let (l, v) := lv in is_name l && made_of_calls v) kwargs
  end.
Fixpoint calls (o : pyobj) : tree :=
  match o with
  | OStr s | OText s => TStr s
  | ODelegate s => TStr s
  | OList l => TList (map calls l)
  | OPercent cls l => TCall cls (map calls l) []
  | OPretty cls args kwargs => TCall cls (map calls args) (map (fun lv : string * pyobj => let (l, v) := lv in (l, calls v)) kwargs)
  end.

(** ** What the expressions mean: the constructors of patsy's classes. *)
Section Build.
Variable norm : string -> string.
Definition build_factor (t : tree) : option factor := match t with TCall f [TStr c] [] => if String.eqb f "EvalFactor" then Some (norm c) else None | _ => None end.
Fixpoint build_all {A} (f : tree -> option A) (l : list tree) : option (list A) :=
  match l with
  | [] => Some []
  | t :: r => match f t, build_all f r with Some x, Some xs => Some (x :: xs) | _, _ => None end
  end.
Definition build_term (t : tree) : option term :=
  match t with
  | TCall f [TList fs] [] => if String.eqb f "Term" then option_map mk_term (build_all build_factor fs) else None
  | _ => None
  end.
Definition keyword (k : string) (kwargs : list (string * tree)) : option tree := option_map snd (find (fun p => String.eqb (fst p) k) kwargs).
Definition build_desc (t : tree) : option model_desc :=
  match t with
  | TCall f [] kwargs =>
      if String.eqb f "ModelDesc" && Nat.eqb (List.length kwargs) 2 then
        match keyword "lhs_termlist" kwargs, keyword "rhs_termlist" kwargs with
        | Some (TList l), Some (TList r) =>
            match build_all build_term l, build_all build_term r with Some l, Some r => Some (mk_model_desc l r) | _, _ => None end
        | _, _ => None
        end
      else None
  | _ => None
  end.
End Build.

(** A description whose factors have their normal code, without repetitions. *)
Definition no_repeats (ts : list term) : Prop := forall i j t u, nth_error ts i = Some t -> nth_error ts j = Some u -> same_set t u -> i = j.
Definition proper_desc (norm : string -> string) (d : model_desc) : Prop :=
  (forall t, In t (lhs_termlist d ++ rhs_termlist d) -> NoDup t /\ forall f, In f t -> norm f = f) /\
  no_repeats (lhs_termlist d) /\ no_repeats (rhs_termlist d).
(** The text of a description, written out. *)
Section Written.
Variable repr_of_str : string -> string.
Definition factor_text (f : factor) : string := ("EvalFactor(" ++ repr_of_str f ++ ")")%string.
Definition term_text (t : term) : string := ("Term([" ++ String.concat ", " (map factor_text t) ++ "])")%string.
Definition desc_text (d : model_desc) : string :=
  ("ModelDesc(lhs_termlist=[" ++ String.concat ", " (map term_text (lhs_termlist d)) ++ "], rhs_termlist=["
   ++ String.concat ", " (map term_text (rhs_termlist d)) ++ "])")%string.
(** The other objects.  [dict], [matrix], ... are what Python and numpy write. *)
Definition subterm_text (factors : list factor) (dict : string) (columns : nat) : string :=
  ("SubtermInfo(factors=[" ++ String.concat ", " (map factor_text factors) ++ "], contrast_matrices=" ++ dict ++ ", num_columns=" ++ nat_str columns ++ ")")%string.
Definition numerical_text (f : factor) (columns : nat) : string :=
  ("FactorInfo(factor=" ++ factor_text f ++ ", type=" ++ repr_of_str "numerical" ++ ", state=<factor state>, num_columns=" ++ nat_str columns ++ ")")%string.
Definition categorical_text (f : factor) (categories : string) : string :=
  ("FactorInfo(factor=" ++ factor_text f ++ ", type=" ++ repr_of_str "categorical" ++ ", state=<factor state>, categories=" ++ categories ++ ")")%string.
Definition design_text (names : list string) (infos codings : string) : string :=
  ("DesignInfo([" ++ String.concat ", " (map repr_of_str names) ++ "], factor_infos=" ++ infos ++ ", term_codings=" ++ codings ++ ")")%string.
Definition constraint_text (names : list string) (coefs constants : string) : string :=
  ("LinearConstraint([" ++ String.concat ", " (map repr_of_str names) ++ "], " ++ coefs ++ ", " ++ constants ++ ")")%string.
Definition contrast_text (matrix : string) (suffixes : list string) : string :=
  ("ContrastMatrix(" ++ matrix ++ ", [" ++ String.concat ", " (map repr_of_str suffixes) ++ "])")%string.
Definition lookup_text (variable : string) : string := ("LookupFactor(" ++ repr_of_str variable ++ ")")%string.
Definition lookup_dict_text (dicts : list string) : string := ("VarLookupDict([" ++ String.concat ", " dicts ++ "])")%string.
End Written.
