(** Specification of the formula language: what terms a formula denotes.

    A term is a finite set of factors, written as a list read up to order and
    repetition ([same_set]). *)
From Verif Require Import Base InfixModel DescModel UtilSpec IntSpec.

Definition same_set (a b : list string) : Prop := forall x, In x a <-> In x b.

Definition lit (s : string) (n : node) : Prop := n_type n = TName s.
Definition litb (s : string) (n : node) : bool := ttype_eqb (n_type n) (TName s).

(** The exponent written in [b]: ONE or NUMBER with the text of an integer. *)
Definition exponent_is (b : node) (k : Z) : Prop :=
  (lit "ONE" b \/ lit "NUMBER" b) /\
  exists tok text, n_token b = Some tok /\ tk_extra tok = Some text /\ int_text text k.

Section Sem.
Variable norm : string -> string.

(** [mem n s]: the set [s] of factors is one of the terms of the expression [n]. *)
Fixpoint mem (n : node) (s : list string) {struct n} : Prop :=
  match n with
  | Node (TName ty) tok args _ =>
    match args with
    | [] => ty = "PYTHON_EXPR"%string /\
            exists t code, tok = Some t /\ tk_extra t = Some code /\ same_set s [norm code]
    | [a] => ty = "+"%string /\ mem a s
    | [a; b] =>
        (* [x] from [a], [y] from [b], joined *)
        let joined := exists x y, mem a x /\ mem b y /\ same_set s (x ++ y) in
        (ty = "+"%string /\ (mem a s \/ mem b s)) \/
        (ty = "-"%string /\ mem a s /\ ~ mem b s) \/
        (ty = ":"%string /\ joined) \/
        (ty = "*"%string /\ (mem a s \/ mem b s \/ joined)) \/
        (ty = "/"%string /\
           (mem a s \/
            exists y, mem b y /\
              forall f, In f s <-> (exists x, mem a x /\ In f x) \/ In f y)) \/
        (ty = "**"%string /\
           exists k xs, exponent_is b k /\ xs <> [] /\ (Z.of_nat (length xs) <= k)%Z /\
             Forall (mem a) xs /\ same_set s (List.concat xs))
    | _ => False
    end
  | _ => False
  end.

(** What an expression says about the intercept. *)
Inductive istatus := Default | Present | Removed.
Definition is_present (i : istatus) : bool := match i with Present => true | _ => false end.
Definition is_removed (i : istatus) : bool := match i with Removed => true | _ => false end.

Fixpoint status (n : node) : istatus :=
  match n with
  | Node (TName ty) _ args _ =>
    match args with
    | [] => if String.eqb ty "ZERO" then Removed
            else if String.eqb ty "ONE" then Present else Default
    | [a] => if String.eqb ty "+" then status a
             else if String.eqb ty "-" then
               if litb "ZERO" a then Present else Removed
             else Default
    | [a; b] =>
        if String.eqb ty "+" then
          if litb "ZERO" b then Removed
          else if is_present (status b) then Present else status a
        else if String.eqb ty "-" then
          if litb "ZERO" b then Present
          else if litb "ONE" b then Removed
          else if is_present (status b) then Removed else status a
        else Default
    | _ => Default
    end
  | _ => Default
  end.

(** [ts] lists exactly the terms [P]. *)
Definition lists (ts : list term) (P : list string -> Prop) : Prop :=
  forall s, (exists t, In t ts /\ same_set s t) <-> P s.

(** A formula makes sense: expressions. *)
Fixpoint sensible (n : node) : Prop :=
  match n with
  | Node (TName ty) _ args _ =>
    match args with
    | [] => ty <> "NUMBER"%string
    | [a] => (ty = "+"%string /\ sensible a) \/
             (ty = "-"%string /\ (lit "ZERO" a \/ lit "ONE" a))
    | [a; b] =>
        ((ty = "+"%string \/ ty = "-"%string) /\ sensible a /\ sensible b) \/
        ((ty = "*"%string \/ ty = "/"%string \/ ty = ":"%string) /\ sensible a /\ sensible b /\
           status a <> Present /\ status b <> Present) \/
        (ty = "**"%string /\ sensible a /\ status a <> Present /\
           exists k, exponent_is b k /\ (1 <= k)%Z)
    | _ => False
    end
  | _ => False
  end.
(** Whole formulas: one [~], at the top. *)
Definition sensible_formula (n : node) : Prop :=
  lit "~" n /\ (length (n_args n) = 1 \/ length (n_args n) = 2) /\ Forall sensible (n_args n).
End Sem.

(** Trees the parser can return with the default operators for a formula whose text
    is [code]. *)
Inductive formula_tree (code : string) : node -> Prop :=
| ft_leaf ty t text o :
    In ty ["PYTHON_EXPR"; "ZERO"; "ONE"; "NUMBER"]%string -> tk_extra t = Some text ->
    o_code o = code -> formula_tree code (Node (TName ty) (Some t) [] (Some o))
| ft_un ty t a o : In ty ["~"; "+"; "-"]%string -> formula_tree code a ->
    o_code o = code -> formula_tree code (Node (TName ty) (Some t) [a] (Some o))
| ft_bin ty t a b o : In ty ["~"; "+"; "-"; "*"; "/"; ":"; "**"]%string ->
    formula_tree code a -> formula_tree code b ->
    o_code o = code -> formula_tree code (Node (TName ty) (Some t) [a; b] (Some o)).
(** ... and after the [~] has been added if it was missing. *)
Definition formula_top (code : string) (n : node) : Prop :=
  (formula_tree code n /\ lit "~" n) \/
  (exists a o, n = Node (TName "~") None [a] (Some o) /\ o_code o = code /\
               formula_tree code a /\ ~ lit "~" a).

(** [plus_chain n es]: [n] is [e1 + e2 + ... + ek], no [ei] (i > 1) the literal 0. *)
Inductive plus_chain : node -> list node -> Prop :=
| pc_one n : plus_chain n [n]
| pc_snoc a b tok o es : plus_chain a es -> ~ lit "ZERO" b ->
    plus_chain (Node (TName "+") tok [a; b] o) (es ++ [b]).

(** Chains of signed items: the literals 0 and 1, and expressions that say nothing
    about the intercept. *)
Inductive item := I0 | I1 | IExpr.
Inductive sign := Plus | Minus.
Inductive item_of : node -> item -> Prop :=
| io_zero t o : item_of (Node (TName "ZERO") t [] o) I0
| io_one t o : item_of (Node (TName "ONE") t [] o) I1
| io_expr n : status n = Default -> ~ lit "ZERO" n -> ~ lit "ONE" n -> item_of n IExpr.
Inductive chain : node -> list (sign * item) -> Prop :=
| ch_one n i : item_of n i -> chain n [(Plus, i)]
| ch_plus n i t o : item_of n i -> chain (Node (TName "+") t [n] o) [(Plus, i)]
| ch_minus n i t o : item_of n i -> i <> IExpr -> chain (Node (TName "-") t [n] o) [(Minus, i)]
| ch_add a b i l t o : chain a l -> item_of b i -> chain (Node (TName "+") t [a; b] o) (l ++ [(Plus, i)])
| ch_sub a b i l t o : chain a l -> item_of b i -> chain (Node (TName "-") t [a; b] o) (l ++ [(Minus, i)]).

(** What one item says about the intercept. *)
Definition mention (x : sign * item) : option bool :=
  match x with
  | (Plus, I1) | (Minus, I0) => Some true
  | (Plus, I0) | (Minus, I1) => Some false
  | (_, IExpr) => None
  end.
(** The last thing said; [default] if nothing is. *)
Definition last_mention (default : bool) (l : list (sign * item)) : bool :=
  fold_left (fun acc x => match mention x with Some b => b | None => acc end) l default.

(** All rounds of interaction of [ts], without the cap (C14): round 1 is [ts], each
    further round interacts [ts] with the one before. *)
Definition cross (xs ys : list term) : list term :=
  uniq_terms (flat_map (fun x => map (fun y => mk_term (x ++ y)) ys) xs).
Fixpoint rounds (ts : list term) (round : list term) (k : nat) : list term :=
  match k with
  | 0 => []
  | S k => round ++ rounds ts (cross ts round) k
  end.

(** What a [~] formula says: the sides' terms, with [[]] for the intercept. *)
Section Sides.
Variable norm : string -> string.
Definition rhs_mem (r : node) (s : list string) : Prop :=
  mem norm r s \/ (s = [] /\ status r <> Removed).
Definition lhs_mem (l : node) (s : list string) : Prop :=
  mem norm l s \/ (s = [] /\ status l = Present).
End Sides.

(** Documented expansions (C60), as trees. *)
Definition n_plus (a b : node) : node := Node (TName "+") None [a; b] None.
Definition n_colon (a b : node) : node := Node (TName ":") None [a; b] None.
Definition n_times (a b : node) : node := Node (TName "*") None [a; b] None.

(** The formula [~ e]; the terms of a termlist other than the intercept. *)
Definition rhs_of (e : node) : node := Node (TName "~") None [e] None.
Definition proper (ts : list term) : list term := filter (fun t => negb (Nat.eqb (length t) 0)) ts.

(** No two terms have the same factors, no term repeats a factor, and the intercept
    can only be first. *)
Definition tidy (ts : list term) : Prop :=
  (forall i j t u, nth_error ts i = Some t -> nth_error ts j = Some u -> same_set t u -> i = j) /\
  Forall (@NoDup string) ts /\ (In [] ts -> exists us, ts = [] :: us).
Definition has_intercept (ts : list term) : Prop := In [] ts.
Definition starts_with_intercept (ts : list term) : Prop := exists us, ts = [] :: us.
