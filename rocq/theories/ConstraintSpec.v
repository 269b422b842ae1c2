(** What linear constraints mean. *)
From Coq Require Import Ascii.
From Verif Require Import Base InfixModel InfixSpec NumModel ConstraintModel.
Open Scope nat_scope.

Definition cty (s : string) : ttype := TName s.

(** * Meaning of a constraint object *)
Fixpoint dot (a b : list Qc) : Qc :=
  match a, b with x :: a, y :: b => (x * y + dot a b)%Qc | _, _ => 0%Qc end.
(** [beta] gives each parameter a value. *)
Definition satisfies (c : lcon) (beta : string -> Qc) : Prop :=
  Forall2 (fun row k => dot row (map beta (lc_names c)) = k) (lc_coefs c) (lc_consts c).
Definition well_shaped (c : lcon) : Prop :=
  Forall (fun row => length row = length (lc_names c)) (lc_coefs c) /\ lc_coefs c <> [] /\ length (lc_coefs c) = length (lc_consts c).

(** * Reading a constraint string: [step names text ty rest] says that [text], read as a
    token of type [ty] (or skipped, [None]), comes first in [text ++ rest]. *)
Definition starts_with (x s : string) : Prop := exists r, s = (x ++ r)%string.
Definition chars_are (p : ascii -> bool) (s : string) : Prop := forallb p (list_ascii_of_string s) = true.
Definition digits (s : string) : Prop := chars_are is_digit s.

(** Unsigned decimal numbers. *)
Inductive exponent_text : string -> Prop :=
| et_none : exponent_text ""
| et_some e sign d : In e ["e"; "E"]%string -> In sign [""; "+"; "-"]%string -> digits d -> d <> ""%string ->
    exponent_text (e ++ sign ++ d).
Definition number_text (s : string) : Prop :=
  exists d1 point d2 e, s = (d1 ++ point ++ d2 ++ e)%string /\ digits d1 /\ In point [""; "."]%string /\
    digits d2 /\ d2 <> ""%string /\ exponent_text e.

Definition is_punct (s : string) : Prop := In s ["("; ")"; ","; "="; "+"; "-"; "*"; "/"]%string.
Definition punct_type (s : string) : ttype :=
  if String.eqb s "(" then TLParen else if String.eqb s ")" then TRParen else TName s.
Definition no_punct (s : string) : Prop := forall x, is_punct x -> ~ starts_with x s.
Definition no_name (names : list string) (s : string) : Prop := names <> [] /\ forall x, In x names -> ~ starts_with x s.

Inductive lexstep (names : list string) : string -> option ttype -> string -> Prop :=
| ls_punct x r : is_punct x -> lexstep names x (Some (punct_type x)) r
| ls_name x r : no_punct (x ++ r) -> In x names -> x <> ""%string ->
    (forall y, In y names -> starts_with y (x ++ r) -> String.length y <= String.length x) ->
    lexstep names x (Some (TName "VARIABLE")) r
| ls_number x r : no_punct (x ++ r) -> no_name names (x ++ r) -> number_text x ->
    (forall y, number_text y -> starts_with y (x ++ r) -> String.length y <= String.length x) ->
    lexstep names x (Some (TName "NUMBER")) r
| ls_space x r : no_punct (x ++ r) -> no_name names (x ++ r) -> x <> ""%string -> chars_are DescModel.is_space x ->
    (forall c s, r = String c s -> DescModel.is_space c = false) ->
    lexstep names x None r.

(** Tokens read from [s] (which starts at [pos] in [code]) up to a remainder. *)
Inductive lexes (names : list string) (code : string) : nat -> string -> list token -> string -> Prop :=
| lx_stop pos s : lexes names code pos s [] s
| lx_skip pos x r toks rest : lexstep names x None r ->
    lexes names code (pos + String.length x) r toks rest -> lexes names code pos (x ++ r) toks rest
| lx_token pos x ty r toks rest : lexstep names x (Some ty) r ->
    lexes names code (pos + String.length x) r toks rest ->
    lexes names code pos (x ++ r) (mkToken ty (mkOrigin code pos (pos + String.length x)) (Some x) :: toks) rest.

(** * Meaning of a constraint expression *)
Definition ttext (t : token) : string := match tk_extra t with Some s => s | None => "" end.
Definition tok_is (s : string) (t : token) : bool := ttype_eqb (tk_type t) (TName s).

Section Meaning.
Variable beta : string -> Qc.
Definition lift2 (f : Qc -> Qc -> option Qc) (a b : option Qc) : option Qc :=
  match a, b with Some x, Some y => f x y | _, _ => None end.
(** The number an arithmetic expression stands for. *)
Fixpoint val (c : cst) : option Qc :=
  match c with
  | CAtom t => if tok_is "VARIABLE" t then Some (beta (ttext t)) else Some (decimal_value (ttext t))
  | CUn t c => if tok_is "+" t then val c
               else if tok_is "-" t then option_map Qcopp (val c) else None
  | CBin l t r =>
      if tok_is "+" t then lift2 (fun x y => Some (x + y)%Qc) (val l) (val r)
      else if tok_is "-" t then lift2 (fun x y => Some (x - y)%Qc) (val l) (val r)
      else if tok_is "*" t then lift2 (fun x y => Some (x * y)%Qc) (val l) (val r)
      else if tok_is "/" t then lift2 (fun x y => if Qc_eq_bool y 0%Qc then None else Some (x / y)%Qc) (val l) (val r)
      else None
  | CParen _ c _ => val c
  end.

(** The members of a chain [e1 = e2 = ...]. *)
Fixpoint members (c : cst) : list cst :=
  match c with
  | CBin l t r => if tok_is "=" t then members l ++ members r else [c]
  | CParen _ c _ => members c
  | _ => [c]
  end.

(** Does [beta] satisfy the constraint?  A comma is a conjunction, a chain of equalities
    says that all its members are equal, a bare expression is equal to zero. *)
Fixpoint holds (c : cst) : Prop :=
  match c with
  | CParen _ c _ => holds c
  | CBin l t r =>
      if tok_is "," t then holds l /\ holds r
      else if tok_is "=" t then exists v, Forall (fun e => val e = Some v) (members c)
      else val c = Some 0%Qc
  | _ => val c = Some 0%Qc
  end.
End Meaning.

(** * Which expressions are linear constraints *)
Fixpoint unparen (c : cst) : cst := match c with CParen _ c _ => unparen c | _ => c end.
Definition equation (c : cst) : option (cst * cst) :=
  match unparen c with CBin l t r => if tok_is "=" t then Some (l, r) else None | _ => None end.
(** The expression does not depend on the parameters. *)
Definition constant (c : cst) : Prop := forall b1 b2, val b1 c = val b2 c.
Definition same_difference (c d : cst) : Prop :=
  forall b1 b2, lift2 (fun x y => Some (x - y)%Qc) (val b1 c) (val b1 d) = lift2 (fun x y => Some (x - y)%Qc) (val b2 c) (val b2 d).

Fixpoint linear (c : cst) : Prop :=
  match c with
  | CAtom _ => True
  | CUn _ c => linear c
  | CBin l t r =>
      linear l /\ linear r /\ tok_is "=" t = false /\ tok_is "," t = false /\
      (tok_is "*" t = true -> constant l \/ constant r) /\ (tok_is "/" t = true -> constant r)
  | CParen _ c _ => linear c
  end.
(** A linear expression or chain member must not itself be an equation; parenthesised
    equations may stand only at the outer side of an equation. *)
Fixpoint linear_constraint_expr (c : cst) : Prop :=
  match c with
  | CParen _ c _ => linear_constraint_expr c
  | CBin l t r =>
      if tok_is "," t then linear_constraint_expr l /\ linear_constraint_expr r
      else if tok_is "=" t then
        let lhs := match equation l with Some (_, e) => e | None => l end in
        let rhs := match equation r with Some (e, _) => e | None => r end in
        (equation l <> None -> linear_constraint_expr l) /\ (equation r <> None -> linear_constraint_expr r) /\
        linear lhs /\ linear rhs /\ ~ same_difference lhs rhs
      else linear c /\ ~ constant c
  | _ => linear c /\ ~ constant c
  end.
(** No division by an expression that is identically zero. *)
Fixpoint division_safe (c : cst) : Prop :=
  match c with
  | CAtom _ => True
  | CUn _ c => division_safe c
  | CBin l t r => division_safe l /\ division_safe r /\ (tok_is "/" t = true -> ~ forall b, val b r = Some 0%Qc)
  | CParen _ c _ => division_safe c
  end.
(** All variables are parameters. *)
Fixpoint known (names : list string) (c : cst) : Prop :=
  match c with
  | CAtom t => exists x, tk_extra t = Some x /\ (tok_is "VARIABLE" t = true -> In x names)
  | CUn _ c => known names c
  | CBin l _ r => known names l /\ known names r
  | CParen _ c _ => known names c
  end.

(** * The documented operator table
    (doc/API-reference.rst, "Linear constraints"): a comma binds weakest, then [=], then
    [+] and [-] (unary or binary), and [*] and [/] strongest; all group to the left. *)
Definition documented_constraint_ops : list operator :=
  let op s arity prec := mkOp (TName s) arity prec in
  [op "," 2 (-100); op "=" 2 0; op "+" 1 100; op "-" 1 100; op "+" 2 100; op "-" 2 100;
   op "*" 2 200; op "/" 2 200]%string%Z.
Definition documented_constraint_atoms : list ttype := map TName ["NUMBER"; "VARIABLE"]%string.
(** [code] can be read, and [c] is its reading. *)
Definition reads (names : list string) (code : string) (c : cst) : Prop :=
  lexes names code 0 code (yield c) "" /\ valid documented_constraint_ops documented_constraint_atoms c.

(** * Values of decimal numbers *)
Definition digit_of (c : ascii) : Z := (Z.of_nat (nat_of_ascii c) - 48)%Z.
Fixpoint place_value (s : string) : Z :=
  match s with EmptyString => 0%Z | String c r => (digit_of c * 10 ^ Z.of_nat (String.length r) + place_value r)%Z end.
Fixpoint ten_to (n : nat) : Qc := match n with 0 => 1%Qc | S n => (Q2Qc (10 # 1) * ten_to n)%Qc end.
(** The factor an exponent text stands for. *)
Inductive exponent_factor : string -> Qc -> Prop :=
| ef_none : exponent_factor "" 1%Qc
| ef_pos e sign d : In e ["e"; "E"]%string -> In sign [""; "+"]%string -> digits d -> d <> ""%string ->
    exponent_factor (e ++ sign ++ d) (ten_to (Z.to_nat (place_value d)))
| ef_neg e d : In e ["e"; "E"]%string -> digits d -> d <> ""%string ->
    exponent_factor (e ++ "-" ++ d) (/ ten_to (Z.to_nat (place_value d)))%Qc.

(** * Mappings *)
(** Which column a key names: a column name, or a position (negative ones count from the
    end). *)
Definition names_column (names : list string) (k : ckey) (i : nat) : Prop :=
  match k with
  | KName s => nth_error names i = Some s /\ forall j, j < i -> nth_error names j <> Some s
  | KInt z => i < length names /\ (z = Z.of_nat i \/ z = Z.of_nat i - Z.of_nat (length names))%Z
  end.
