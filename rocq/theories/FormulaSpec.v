(** Specification for whole formulas: the tokens of [describe()], and Python token
    lists that spell them. *)
From Verif Require Import Base InfixModel DescModel DescSpec TokensModel ParseFormulaModel ParseFormulaSpec.

(** The operator strings of the formula language. *)
Definition formula_ops : list string := ["~"; "~"; "+"; "-"; "*"; "/"; ":"; "**"; "+"; "-"]%string.

(** A formula as a reader sees it: operators and embedded expressions. *)
Inductive dtok := DOp (s : string) | DExpr (text : string).

Fixpoint sep_by {A} (sep : A) (l : list (list A)) : list A :=
  match l with
  | [] => []
  | x :: r => x ++ match r with [] => [] | _ => sep :: sep_by sep r end
  end.

(** [a:b:c], or [1] for the intercept. *)
Definition term_toks (t : term) : list dtok :=
  match t with
  | [] => [DExpr "1"]
  | _ => sep_by (DOp ":") (map (fun f => [DExpr f]) t)
  end.
(** [t1 + t2 + ...] *)
Definition sum_toks (ts : list (list dtok)) : list dtok := sep_by (DOp "+") ts.
(** Right side: [1] alone; otherwise the terms, the intercept left implicit and its
    absence written [0]. *)
Definition rhs_toks (ts : list term) : list dtok :=
  match ts with
  | [[]] => [DExpr "1"]
  | [] :: us => sum_toks (map term_toks us)
  | us => sum_toks ([DExpr "0"] :: map term_toks us)
  end.
Definition describe_toks (m : model_desc) : list dtok :=
  sum_toks (map term_toks (lhs_termlist m)) ++ DOp "~" :: rhs_toks (rhs_termlist m).

(** Text: [:] is written tight, [+] and [~] with a space on both sides (no space at
    the very beginning). *)
Definition dtext (t : dtok) : string :=
  match t with
  | DExpr s => s
  | DOp s => if String.eqb s ":" then ":"%string else (" " ++ s ++ " ")%string
  end.
Definition dlayout (l : list dtok) : string :=
  match l with
  | DOp s :: r => (s ++ " " ++ String.concat "" (map dtext r))%string
  | _ => String.concat "" (map dtext l)
  end.

(** [spells l it]: the Python tokens [it] are those of the formula [l]: operators are
    single tokens, an expression with text [s] is a balanced sequence of tokens with
    no operator outside brackets, whose normalised text is [s]. *)
Definition spell1 (t : dtok) (g : group) : Prop :=
  match t, g with
  | DOp s, GMagic p => pt_string p = s
  | DExpr s, GExpr ts => embedded formula_ops ts /\
      pretty_untokenize (map (fun t => (pt_type t, pt_string t)) ts) = Ok s
  | _, _ => False
  end.
Definition spells (l : list dtok) (it : list pytok) : Prop :=
  exists gs, flatten gs = it /\ Forall2 spell1 l gs.

(** The embedded expressions of the Python tokens [it] of a formula. *)
Definition embedded_in (it : list pytok) (s : string) : Prop :=
  exists gs ts, segmentation formula_ops gs /\ flatten gs = it /\ In (GExpr ts) gs /\
    pretty_untokenize (map (fun t => (pt_type t, pt_string t)) ts) = Ok s.
