(** What the arguments of [subset] select. *)
From Verif Require Import Base DescModel FormulaModel BuildModel BuildSpec.

(** [w] is the name of a term of the design, or is one of its terms. *)
Definition chosen {V} (d : @design_info V) (w : which) (t : term) : Prop :=
  In t (map fst (codings_of d)) /\ match w with WName s => term_name t = s | WTerm u => u = t end.
