(** The rank of the matrices that are built (C81): the columns of a matrix as functions of its rows, and how the
    levels and numbers of the rows follow from the values of the factors. *)
From Coq Require Import ZArith.
From Verif Require Import Base RankSpec DescModel BuildModel BuildSpec CategoricalModel PipeModel EntrySpec.
Open Scope list_scope.

Section Spec.
Context {V I C D : Type} (rO : V).
(** The columns of a matrix, as functions of the row number; which rows there are. *)
Definition matrix_columns (m : @dmat V) : list (nat -> V) := map (fun col r => nth r col rO) (m_cols m).
Definition matrix_row (m : @dmat V) (r : nat) : Prop := r < m_rows m.

(** The number of columns and the entries of what [code_contrast_matrix] gives. *)
Definition cm_cols (c : result (@ctr V)) : nat := match c with Ok m => ct_ncols m | Err _ => 0 end.
Definition cm_entry (c : result (@ctr V)) (l i : nat) : V := match c with Ok m => nth i (nth l (ct_rows m) []) rO | Err _ => rO end.

(** [factor_value f levels contrast v]: see EntrySpec.  [ks] are the rows of the data that are rows of the matrix. *)
Variable factor_value : factor -> list pval -> option C -> @fvalue V -> Prop.
Variable ks : list nat.
(** [num], [levels], [contrast]: the numeric factors with their numbers of columns, and the levels and contrasts
    of the others; [level r f] and [number r f i]: the level of [f], and its number in column [i], in row [r] of
    the matrix. *)
Definition describes (terms : list term) (num : factor -> option nat) (levels : factor -> list pval) (contrast : factor -> option C)
    (level : nat -> factor -> nat) (number : nat -> factor -> nat -> V) : Prop :=
  forall f, In f (concat terms) ->
  match num f with
  | Some n => exists rows, factor_value f [] None (VNum n rows) /\
      forall r k row i v, nth_error ks r = Some k -> nth_error rows k = Some row -> nth_error row i = Some v -> number r f i = v
  | None => exists codes, factor_value f (levels f) (contrast f) (VCat codes) /\
      forall r k, nth_error ks r = Some k -> nth_error codes k = Some (Z.of_nat (level r f)) /\ level r f < length (levels f)
  end.
End Spec.
