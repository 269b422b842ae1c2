(** When a whole design matrix, with numeric factors, has full rank and what it spans (C81). *)
From Coq Require Import ZArith.
From Verif Require Import Base RankSpec DescModel BuildModel BuildSpec.
Open Scope list_scope.

Section Spec.
Context {R : Type} (rO rI : R) (radd rmul : R -> R -> R).
Context {P : Type}.                              (* rows *)
Variable ok : P -> Prop.                         (* the rows of the matrix *)
Variable num : factor -> option nat.             (* numeric factors have a number of columns *)
Variable level : P -> factor -> nat.             (* the level of a categorical factor in a row *)
Variable number : P -> factor -> nat -> R.       (* the entry of a numeric factor in a row *)

Definition is_numeric (f : factor) : bool := match num f with Some _ => true | None => false end.
Definition width (f : factor) : nat := match num f with Some n => n | None => 0 end.
Definition numerics (t : term) : list factor := filter is_numeric t.
Definition categoricals (t : term) : list factor := filter (fun f => negb (is_numeric f)) t.
Definition all_categoricals (terms : list term) : list factor := concat (map categoricals terms).

(** The product of columns of numeric factors. *)
Definition product (a : list (factor * nat)) (p : P) : R := rprod rI rmul (fun q => number p (fst q) (snd q)) a.
(** One column of each numeric factor of a term. *)
Definition chooses (t : term) (ks : list nat) : Prop := Forall2 (fun k f => k < width f) ks (numerics t).
Definition product_in (terms : list term) (a : list (factor * nat)) : Prop :=
  exists t ks, In t terms /\ chooses t ks /\ a = combine (numerics t) ks.
(** The data is rich enough for the model: for every combination of levels, on the rows with these levels
    the different products of numeric columns are linearly independent.  (Without numeric factors: every
    combination of levels has a row.) *)
Definition rich (nlev : factor -> nat) (terms : list term) : Prop :=
  forall rho, legit nlev (all_categoricals terms) rho ->
  forall ms, Forall (product_in terms) ms -> ForallOrdPairs (fun a b => ~ forall q, In q a <-> In q b) ms ->
    independent rO radd rmul (fun p => ok p /\ forall f, In f (all_categoricals terms) -> level p f = rho f) (map product ms).

(** The model: sums of products of the numeric columns of a term with any function of the levels of its
    categorical factors. *)
Definition in_model (terms : list term) (Y : P -> R) : Prop :=
  exists gs : list (term * list nat * ((factor -> nat) -> R)),
    Forall (fun x => let '(t, ks, g) := x in In t terms /\ chooses t ks /\
      forall r r', (forall f, In f (categoricals t) -> r f = r' f) -> g r = g r') gs /\
    forall p, ok p -> Y p = rsum rO radd (fun x => let '(t, ks, g) := x in rmul (product (combine (numerics t) ks) p) (g (level p))) gs.

(** The contrast matrices [code_cm] gives have the entries [M]. *)
Definition contrasts_are (code_cm : factor -> bool -> result (@ctr R)) (nlev : factor -> nat) (ncol : factor -> bool -> nat) (M : factor -> bool -> nat -> nat -> R) : Prop :=
  forall f b m, code_cm f b = Ok m -> ct_ncols m = ncol f b /\
    forall l i, l < nlev f -> i < ncol f b -> nth i (nth l (ct_rows m) []) rO = M f b l i.

(** The values of a column of a design: the product of the entries of its factors, read from the contrast
    matrices of the subterm for categorical factors. *)
Definition entry_of (s : @subterm_info R) (f : factor) (i : nat) (p : P) : R :=
  match dget String.eqb f (si_contrasts s) with
  | Some m => nth i (nth (level p f) (ct_rows m) []) rO
  | None => number p f i
  end.
Definition column (id : @column_id R) (p : P) : R :=
  rprod rI rmul (fun q => entry_of (snd (fst id)) (fst q) (snd q) p) (combine (si_factors (snd (fst id))) (snd id)).
End Spec.
