(** What stands between a formula with data and the matrices. *)
From Verif Require Import Base DescModel FormulaModel BuildModel BuildSpec NameSpec MemorizeModel MemorizeSpec CategoricalModel CategoricalSpec PipeModel PipeSpec PipeErrSpec.
Open Scope nat_scope.
Open Scope string_scope.
Open Scope list_scope.

Section Spec.
Context {V I C S D : Type}.
Variable passes : factor -> result (S * Z).
Variable chunk : factor -> S -> nat -> D -> result S.
Variable finish : factor -> S -> nat -> result S.
Variable eval : factor -> S -> D -> result (@fobj V I C).
Variable origin_of : factor -> option origin.
Variable code_cm : list pval -> option C -> bool -> result (@ctr V).
Variable addr : pval -> nat.
Variable hash_order : list pval -> list pval.
(** The kinds of missing values, the data and the terms. *)
Variables (na : na_types) (data : nat -> list D) (tls : list (list term)).

Local Notation fs := (factors_of tls).
Local Notation learned := (learned passes chunk finish eval origin_of addr hash_order na data fs).

(** The texts of the factors cannot be mistaken, and neither can the suffixes of any contrast that is used. *)
Definition nameable (tl : list term) : Prop :=
  Forall plain (concat tl) /\
  forall f s n levels c full m, In f (concat tl) -> learned f s (FCat n) levels c -> code_cm levels c full = Ok m ->
    NoDup (ct_suffixes m) /\ Forall bracketed (ct_suffixes m).

(** The errors there can be when designs are made. *)
Inductive unmade : exn -> Prop :=
| un_train f e : In f fs -> passes f = Err e \/ (exists s k, passes f = Ok (s, k) /\ run chunk finish s (calls_for data (Z.to_nat k) f) = Err e) -> unmade e
| un_type f s e : In f fs -> trained passes chunk finish data f s ->
    type_of (value_with eval s) origin_of na f (exam_chunks passes data fs) = Err e -> unmade e
| un_empty f : In f fs -> exam_chunks passes data fs = [] -> unmade AssertionError
| un_contrast f s n levels c full e : In f fs -> learned f s (FCat n) levels c -> code_cm levels c full = Err e -> unmade e
| un_names tl e : In tl tls -> ~ nameable tl -> e = AssertionError \/ (exists m, e = ValueError m) -> unmade e.

(** What [f] gives is good for a matrix of [n] rows (with 'raise': without missing values). *)
Inductive suits (raise : bool) (n : nat) (o : @fobj V I C) (visnan : V -> bool) : Prop :=
| su_num k : numerical (o_value o) k -> o_ndim o <= 2 -> o_ncols o = k -> o_isnum o = true -> List.length (o_rows o) = n ->
    (raise = true -> nan_is_na na = true -> forall row x, In row (o_rows o) -> In x row -> visnan x = false) -> suits raise n o visnan
| su_cat l : guess_categorical (o_value o) = true -> chunk_values (o_value o) l -> List.length l = n -> Forall (usable na) l ->
    (raise = true -> forall x, In x l -> ~ missing na x) -> suits raise n o visnan
| su_levels x c levels l : o_value o = Boxed x c (Some levels) -> consists_of x l -> List.length l = n ->
    (forall k m, x = DBools k m -> (exists y, In y levels /\ same y (VBool false)) /\ exists y, In y levels /\ same y (VBool true)) ->
    forallb hashable levels = true -> Forall (usable na) l -> (forall y, In y l -> missing na y \/ exists z, In z levels /\ same z y) ->
    (raise = true -> forall y, In y l -> ~ missing na y) -> suits raise n o visnan
| su_pandas cats codes : o_value o = Plain (DPandas cats codes) -> List.length codes = n -> (raise = true -> ~ In (-1)%Z codes) -> suits raise n o visnan.
End Spec.

Section High.
Context {V I C S D : Type}.
Variable passes : factor -> result (S * Z).
Variable chunk : factor -> S -> nat -> D -> result S.
Variable finish : factor -> S -> nat -> result S.
Variable eval : factor -> S -> D -> result (@fobj V I C).
Variable origin_of : factor -> option origin.
Variable code_cm : list pval -> option C -> bool -> result (@ctr V).
Variable addr : pval -> nat.
Variable hash_order : list pval -> list pval.
Variable df_index : D -> option (list I).
Variable visnan : V -> bool.
Variable have_pandas : bool.
(** [ModelDesc.from_formula]. *)
Variable described_by : string -> result model_desc.

(** The first argument stands for this description. *)
Definition describes (fl : @formula_like V I S) (md : model_desc) : Prop :=
  match fl with
  | FStr s => described_by s = Ok md
  | FDesc m => m = md
  | FMethod r => r = Ok (Some md)
  | _ => False
  end.
(** The first argument does not stand for any. *)
Definition undescribed (fl : @formula_like V I S) (e : exn) : Prop :=
  match fl with
  | FStr s => described_by s = Err e
  | FMethod r => r = Err e \/ r = Ok None /\ e = PatsyError "bad value from __patsy_get_model_desc__" None
  | _ => False
  end.

Definition sides (md : model_desc) : list (list term) := [lhs_termlist md; rhs_termlist md].
Definition is_raise (a : on_na) : bool := match a with NARaise => true | NADrop => false end.
(** What can go wrong between a description with data and matrices. *)
Inductive unbuilt (d : D) (na : na_arg) (rt : rtype) (md : model_desc) : exn -> Prop :=
| ub_pandas : rt = RDataFrame -> have_pandas = false -> unbuilt d na rt md (PatsyError "pandas.DataFrame was requested, but pandas is not installed" None)
| ub_type : rt = RUnknown -> unbuilt d na rt md (PatsyError "unrecognized output type, should be 'matrix' or 'dataframe'" None)
| ub_action e : get_action na = Err e -> unbuilt d na rt md e
| ub_unmade act e : get_action na = Ok act ->
    unmade passes chunk finish eval origin_of code_cm addr hash_order (na_what act) (fun _ => [d]) (sides md) e -> unbuilt d na rt md e
| ub_data act e : get_action na = Ok act ->
    goes_wrong passes chunk finish eval origin_of addr hash_order df_index visnan (na_what act) (na_what act) (fun _ => [d]) d
      (factors_of (sides md)) (factors_of (sides md)) (is_raise (na_on act)) e -> unbuilt d na rt md e.

(** Everything is as it should be: the kind of result is known, each factor's own code works, what it gives suits the
    others and the index of the data, the contrasts accept the levels, and names cannot be mistaken. *)
Definition in_order (d : D) (act : na_action) (rt : rtype) (md : model_desc) (n : nat) (index : option (list I)) : Prop :=
  let na := na_what act in let fs := factors_of (sides md) in let data := fun _ : nat => [d] in
  rt <> RUnknown /\ (rt = RDataFrame -> have_pandas = true) /\
  (forall f, In f fs -> exists s o, trained passes chunk finish data f s /\ eval f s d = Ok o /\
     suits na (is_raise (na_on act)) n o visnan /\ (o_index o = None \/ o_index o = index)) /\
  (df_index d = None \/ df_index d = index) /\ (forall i, df_index d = Some i -> List.length i = n) /\
  (fs = [] -> df_index d <> None) /\
  (forall f s m levels c full, In f fs -> learned passes chunk finish eval origin_of addr hash_order na data fs f s (FCat m) levels c ->
     exists cm, code_cm levels c full = Ok cm) /\
  Forall (nameable passes chunk finish eval origin_of code_cm addr hash_order na data (sides md)) (sides md).
End High.
