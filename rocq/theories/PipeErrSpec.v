(** What can go wrong when designs are used on data. *)
From Verif Require Import Base DescModel FormulaModel BuildModel BuildSpec CategoricalModel PipeModel PipeSpec EntrySpec.
Open Scope nat_scope.
Open Scope string_scope.

(** What a factor returns is tidy: the rows have as many numbers as there are columns, and codes are -1 or positions
    of categories. *)
Definition tidy {V I C : Type} (o : @fobj V I C) : Prop :=
  (forall row, In row (o_rows o) -> List.length row = o_ncols o) /\ proper_codes (o_value o) /\
  forall cats codes, o_value o = Plain (DPandas cats codes) -> Forall (fun z => (-1 <= z < Z.of_nat (List.length cats))%Z) codes.

Section Spec.
Context {V I C S D : Type}.
Variable passes : factor -> result (S * Z).
Variable chunk : factor -> S -> nat -> D -> result S.
Variable finish : factor -> S -> nat -> result S.
Variable eval : factor -> S -> D -> result (@fobj V I C).
Variable origin_of : factor -> option origin.
Variable addr : pval -> nat.
Variable hash_order : list pval -> list pval.
Variable df_index : D -> option (list I).
Variable visnan : V -> bool.
(** The kinds of missing values with which the designs were made and are used; the data they were made from and are
    used on; the factors of the formulas and of the designs used. *)
Variables (na na' : na_types) (data : nat -> list D) (d : D) (fs used : list factor).

(** On [d] the factor, as it was learned, is [o]. *)
Definition gives (f : factor) (k : fkind) (levels : list pval) (o : @fobj V I C) : Prop :=
  In f used /\ exists s c, learned passes chunk finish eval origin_of addr hash_order na data fs f s k levels c /\ eval f s d = Ok o.
(** The number of rows of the factor's value. *)
Definition rows_in (k : fkind) (levels : list pval) (o : @fobj V I C) (n : nat) : Prop :=
  match k with
  | FNum _ => List.length (o_rows o) = n
  | FCat _ => exists codes org, categorical_to_int (o_value o) levels na' org = Ok codes /\ List.length codes = n
  end.
(** Something in the factor's value is missing. *)
Definition lacking (k : fkind) (levels : list pval) (o : @fobj V I C) : Prop :=
  match k with
  | FNum _ => nan_is_na na' = true /\ exists row x, In row (o_rows o) /\ In x row /\ visnan x = true
  | FCat _ => exists codes org, categorical_to_int (o_value o) levels na' org = Ok codes /\ In (-1)%Z codes
  end.

(** The errors there can be, with 'raise' or without. *)
Inductive goes_wrong (raise : bool) : exn -> Prop :=
| gw_eval f s k levels c e : In f used -> learned passes chunk finish eval origin_of addr hash_order na data fs f s k levels c -> eval f s d = Err e -> goes_wrong raise e
| gw_deep f n levels o : gives f (FNum n) levels o -> 2 < o_ndim o ->
    goes_wrong raise (PatsyError ("factor '" ++ f ++ "' evaluates to an " ++ nat_str (o_ndim o) ++ "-dimensional array; I only handle arrays with dimension <= 2") (origin_of f))
| gw_columns f n levels o msg : gives f (FNum n) levels o -> o_ndim o <= 2 -> o_ncols o <> n -> goes_wrong raise (PatsyError msg (origin_of f))
| gw_type f n levels o : gives f (FNum n) levels o -> o_ndim o <= 2 -> o_ncols o = n -> o_isnum o = false -> o_index o = None ->
    goes_wrong raise (PatsyError ("when evaluating numeric factor " ++ f ++ ", I got non-numeric data") (origin_of f))
| gw_pandas_type f n levels o i : gives f (FNum n) levels o -> o_ndim o <= 2 -> o_ncols o = n -> o_isnum o = false -> o_index o = Some i ->
    goes_wrong raise AttributeError
| gw_codes f n levels o e : gives f (FCat n) levels o -> categorical_to_int (o_value o) levels na' (origin_of f) = Err e -> goes_wrong raise e
| gw_rows f k levels o n n' : gives f k levels o -> rows_in k levels o n -> n <> n' ->
    (exists i, df_index d = Some i /\ List.length i = n') \/ (exists f' k' levels' o', gives f' k' levels' o' /\ rows_in k' levels' o' n') ->
    goes_wrong raise (PatsyError "Number of rows mismatch" (origin_of f))
| gw_index f k levels o i j : gives f k levels o -> o_index o = Some i -> i <> j ->
    df_index d = Some j \/ (exists f' k' levels' o', gives f' k' levels' o' /\ o_index o' = Some j) ->
    goes_wrong raise (PatsyError "Index mismatch" (origin_of f))
| gw_missing f k levels o : raise = true -> gives f k levels o -> lacking k levels o -> goes_wrong raise (PatsyError "factor contains missing values" (origin_of f))
| gw_size : used = [] -> df_index d = None -> goes_wrong raise (PatsyError "I can't tell how many rows the design matrix should have!" None).
End Spec.
