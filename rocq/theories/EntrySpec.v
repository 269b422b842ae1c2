(** What the entries of design matrices should be, from the values of the factors. *)
From Coq Require Import ZArith Sorted.
From Verif Require Import Base DescModel BuildModel BuildSpec CategoricalModel CategoricalSpec PipeModel PipeSpec.
Open Scope nat_scope.
Open Scope list_scope.

(** The codes of categorical data with the given levels; pandas data brings its own. *)
Inductive codes_are {C : Type} (levels : list pval) (na : na_types) : @value C -> list Z -> Prop :=
| ca_values v d l codes : (v = Plain d /\ ~ is_pandas d \/ exists c bl, v = Boxed d c bl) -> consists_of d l ->
    Forall2 (coded na levels) l codes -> codes_are levels na v codes
| ca_pandas cats codes : Forall2 same cats levels -> codes_are levels na (Plain (DPandas cats codes)) codes.
(** The codes in pandas data (given to [C]) are negative or number a category. *)
Definition proper_codes {C : Type} (v : @value C) : Prop :=
  match v with
  | Boxed (DPandas cats codes) _ _ => Forall (fun z => (z < 0)%Z \/ Z.to_nat z < length cats) codes
  | _ => True
  end.
(** The factors of designs. *)
Definition factors_in {V S : Type} (ds : list (@design V S)) : list factor := flat_map (fun x => map fst (infos_of (ds_info x))) ds.

Section Spec.
Context {V I C D : Type}.
Variables (vone : V) (vmul : V -> V -> V) (visnan : V -> bool).
Variable origin_of : factor -> option origin.
Variable addr : pval -> nat.
Variable hash_order : list pval -> list pval.
Variable code_cm : list pval -> option C -> bool -> result (@ctr V).
(** [value_is f g]: evaluated on any data [d], after training, the factor [f] gives [g d]. *)
Variable value_is : factor -> (D -> result (@fobj V I C)) -> Prop.
(** What counts as missing in training, and the training data; the same for the data the matrix is made of. *)
Variable na : na_types.
Variable exam : list D.
Variable na' : na_types.
Variable d : D.

(** The factor's values as categorical data. *)
Definition as_value (g : D -> result (@fobj V I C)) (f : factor) (d : D) : result (@value C) := let* o := g d in Ok (o_value o).
(** The factor [f] is, after training, numeric or categorical with these levels and contrast, and has these
    values on [d]. *)
Inductive factor_value (f : factor) : list pval -> option C -> @fvalue V -> Prop :=
| fv_num g n o : value_is f g -> type_of (as_value g) origin_of na f exam = Ok (Some (TNum n)) ->
    g d = Ok o -> o_ndim o <= 2 -> o_isnum o = true -> o_ncols o = n -> factor_value f [] None (VNum n (o_rows o))
| fv_cat g sn levels c o codes : value_is f g -> type_of (as_value g) origin_of na f exam = Ok (Some (TCat sn)) ->
    levels_contrast addr hash_order sn = (levels, c) -> g d = Ok o -> codes_are levels na' (o_value o) codes ->
    factor_value f levels c (VCat codes).

(** What [f] contributes to row [k] in its column [i], if its contrast matrix is [cm]: the number, or the entry
    in the row of the contrast matrix that belongs to the level; the contrast matrix is the one that the
    factor's contrast gives for its levels. *)
Inductive contributes (f : factor) (cm : option (@ctr V)) (i k : nat) (v : V) : Prop :=
| con_num lv c n rows row : factor_value f lv c (VNum n rows) -> cm = None -> nth_error rows k = Some row -> nth_error row i = Some v -> contributes f cm i k v
| con_cat levels c codes z m full row : factor_value f levels c (VCat codes) -> nth_error codes k = Some (Z.of_nat z) ->
    cm = Some m -> code_cm levels c full = Ok m -> nth_error (ct_rows m) z = Some row -> nth_error row i = Some v -> contributes f cm i k v.
(** [f] is missing in row [k]. *)
Inductive lacks (f : factor) (k : nat) : Prop :=
| lk_num lv c n rows row x : factor_value f lv c (VNum n rows) -> nth_error rows k = Some row -> In x row -> nan_is_na na' = true -> visnan x = true -> lacks f k
| lk_cat levels c codes : factor_value f levels c (VCat codes) -> nth_error codes k = Some (-1)%Z -> lacks f k.

(** The matrix [m] of the design has, for each of its columns and the rows [ks] of the data, the product of what
    the factors contribute. *)
Definition entries_are (ks : list nat) (x : @design_info V) (m : @dmat V) : Prop :=
  m_rows m = length ks /\
  column_names x = map (fun id => label (infos_of x) (snd (fst id)) (snd id)) (columns_of (infos_of x) (codings_of x)) /\
  Forall2 (fun id col => length col = length ks /\ forall r k, nth_error ks r = Some k ->
      exists vs, Forall2 (fun p v => contributes (fst p) (dget String.eqb (fst p) (si_contrasts (snd (fst id)))) (snd p) k v) (combine (si_factors (snd (fst id))) (snd id)) vs /\
        nth_error col r = Some (fold_left vmul vs vone))
    (columns_of (infos_of x) (codings_of x)) (m_cols m).
(** The factors [fs] (and the data frame, if the data is one, with the index [df]) have [n] rows; [ks] are the
    rows in which none of the factors is missing. *)
Definition rows_used (df : option (list I)) (fs : list factor) (n : nat) (ks : list nat) : Prop :=
  (forall f, In f fs -> exists lv c v, factor_value f lv c v /\ vrows v = n) /\ (forall i, df = Some i -> length i = n) /\
  StronglySorted lt ks /\ forall k, In k ks <-> k < n /\ forall f, In f fs -> ~ lacks f k.
End Spec.
