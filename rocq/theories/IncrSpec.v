(** Data given in chunks: what it takes for the chunks, and the order of the rows, not to matter. *)
From Coq Require Import Permutation.
From Verif Require Import Base DescModel BuildModel BuildSpec CategoricalModel CategoricalSpec FitModel FitSpec PipeModel PipeSeedSpec.
Open Scope nat_scope.
Open Scope list_scope.

(** * Factors whose values are worked out row by row *)
Section Rows.
Context {val data St row cell : Type}.
Local Notation texpr := (@texpr val data St).
Local Notation tclass := (@tclass val St).
(** The rows of a chunk of data; a value has these cells, one for each row. *)
Variable rows_of : data -> list row.
Variable holds : val -> list cell -> Prop.

(** A part of the code is a constant, or has one cell for each row, which depends on that row alone. *)
Inductive meaning := Constant (v : val) | PerRow (g : row -> cell).
Definition means (m : meaning) (rows : list row) (v : val) : Prop :=
  match m with Constant v' => v = v' | PerRow g => holds v (map g rows) end.
Definition all_mean (ms : list meaning) (rows : list row) (vs : list val) : Prop := Forall2 (fun m v => means m rows v) ms vs.

(** All the data, and the chunks that occur. *)
Variable all : list row.
Variable chunks : list data.

(** Fitting a transform on these arguments, one list for each chunk. *)
Definition fit_on (c : tclass) (argss : list (list val)) : result St :=
  let* s := foldM (c_chunk c) argss (c_new c) in c_finish c s.
(** These are arguments that mean [ms] for all the data, split up in some way (without empty pieces) and in
    some order. *)
Definition pieces_of_all (ms : list meaning) (argss : list (list val)) : Prop :=
  exists pieces, pieces <> [] /\ ~ In [] pieces /\ Permutation (concat pieces) all /\ Forall2 (all_mean ms) pieces argss.
(** A transform that remembers the same however the data is split and ordered, and then works row by row. *)
Definition by_row (c : tclass) (ms : list meaning) (m : meaning) : Prop :=
  (forall argss argss' s, pieces_of_all ms argss -> pieces_of_all ms argss' -> fit_on c argss = Ok s -> fit_on c argss' = Ok s) /\
  (forall argss s rows vs, pieces_of_all ms argss -> fit_on c argss = Ok s -> rows <> [] -> incl rows all -> all_mean ms rows vs ->
    exists v, c_transform c s vs = Ok v /\ means m rows v).

(** Code that works row by row on the data. *)
Inductive rowwise : texpr -> meaning -> Prop :=
| rw_leaf f m : (forall d, In d chunks -> exists v, f d = Ok v /\ means m (rows_of d) v) -> rowwise (TLeaf f) m
| rw_op f args ms m : rowwises args ms ->
    (forall rows vs, rows <> [] -> incl rows all -> all_mean ms rows vs -> exists v, f vs = Ok v /\ means m rows v) -> rowwise (TOp f args) m
| rw_if truth a b e va t mb me : rowwise a (Constant va) -> truth va = Ok t -> rowwise b mb -> rowwise e me -> rowwise (TIf truth a b e) (if t then mb else me)
| rw_call o c args ms m : rowwises args ms -> by_row c ms m -> rowwise (TCall o c args) m
with rowwises : list texpr -> list meaning -> Prop :=
| rw_nil : rowwises [] []
| rw_cons e m args ms : rowwise e m -> rowwises args ms -> rowwises (e :: args) (m :: ms).

(** * Types that are the same in every chunk *)
Context {V I C : Type}.
Variable as_obj : val -> @fobj V I C.
Variables w1 w2 : run_of_python.
Variable na : na_types.

(** The contrast that is given with the data. *)
Definition contrast_in (v : @value C) : option C := match v with Boxed _ c _ => c | Plain _ => None end.
(** The data says what its levels are. *)
Inductive declares : @value C -> list pval -> option C -> Prop :=
| dc_boxed d c l : declares (Boxed d c (Some l)) l c
| dc_pandas cats codes : declares (Plain (DPandas cats codes)) cats None
| dc_boxed_pandas cats codes c : declares (Boxed (DPandas cats codes) c None) cats c.
(** What may become a level: the values that are not missing, and both booleans if there is one. *)
Definition occurs (cells : list pval) (x : pval) : Prop :=
  In x cells /\ ~ missing na x \/ is_bool x /\ exists b, In (VBool b) cells.
(** Numerical in all chunks; or categorical, with levels to be found in the data (which are not written in
    two ways, as 1 and True, and which can be sorted); or with declared levels. *)
Inductive steady (m : meaning) : Prop :=
| st_numbers n : (forall d v, In d chunks -> means m (rows_of d) v -> numerical (o_value (as_obj v)) n) -> steady m
| st_categories (value : row -> pval) c :
    (forall d v, In d chunks -> means m (rows_of d) v ->
      chunk_values (o_value (as_obj v)) (map value (rows_of d)) /\ guess_categorical (o_value (as_obj v)) = true /\ contrast_in (o_value (as_obj v)) = c) ->
    zero_one_pure na (map value all) -> Forall (usable na) (map value all) ->
    (forall x y, occurs (map value all) x -> occurs (map value all) y -> same x y -> x = y) ->
    (forall l, (forall x, In x l -> occurs (map value all) x) -> order_fixed w1 w2 l) -> steady m
| st_declared levels c : (forall d v, In d chunks -> means m (rows_of d) v -> declares (o_value (as_obj v)) levels c) -> steady m.

(** The chunks do not matter for a factor: each transform that is called in its code has its own object and is
    fitted after those in its arguments, the code works row by row and the type is the same in every chunk. *)
Definition chunk_free (e : texpr) (bins : list (list string)) : Prop :=
  NoDup (map fst (calls e)) /\ inner_first e bins /\ exists m, rowwise e m /\ steady m.
End Rows.
(** Designs in the same place of two lists. *)
Definition paired {X} (ds1 ds2 : list X) (x y : X) : Prop := In (x, y) (List.combine ds1 ds2).
