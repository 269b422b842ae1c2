(** When one model can do everything that another can (C100): the coefficients of the one can be turned into
    coefficients of the other that predict the same, on any data. *)
From Coq Require Import ZArith Permutation Ring_theory.
From Verif Require Import Base RedundancySpec RankSpec DescModel BuildModel BuildSpec MemorizeModel CategoricalModel PipeModel PipeSpec EntrySpec RankMatSpec RankPipeSpec.
Open Scope list_scope.

(** * Which models contain which *)
Section Nested.
Context {R : Type} (rI : R) (rmul : R -> R -> R).
(** Rows of data, as two designs see them. *)
Context {P : Type} (ok : P -> Prop).
Variables (num1 num2 : factor -> option nat) (level1 level2 : P -> factor -> nat) (number1 number2 : P -> factor -> nat -> R).
(** The term [u] can do everything that the term [t] can: the products of the columns of numeric factors that [t]
    has are among those of [u], and the levels of the categorical factors of [t] follow from those of [u]. *)
Definition covers (t u : term) : Prop :=
  (forall ks, chooses num1 t ks -> exists ks', chooses num2 u ks' /\
     forall p, ok p -> product rI rmul number1 (combine (numerics num1 t) ks) p = product rI rmul number2 (combine (numerics num2 u) ks') p) /\
  exists h : (factor -> nat) -> factor -> nat,
    (forall r r', (forall f, In f (categoricals num2 u) -> r f = r' f) -> forall f, In f (categoricals num1 t) -> h r f = h r' f) /\
    forall p, ok p -> forall f, In f (categoricals num1 t) -> level1 p f = h (level2 p) f.
Definition nested (tl1 tl2 : list term) : Prop := forall t, In t tl1 -> exists u, In u tl2 /\ covers t u.
End Nested.
(** For terms over the same factors: [u] has the same numeric factors, and all the categorical factors, of [t]. *)
Definition margin_of (num : factor -> option nat) (t u : term) : Prop :=
  (forall f, In f (numerics num t) <-> In f (numerics num u)) /\ incl (categoricals num t) (categoricals num u).
Definition margins (num : factor -> option nat) (tl1 tl2 : list term) : Prop := forall t, In t tl1 -> exists u, In u tl2 /\ margin_of num t u.

(** * Designs, and the rows of their matrices *)
Section Designs.
Context {V : Type} (rO rI : V) (radd rmul : V -> V -> V).

Section Call.
Context {I C S D : Type} (visnan : V -> bool) (ilabel : nat -> I) (ieqb : I -> I -> bool)
  (passes : factor -> result (S * Z)) (eval : factor -> S -> D -> result (@fobj V I C))
  (origin_of : factor -> option origin) (addr : pval -> nat) (hash_order : list pval -> list pval) (df_index : D -> option (list I)).
(** After training with [na] on [exam], the design [x], one of [ds], of the terms [tl] has been made. *)
Variables (value_is : factor -> (D -> result (@fobj V I C)) -> Prop) (na : na_types) (exam : list D)
  (ds : list (@design V S)) (x : @design V S) (tl : list term) (num : factor -> option nat) (levels : factor -> list pval) (contrast : factor -> option C).
(** [m] is the matrix that [build_design_matrices] made of the design [x], alone or together with others, from some
    data; in row [r] of [m] the categorical factors have the levels [lev] and the numeric ones the numbers [nu]. *)
Inductive row_of (m : @dmat V) (r : nat) (lev : factor -> nat) (nu : factor -> nat -> V) : Prop :=
  row_of_intro used d na' w ms labels i level number :
    incl used ds -> (forall f g o, In f (factors_in used) -> value_is f g -> g d = Ok o -> proper_codes (o_value o)) ->
    build rI rmul visnan ilabel ieqb eval origin_of df_index used d na' w = Ok (ms, labels) ->
    nth_error used i = Some x -> nth_error ms i = Some m -> r < m_rows m ->
    (forall act' n ks, get_action na' = Ok act' ->
       rows_used visnan origin_of addr hash_order value_is na exam (na_what act') d (df_index d) (factors_in used) n ks ->
       describes (factor_value origin_of addr hash_order value_is na exam (na_what act') d) ks tl num levels contrast level number) ->
    (forall f, lev f = level r f) -> (forall f k, nu f k = number r f k) -> row_of m r lev nu.
End Call.

(** A design of the terms [tl], made by [design_matrix_builders] from some data, with [c] columns; of its factors,
    [num] says which are numeric.  [rows] are the rows of the matrices that come from it. *)
Inductive design_of (tl : list term) (num : factor -> option nat) : nat -> (@dmat V -> nat -> (factor -> nat) -> (factor -> nat -> V) -> Prop) -> Prop :=
  design_of_intro (I C S D : Type) (visnan : V -> bool) (ilabel : nat -> I) (ieqb : I -> I -> bool)
    (passes : factor -> result (S * Z)) (chunk : factor -> S -> nat -> D -> result S) (finish : factor -> S -> nat -> result S) (eval : factor -> S -> D -> result (@fobj V I C))
    (origin_of : factor -> option origin) (code_cm : list pval -> option C -> bool -> result (@ctr V)) (hash : list (bool * factor) -> Z)
    (set_order : list factor -> list factor) (order_mem order_exam : nat -> list factor -> list factor) (addr : pval -> nat) (hash_order : list pval -> list pval) (df_index : D -> option (list I))
    (value_is : factor -> (D -> result (@fobj V I C)) -> Prop) (data : nat -> list D) na act tls ds j x levels contrast :
    (forall a b, ieqb a b = true <-> a = b) ->
    (forall l, Permutation (set_order l) l) -> (forall n l, Permutation (order_mem n l) l) -> (forall n l, Permutation (order_exam n l) l) ->
    indexed eval ->
    (forall f g g', value_is f g -> value_is f g' -> forall d, g d = g' d) ->
    (forall f s, In f (factors_of tls) -> trained passes chunk finish data f s -> value_is f (eval f s)) ->
    design_matrix_builders passes chunk finish eval origin_of code_cm hash set_order order_mem order_exam addr hash_order data na tls = Ok ds ->
    get_action na = Ok act -> nth_error tls j = Some tl -> nth_error ds j = Some x ->
    Forall (@NoDup factor) tl -> collision_free hash (concat tl) ->
    (forall f, In f (concat tl) -> let learned := learned passes chunk finish eval origin_of addr hash_order (na_what act) data (factors_of tls) f in
       match num f with Some n => exists s lv c, learned s (FNum n) lv c | None => exists s, learned s (FCat (length (levels f))) (levels f) (contrast f) end) ->
    (let cm f b := code_cm (levels f) (contrast f) b in
     forall f, In f (all_categoricals num tl) -> good_coding rO rI radd rmul (fun f => length (levels f)) (fun f b => cm_cols (cm f b)) (fun f b => cm_entry rO (cm f b)) f) ->
    design_of tl num (length (column_names (ds_info x)))
      (row_of visnan ilabel ieqb eval origin_of addr hash_order df_index value_is (na_what act) (exam_chunks passes data (factors_of tls)) ds x tl num levels contrast).

(** What coefficients predict for row [r] of a matrix. *)
Definition prediction (m : @dmat V) (co : list V) (r : nat) : V := comb rO radd rmul co (matrix_columns rO m) r.
End Designs.
