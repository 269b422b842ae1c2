(** Dropping rows before or after: when what is found out from the rows that stay is what is found out from all. *)
From Verif Require Import Base DescModel BuildModel BuildSpec MemorizeModel MemorizeSpec CategoricalModel CategoricalSpec PipeModel PipeSpec PipeSeedSpec IncrSpec ArrangeSpec.
Open Scope nat_scope.
Open Scope list_scope.

Section Spec.
Context {V I C S D : Type}.
Variable passes : factor -> result (S * Z).
Variable chunk : factor -> S -> nat -> D -> result S.
Variable finish : factor -> S -> nat -> result S.
Variable eval : factor -> S -> D -> result (@fobj V I C).

(** What a factor remembers from [d'] does the same as what it remembers from [d]. *)
Definition fitted_alike (d d' : D) (f : factor) : Prop :=
  forall s, trained passes chunk finish (fun _ => [d]) f s ->
    exists s', trained passes chunk finish (fun _ => [d']) f s' /\ forall x, eval f s x = eval f s' x.
(** The type that is found is the same: both are numerical with as many columns; or the levels are declared; or
    every level occurs in what stays (and levels are not written in two ways, as 1 and True, and can be sorted). *)
Inductive remains (w1 w2 : run_of_python) (na : na_types) (v v' : @value C) : Prop :=
| rm_numbers n : numerical v n -> numerical v' n -> remains w1 w2 na v v'
| rm_declared levels c : declares v levels c -> declares v' levels c -> remains w1 w2 na v v'
| rm_levels cells cells' : chunk_values v cells -> chunk_values v' cells' -> guess_categorical v = true -> guess_categorical v' = true -> contrast_in v = contrast_in v' ->
    incl cells' cells -> (forall x, In x cells -> ~ missing na x -> In x cells') ->
    zero_one_pure na cells -> Forall (usable na) cells ->
    (forall x y, occurs na cells x -> occurs na cells y -> same x y -> x = y) ->
    (forall l, (forall x, In x l -> occurs na cells x) -> order_fixed w1 w2 l) -> remains w1 w2 na v v'.
(** [d'] has the rows [ks] of [d], and that makes no difference to what is found out about the factor. *)
Definition unaffected (w1 w2 : run_of_python) (na : na_types) (ks : list nat) (d d' : D) (f : factor) : Prop :=
  fitted_alike d d' f /\
  forall s o, trained passes chunk finish (fun _ => [d]) f s -> eval f s d = Ok o ->
    exists o', eval f s d' = Ok o' /\ arranged ks o o' /\ remains w1 w2 na (o_value o) (o_value o').
(** The rows of [d] that stay: all of them, or those where no factor has a missing value. *)
Definition staying (visnan : V -> bool) (origin_of : factor -> option origin) (act : na_action) (ds : list (@design V S)) (d : D) (n : nat) : list nat :=
  match na_on act with
  | NARaise => seq 0 n
  | NADrop => filter (fun k => forallb (fun fi => match eval_info visnan eval origin_of (concat (map ds_known ds)) (na_what act) d fi with
      | Ok e => negb (nth k (ev_isna e) false) | Err _ => true end) (all_infos (map ds_info ds))) (seq 0 n)
  end.
End Spec.
