(** Data with its rows rearranged: in another order, or some of them only, or some of them repeated. *)
From Verif Require Import Base DescModel BuildModel BuildSpec MemorizeModel CategoricalModel PipeModel PipeSpec.
Open Scope nat_scope.
Open Scope list_scope.

Section Spec.
Context {V I C S D : Type}.
(** [ks] are the numbers of the old rows, in the new order. *)
Variable ks : list nat.

(** Categorical data with its rows rearranged (the dtype of a sequence may be another one). *)
Inductive data_arranged : @cdata -> @cdata -> Prop :=
| da_pandas categories codes : data_arranged (DPandas categories codes) (DPandas categories (pick codes ks))
| da_bools n l : data_arranged (DBools n l) (DBools n (pick l ks))
| da_seq b b' l : data_arranged (DSeq b l) (DSeq b' (pick l ks))
| da_array b n c : data_arranged (DArray b n c) (DArray b n c).
Inductive value_arranged : @value C -> @value C -> Prop :=
| va_boxed d d' c levels : data_arranged d d' -> value_arranged (Boxed d c levels) (Boxed d' c levels)
| va_plain d d' : data_arranged d d' -> value_arranged (Plain d) (Plain d').
(** The value of a factor with its rows rearranged. *)
Definition arranged (o o' : @fobj V I C) : Prop :=
  value_arranged (o_value o) (o_value o') /\ o_ndim o' = o_ndim o /\ o_ncols o' = o_ncols o /\ o_isnum o' = o_isnum o /\
  o_rows o' = pick (o_rows o) ks /\ o_index o' = option_map (fun i => pick i ks) (o_index o).

(** How many rows there are. *)
Definition data_rows (d : @cdata) : nat :=
  match d with DPandas _ codes => length codes | DBools _ l => length l | DSeq _ l => length l | DScalar _ _ => 1 | DArray _ _ _ => 0 end.
Definition value_rows (k : fkind) (o : @fobj V I C) : nat :=
  match k with FNum _ => length (o_rows o) | FCat _ => match o_value o with Boxed d _ _ | Plain d => data_rows d end end.

Variable eval : factor -> S -> D -> result (@fobj V I C).
Variable df_index : D -> option (list I).
(** What a factor of these designs is for the data. *)
Definition value_for (ds : list (@design V S)) (d : D) (fi : finfo) (o : @fobj V I C) : Prop :=
  In fi (all_infos (map ds_info ds)) /\ exists s categories, dget Nat.eqb (fi_id fi) (concat (map ds_known ds)) = Some (s, categories) /\ eval (fi_factor fi) s d = Ok o.
(** The data has [n] rows. *)
Definition has_rows (ds : list (@design V S)) (d : D) (n : nat) : Prop :=
  (forall i, df_index d = Some i -> length i = n) /\ forall fi o, value_for ds d fi o -> value_rows (fi_kind fi) o = n.
(** The rows have labels. *)
Definition labelled (ds : list (@design V S)) (d : D) : Prop :=
  (exists i, df_index d = Some i) \/ exists fi o i, value_for ds d fi o /\ o_index o = Some i.
(** [d'] has the rows [ks] of [d], as far as the designs can see. *)
Definition rearranges (ds : list (@design V S)) (d d' : D) : Prop :=
  df_index d' = option_map (fun i => pick i ks) (df_index d) /\
  forall fi s categories o, In fi (all_infos (map ds_info ds)) -> dget Nat.eqb (fi_id fi) (concat (map ds_known ds)) = Some (s, categories) ->
    eval (fi_factor fi) s d = Ok o -> exists o', eval (fi_factor fi) s d' = Ok o' /\ arranged o o'.

(** Those of the rows that are kept. *)
Definition of_kept (kept : list nat) : list nat := filter (fun k => existsb (Nat.eqb k) kept) ks.
(** [l] says where in [whole] the [items] are. *)
Definition positions {A} (whole items : list A) (l : list nat) : Prop := Forall2 (fun x p => nth_error whole p = Some x) items l.
(** The result of building for the rearranged data: the matrices have the same columns, the rows that are kept of
    those asked for (at [rows] in the old matrix), and their labels; if there are no labels the new rows are
    numbered. *)
Definition arranged_results (ilabel : nat -> I) (kept : list nat) (want with_labels : bool) (r r' : list (@dmat V) * option (list I)) : Prop :=
  exists rows new, positions kept (of_kept kept) rows /\ positions ks (of_kept kept) new /\ Sorted.StronglySorted lt new /\
    Forall2 (fun m m' => m_rows m = length kept /\ m_rows m' = length rows /\ m_cols m' = map (fun col => pick col rows) (m_cols m)) (fst r) (fst r') /\
    snd r' = if want then (if with_labels then option_map (fun l => pick l rows) (snd r) else Some (map ilabel new)) else None.
End Spec.

(** * Factors that work row by row, which are fitted on the rearranged data *)
From Coq Require Import Permutation.
From Verif Require Import CategoricalSpec FitModel FitSpec PipeSeedSpec IncrSpec.
Section Fitted.
Context {val data St row cell V I C : Type}.
Variable rows_of : data -> list row.
Variable holds : val -> list cell -> Prop.
Variable as_obj : val -> @fobj V I C.
(** The object that a value is has its rows: if they are rearranged, so are those of the object. *)
Definition object_rows (ks : list nat) (d d' : data) (m : @meaning val row cell) : Prop := forall v v', means holds m (rows_of d) v -> means holds m (rows_of d') v' ->
  arranged ks (as_obj v) (as_obj v') /\
  value_rows (if guess_categorical (o_value (as_obj v)) then FCat 0 else FNum 0) (as_obj v) = length (rows_of d).
(** As [chunk_free], for the data and the rearranged data. *)
Definition order_free (ks : list nat) (d d' : data) w1 w2 na (e : @texpr val data St) (bins : list (list string)) : Prop :=
  NoDup (map fst (calls e)) /\ inner_first e bins /\
  exists m, rowwise rows_of holds (rows_of d) [d; d'] e m /\ steady rows_of holds (rows_of d) [d; d'] as_obj w1 w2 na m /\ object_rows ks d d' m.
End Fitted.
