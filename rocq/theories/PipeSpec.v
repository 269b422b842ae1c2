(** What a design learns from the data it is made from, and what matrices should look like. *)
From Coq Require Import Permutation.
From Verif Require Import Base DescModel BuildModel BuildSpec MemorizeModel MemorizeSpec CategoricalModel CategoricalSpec PipeModel.
Open Scope nat_scope.

Section Spec.
Context {V I C S D : Type}.
Variable passes : factor -> result (S * Z).
Variable chunk : factor -> S -> nat -> D -> result S.
Variable finish : factor -> S -> nat -> result S.
Variable eval : factor -> S -> D -> result (@fobj V I C).
Variable origin_of : factor -> option origin.
Variable addr : pval -> nat.
Variable hash_order : list pval -> list pval.

(** The factors of the termlists. *)
Definition factors_of (termlists : list (list term)) : list factor := concat (map (@concat factor) termlists).
(** How many passes a factor asks for. *)
Definition pass_count (f : factor) : nat := match passes f with Ok (_, k) => Z.to_nat k | Err _ => 0 end.
(** [s] is the state of [f] after it has seen all the data in all the passes it asked for. *)
Definition trained (data : nat -> list D) (f : factor) (s : S) : Prop :=
  exists s0 k, passes f = Ok (s0, k) /\ run chunk finish s0 (calls_for data (Z.to_nat k) f) = Ok s.
(** The data used to find out the types of the factors: what comes after the passes of the greediest factor. *)
Definition exam_chunks (data : nat -> list D) (fs : list factor) : list D := data (list_max (map pass_count fs)).
(** The factor's values as categorical data when its state is [s]. *)
Definition value_with (s : S) (f : factor) (d : D) : result (@value C) := let* o := eval f s d in Ok (o_value o).

(** What is learned about [f]: its state, its kind, its levels and its contrast. *)
Inductive learned (na : na_types) (data : nat -> list D) (fs : list factor) (f : factor) : S -> fkind -> list pval -> option C -> Prop :=
| learned_num s n : trained data f s -> type_of (value_with s) origin_of na f (exam_chunks data fs) = Ok (Some (TNum n)) ->
    learned na data fs f s (FNum n) [] None
| learned_cat s sn levels c : trained data f s -> type_of (value_with s) origin_of na f (exam_chunks data fs) = Ok (Some (TCat sn)) ->
    levels_contrast addr hash_order sn = (levels, c) ->
    learned na data fs f s (FCat (length levels)) levels c.

(** The FactorInfo objects of a design. *)
Definition infos_in (d : @design V S) : list finfo := map snd (infos_of (ds_info d)).
(** What a factor info knows. *)
Definition knows (d : @design V S) (fi : finfo) (s : S) (categories : list pval) : Prop :=
  dget Nat.eqb (fi_id fi) (ds_known d) = Some (s, categories).
(** A matrix has the shape its rows and columns say. *)
Definition rectangular (m : @dmat V) : Prop := Forall (fun col => length col = m_rows m) (m_cols m).

(** Pandas objects have as many rows as index labels. *)
Definition indexed : Prop := forall f s d o i, eval f s d = Ok o -> o_index o = Some i ->
  length i = length (o_rows o) /\ forall categories na org codes, categorical_to_int (o_value o) categories na org = Ok codes -> length i = length codes.
(** Designs that the constructor accepts, whose FactorInfo objects are told apart by their identities. *)
Definition designs_ok (ds : list (@design V S)) : Prop :=
  Forall (fun d => constructed (ds_info d)) ds /\ identities (all_infos (map ds_info ds)).
(** Arrays are rectangular, pandas objects have a label for each row, a DesignMatrix matches its design_info
    and is no pandas object. *)
Definition proper_array (a : @array V I S) : Prop :=
  rectangular (a_mat a) /\ (forall i, a_index a = Some i -> length i = m_rows (a_mat a)) /\
  (a_is_dm a = true -> forall d, a_info a = Some d -> length (column_names (ds_info d)) = length (m_cols (a_mat a)) /\ a_ndim a <= 2).
Definition proper_side (s : @side V I S) : Prop := match s with SArray a => proper_array a | _ => True end.
Definition proper_input (fl : @formula_like V I S) : Prop :=
  match fl with
  | FDesign d => designs_ok [d]
  | FPair (SDesign l) (SDesign r) => designs_ok [l; r]
  | FPair l r => proper_side l /\ proper_side r
  | FArray a => proper_array a
  | _ => True
  end.
(** A matrix goes with its design_info (and its index). *)
Definition well_shaped (rt : rtype) (m : @matrix V I S) : Prop :=
  rectangular (x_mat m) /\ length (m_cols (x_mat m)) = length (column_names (ds_info (x_design m))) /\
  (rt = RDataFrame -> exists i, x_index m = Some i /\ length i = m_rows (x_mat m)) /\ (rt = RMatrix -> x_index m = None).

(** Formulas and designs, as against explicit matrices. *)
Definition described (fl : @formula_like V I S) : Prop :=
  match fl with FDesign _ | FPair (SDesign _) (SDesign _) | FStr _ | FDesc _ | FMethod _ => True | _ => False end.
(** The same numbers and design_info with another index. *)
Definition with_index (i : option (list I)) (m : @matrix V I S) : @matrix V I S := mkMx (x_mat m) (x_design m) i.
End Spec.
