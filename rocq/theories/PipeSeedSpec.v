(** What Python leaves open (hashes, orders of sets, addresses, identities), and being the same apart
    from that. *)
From Coq Require Import Permutation.
From Verif Require Import Base RedundancyModel RedundancySpec DescModel FormulaModel ParseFormulaModel BuildModel BuildSpec MemorizeModel MemorizeSpec CategoricalModel CategoricalSpec PipeModel PipeSpec.
Open Scope nat_scope.

(** What changes from one run of the interpreter to another. *)
Record run_of_python := mkRun {
  py_hash : list (bool * factor) -> Z;
  py_set_order : list factor -> list factor;
  py_order_mem : nat -> list factor -> list factor;
  py_order_exam : nat -> list factor -> list factor;
  py_addr : pval -> nat;
  py_hash_order : list pval -> list pval }.
(** Going through a set meets each element once; sets of factors of the termlists have different hashes. *)
Definition lawful (tls : list (list term)) (w : run_of_python) : Prop :=
  (forall l, Permutation (py_set_order w l) l) /\ (forall n l, Permutation (py_order_mem w n l) l) /\
  (forall n l, Permutation (py_order_exam w n l) l) /\ (forall l, Permutation (py_hash_order w l) l) /\
  Forall (fun tl => collision_free (py_hash w) (concat tl)) tls.

(** A DesignInfo without the identities of its FactorInfo objects. *)
Definition anon_info (fi : finfo) : finfo := mkFI 0 (fi_factor fi) (fi_kind fi).
Definition anon_infos (fis : finfos) : finfos := map (fun p => (fst p, anon_info (snd p))) fis.
Definition anonymous {V} (d : @design_info V) : @design_info V :=
  mkDI (di_columns d) (option_map anon_infos (di_infos d)) (di_codings d) (di_term_slices d) (di_name_slices d).

Section Spec.
Context {V I C S D : Type}.
(** The same design: names, terms, codings, slices, factors with their kinds, states and categories. *)
Definition same_design (d1 d2 : @design V S) : Prop :=
  anonymous (ds_info d1) = anonymous (ds_info d2) /\
  Forall2 (fun p q => dget Nat.eqb (fi_id (snd p)) (ds_known d1) = dget Nat.eqb (fi_id (snd q)) (ds_known d2))
    (infos_of (ds_info d1)) (infos_of (ds_info d2)).
(** The same matrix: numbers, row labels and design. *)
Definition same_matrix (m1 m2 : @matrix V I S) : Prop :=
  x_mat m1 = x_mat m2 /\ x_index m1 = x_index m2 /\ same_design (x_design m1) (x_design m2).

Variable passes : factor -> result (S * Z).
Variable chunk : factor -> S -> nat -> D -> result S.
Variable finish : factor -> S -> nat -> result S.
Variable eval : factor -> S -> D -> result (@fobj V I C).
Variable origin_of : factor -> option origin.
(** The levels found for a categorical factor (if it does not declare them) are numbers and strings; or
    they contain None and other objects too, whose addresses are the same in both runs. *)
Definition order_fixed (w1 w2 : run_of_python) (levels : list pval) : Prop :=
  Forall plain_value levels \/
  (Forall sortable levels /\ addresses (py_addr w1) levels /\ forall v, In v levels -> py_addr w1 v = py_addr w2 v).
Definition levels_fixed (w1 w2 : run_of_python) (na : na_types) (data : nat -> list D) (tls : list (list term)) : Prop :=
  forall f s sn, In f (factors_of tls) -> trained passes chunk finish data f s ->
    type_of (value_with eval s) origin_of na f (exam_chunks passes data (factors_of tls)) = Ok (Some (TCat sn)) ->
    sn_levels sn = None -> order_fixed w1 w2 (sn_set sn).

Variable tokenize : string -> list pytok * option exn.
Variable norm : string -> string.
Variable is_float : string -> bool.
(** The termlists of a formula. *)
Definition termlists_of (fl : @formula_like V I S) : list (list term) :=
  match fl with
  | FStr s => match formula_desc tokenize norm is_float s with Ok md => [lhs_termlist md; rhs_termlist md] | Err _ => [] end
  | FDesc md | FMethod (Ok (Some md)) => [lhs_termlist md; rhs_termlist md]
  | _ => []
  end.
End Spec.
