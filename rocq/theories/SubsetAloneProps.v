(** C96: a subset of a design is built from the variables of the chosen terms only. *)
From Verif Require Import Base DescModel FormulaModel BuildModel BuildSpec BuildProps SubsetAloneSpec SubsetAloneProofs.

(** The factors of the subset are the factors of the chosen terms, as the design has them. *)
Theorem subset_needs_chosen_variables : forall (V : Type) (d d' : @design_info V) ws, constructed d -> subset d ws = Ok d' ->
  forall f fi, In (f, fi) (infos_of d') -> In (f, fi) (infos_of d) /\
  exists w t, In w ws /\ selects w t /\ In t (map fst (codings_of d)) /\ In f t.
Proof. exact @subset_needs_lemma. Qed.
Print Assumptions subset_needs_chosen_variables.
Example subset_needs_ex : exists d', subset exd [WName "x"; WName "Intercept"] = Ok d' /\ map fst (infos_of d') = ["x"]%string.
Proof. eexists. split; vm_compute; reflexivity. Qed.

(** If the design can be built from some data then the subset can be built from any data with the
    same values for its own factors, whatever evaluating the others does ([ev']). The matrix has the
    chosen columns; with some more rows, if the other factors made patsy drop rows. *)
Theorem subset_built_alone : forall (V : Type) (vone : V) vmul (I : Type) (ieqb : I -> I -> bool) (origin_of : factor -> option origin),
  (forall a b, ieqb a b = true <-> a = b) -> forall ev ev' df ilabel (d d' : @design_info V) ws,
  constructed d -> identities (all_infos [d]) -> (forall fi, In fi (all_infos [d]) -> exists e, ev fi = Ok e /\ fits fi e) ->
  proper_design d -> (forall fi e, In fi (all_infos [d]) -> ev fi = Ok e -> proper_value fi e) ->
  subset d ws = Ok d' -> (forall fi, In fi (all_infos [d']) -> ev' fi = ev fi) -> infos_of d' <> [] \/ df <> None ->
  forall act want_df m labels, build_design_matrices vone vmul ilabel ieqb origin_of ev df act want_df [d] = Ok ([m], labels) ->
  exists sel m' labels' ps, Forall2 (fun w t => selects w t /\ In t (map fst (codings_of d))) ws sel /\
    build_design_matrices vone vmul ilabel ieqb origin_of ev' df act want_df [d'] = Ok ([m'], labels') /\
    some_rows (m_rows m') ps /\ rows_at m' ps = mkMat (m_rows m) (pick (m_cols m) (flat_map (term_at d) sel)) /\
    ((exists fi e, In fi (all_infos [d']) /\ ev fi = Ok e /\ ev_index e <> None) \/ df <> None ->
       labels = option_map (fun l => pick l ps) labels') /\
    (act = NARaise \/ (forall k, missing_in (evals ev (all_infos [d])) k = missing_in (evals ev (all_infos [d'])) k) ->
       m' = mkMat (m_rows m) (pick (m_cols m) (flat_map (term_at d) sel))).
Proof. exact @subset_alone_lemma. Qed.
Print Assumptions subset_built_alone.

(** Data without the variable [a]: row 2, dropped from the matrix of the design because [a] is
    missing there, is in the matrix of the subset. *)
Definition exno_a (fi : finfo) := if String.eqb (fi_factor fi) "a" then Err NameError else exrow_ev exdata fi.
Example subset_alone_ex : exists d', subset exd [WName "x"; WName "Intercept"] = Ok d' /\
  exbuild exdata NADrop false [exd] = Ok ([exm], None) /\
  build_design_matrices 1%Z Z.mul (fun n => n) Nat.eqb exorigin exno_a None NADrop false [exd] = Err NameError /\
  build_design_matrices 1%Z Z.mul (fun n => n) Nat.eqb exorigin exno_a None NADrop false [d'] =
    Ok ([mkMat 4 [[10; 11; 12; 13]; [20; 21; 22; 23]; [1; 1; 1; 1]]%Z], None) /\
  rows_at (mkMat 4 [[10; 11; 12; 13]; [20; 21; 22; 23]; [1; 1; 1; 1]]%Z) [0; 1; 3] =
    mkMat (m_rows exm) (pick (m_cols exm) (flat_map (term_at exd) [["x"]; []]%string)).
Proof. eexists. split; [vm_compute; reflexivity|]. repeat split; vm_compute; reflexivity. Qed.
Example subset_alone_hyp : exists d', subset exd [WName "x"; WName "Intercept"] = Ok d' /\ infos_of d' <> [] /\
  forall fi, In fi (all_infos [d']) -> exno_a fi = exrow_ev exdata fi.
Proof.
  eexists. split; [vm_compute; reflexivity|]. split; [discriminate|].
  intros fi Hfi. vm_compute in Hfi. destruct Hfi as [<-|[]]. reflexivity.
Qed.

(** So the two ways to get the columns, called equal in the documentation of [subset], differ as
    soon as a variable that is left out has a missing value. *)
Theorem subset_alone_same_rows_refuted : ~ forall (ev : finfo -> result (@evaluated Z nat)) (d d' : @design_info Z) ws m m',
  constructed d -> subset d ws = Ok d' ->
  build_design_matrices 1%Z Z.mul (fun n => n) Nat.eqb exorigin ev None NADrop false [d] = Ok ([m], None) ->
  build_design_matrices 1%Z Z.mul (fun n => n) Nat.eqb exorigin ev None NADrop false [d'] = Ok ([m'], None) -> m_rows m' = m_rows m.
Proof.
  intros H.
  assert (E : exists d', subset exd [WName "x"; WName "Intercept"] = Ok d' /\
    build_design_matrices 1%Z Z.mul (fun n => n) Nat.eqb exorigin (exrow_ev exdata) None NADrop false [d'] =
      Ok ([mkMat 4 [[10; 11; 12; 13]; [20; 21; 22; 23]; [1; 1; 1; 1]]%Z], None)) by (eexists; split; vm_compute; reflexivity).
  destruct E as [d' [E1 E2]].
  specialize (H (exrow_ev exdata) exd d' [WName "x"; WName "Intercept"] exm _ (Forall_inv (proj1 ex_hyps)) E1 ltac:(vm_compute; reflexivity) E2).
  discriminate.
Qed.
Print Assumptions subset_alone_same_rows_refuted.
