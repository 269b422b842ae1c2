(** C88: when [DesignInfo.subset] succeeds, and what it does for designs without terms. *)
From Verif Require Import Base DescModel FormulaModel BuildModel BuildSpec BuildProps SubsetSpec SubsetProofs.

(** Any distinct terms of the design, by name or as terms, can be selected in any order,
    and the result has exactly these terms in this order. *)
Theorem subset_succeeds : forall (V : Type) (d : @design_info V) ws ts, constructed d -> Forall2 (chosen d) ws ts -> NoDup ts ->
  exists d', subset d ws = Ok d' /\ map fst (codings_of d') = ts.
Proof. exact @subset_succeeds_lemma. Qed.
Print Assumptions subset_succeeds.
Example exd_constructed : constructed exd.
Proof.
  exists (column_names exd), (infos_of exd), (codings_of exd). split; [vm_compute; reflexivity|]. split; vm_compute; repeat split;
    intros p H; repeat (destruct H as [<-|H]; [reflexivity|]); destruct H.
Qed.
Example subset_succeeds_ex : Forall2 (chosen exd) [WName "x"; WTerm []; WName "a:x"] [["x"]; []; ["a"; "x"]]%string /\
  NoDup [["x"]; []; ["a"; "x"]]%string.
Proof.
  split.
  - repeat apply Forall2_cons; try apply Forall2_nil; (split; [vm_compute; auto 6|reflexivity]).
  - repeat constructor; cbn; intuition discriminate.
Qed.

(** Something that is no term of the design is an error, and so is a term selected twice,
    unless it has no columns. *)
Theorem subset_fails : forall (V : Type) (d : @design_info V), constructed d ->
  (forall ws w, In w ws -> (forall t, In t (map fst (codings_of d)) -> ~ selects w t) -> subset d ws = Err KeyError) /\
  (forall ws1 ws2 ws3 w w' t, In t (map fst (codings_of d)) -> term_at d t <> [] -> selects w t -> selects w' t ->
     forall d', subset d (ws1 ++ w :: ws2 ++ w' :: ws3) <> Ok d').
Proof.
  intros V d Hc. split.
  - intros ws w. exact (subset_unknown_lemma d ws w Hc).
  - intros ws1 ws2 ws3 w w' t. exact (subset_repeated_lemma d ws1 ws2 ws3 w w' t Hc).
Qed.
Print Assumptions subset_fails.
Example subset_fails_ex : subset exd [WName "x"; WName "x[0]"] = Err KeyError /\ subset exd [WName "Intercept"; WTerm ["y"]%string] = Err KeyError /\
  term_at exd ["x"]%string = [3; 4] /\ selects (WName "x") ["x"]%string /\ selects (WTerm ["x"]%string) ["x"]%string.
Proof. vm_compute. repeat split. Qed.

(** A design known by the names of its columns only: subsets are by the names of columns. *)
Theorem subset_without_terms : forall (V : Type) names (d : @design_info V) ws, mk_design_info names None None = Ok d ->
  (forall sel, ws = map WName sel -> incl sel names ->
     (NoDup sel -> exists d', subset d ws = Ok d' /\ mk_design_info sel None None = Ok d' /\ column_names d' = sel) /\
     (~ NoDup sel -> forall d', subset d ws <> Ok d')) /\
  (forall w, In w ws -> (forall s, In s names -> w <> WName s) -> subset d ws = Err KeyError).
Proof. exact @subset_minimal_lemma. Qed.
Print Assumptions subset_without_terms.
Example subset_without_terms_ex : exists d, mk_design_info (V := Z) ["u"; "v"; "w"]%string None None = Ok d /\
  (exists d', subset d [WName "w"; WName "u"] = Ok d' /\ column_names d' = ["w"; "u"]%string) /\
  subset d [WName "u"; WName "z"] = Err KeyError /\ subset d [WTerm ["u"]%string] = Err KeyError /\ subset d [WName "u"; WName "u"] = Err AssertionError.
Proof. eexists. split; [vm_compute; reflexivity|]. split; [eexists; split; vm_compute; reflexivity|]. repeat split. Qed.

(** A formula selects the terms called like its right-hand terms (the intercept included,
    unless the formula removes it); a formula with a left-hand side is refused. *)
Theorem subset_by_formula : forall (V : Type) (d : @design_info V) md, constructed d ->
  (forall ts, lhs_termlist md = [] ->
     Forall2 (fun u t => In t (map fst (codings_of d)) /\ term_name t = term_name u) (rhs_termlist md) ts -> NoDup ts ->
     exists d', subset_formula d md = Ok d' /\ map fst (codings_of d') = ts) /\
  (forall u, lhs_termlist md = [] -> In u (rhs_termlist md) ->
     (forall t, In t (map fst (codings_of d)) -> term_name t <> term_name u) -> subset_formula d md = Err KeyError) /\
  (lhs_termlist md <> [] -> exists msg, subset_formula d md = Err (PatsyError msg None)).
Proof.
  intros V d md Hc. split; [|split].
  - intros ts. exact (subset_formula_ok d md ts Hc).
  - intros u. exact (subset_formula_unknown d md u Hc).
  - intros H. unfold subset_formula. destruct (lhs_termlist md); [congruence|]. eexists. reflexivity.
Qed.
Print Assumptions subset_by_formula.
Example subset_by_formula_ex :
  (exists d', subset_formula exd (mk_model_desc [] [["x"]; ["a"]]%string) = Ok d' /\ column_names d' = ["x[0]"; "x[1]"; "a[T.q]"; "a[T.r]"]%string) /\
  subset_formula exd (mk_model_desc [["x"]] [["a"]])%string = Err (PatsyError "right-hand-side-only formula required" None).
Proof. split; [eexists; split; vm_compute; reflexivity|reflexivity]. Qed.

(** But not the terms equal to its terms: the factors of an interaction have to come in the
    order of the design, although the Term objects are equal and select the term. *)
Theorem subset_by_equal_formula_refuted : ~ forall (V : Type) (d : @design_info V) md, constructed d -> lhs_termlist md = [] ->
  (forall u, In u (rhs_termlist md) -> exists t, In t (map fst (codings_of d)) /\ term_eqb t u = true) ->
  (exists d', subset d (map WTerm (rhs_termlist md)) = Ok d') -> exists d', subset_formula d md = Ok d'.
Proof.
  intros H. destruct (H Z exd (mk_model_desc [] [["x"; "a"]]%string) exd_constructed eq_refl) as [d' E].
  - intros u [<-|[]]. exists ["a"; "x"]%string. split; [vm_compute; auto 6|reflexivity].
  - eexists. vm_compute. reflexivity.
  - vm_compute in E. discriminate.
Qed.
Print Assumptions subset_by_equal_formula_refuted.
