(** Two environments with the same values for the names that are mentioned. *)
From Coq Require Import Permutation.
From Verif Require Import Base OriginModel TokensModel ParseFormulaModel UtilModel BuildModel BuildSpec EvalModel PyLexModel PyLexSpec DescModel FormulaModel MemorizeModel CategoricalModel PipeModel PipeSpec PipeProofs PipeSeedSpec
  CodeModel CodeSpec CodeEvalProofs SourceProofs.
Open Scope nat_scope.
Open Scope string_scope.
Open Scope list_scope.

(** * The pipeline asks only the factors it has *)
Section Pipe.
Context {V I C S D : Type}.
Variables (vone : V) (vmul : V -> V -> V) (visnan : V -> bool) (ilabel : nat -> I) (ieqb : I -> I -> bool).
Variables passes1 passes2 : factor -> result (S * Z).
Variable chunk : factor -> S -> nat -> D -> result S.
Variable finish : factor -> S -> nat -> result S.
Variable eval : factor -> S -> D -> result (@fobj V I C).
Variable origin_of : factor -> option origin.
Variable code_cm : list pval -> option C -> bool -> result (@ctr V).
Variable hash : list (bool * factor) -> Z.
Variable set_order : list factor -> list factor.
Variables order_mem order_exam : nat -> list factor -> list factor.
Variable addr : pval -> nat.
Variable hash_order : list pval -> list pval.
Hypothesis Hset : forall l, Permutation (set_order l) l.
Variable df_index : D -> option (list I).
Local Notation builders p := (design_matrix_builders p chunk finish eval origin_of code_cm hash set_order order_mem order_exam addr hash_order).
Lemma start_ext fs : (forall f, In f fs -> passes1 f = passes2 f) -> forall st : list (factor * S) * list (factor * Z), foldM (start String.eqb passes1) fs st = foldM (start String.eqb passes2) fs st.
Proof.
  intros H st. apply both_eq. apply (both_foldM eq eq); [apply forall2_eq| |reflexivity]. intros a b f g <- Hf <-. unfold start. rewrite (H f Hf). apply both_refl.
Qed.
Lemma passes_builders data na tls : (forall f, In f (factors_of tls) -> passes1 f = passes2 f) -> builders passes1 data na tls = builders passes2 data na tls.
Proof.
  intros H. unfold design_matrix_builders. destruct (get_action na) as [act|]; cbn [bind]; [|reflexivity].
  set (fs := all_factors set_order tls). assert (Hf : forall f, In f fs -> passes1 f = passes2 f) by (intros f Hf; apply H; now apply (all_factors_in set_order Hset)).
  assert (Eb : pass_bound passes1 fs = pass_bound passes2 fs) by (unfold pass_bound; f_equal; apply map_ext_in; intros f K; now rewrite (Hf f K)). rewrite Eb.
  unfold factors_memorize. now rewrite (start_ext fs Hf).
Qed.
Variable upcast : V -> V.
Variable vobj : V.
Variable tokenize : string -> list pytok * option exn.
Variable norm : string -> string.
Variable is_float : string -> bool.
Variable have_pandas : bool.
Local Notation high p := (highlevel_design vone vmul visnan ilabel ieqb p chunk finish eval origin_of code_cm hash set_order order_mem order_exam addr hash_order df_index upcast vobj tokenize norm is_float have_pandas).
Lemma passes_highlevel formula d na rt : (forall md, formula_desc tokenize norm is_float formula = Ok md -> forall f, In f (factors_of [lhs_termlist md; rhs_termlist md]) -> passes1 f = passes2 f) ->
  high passes1 (FStr formula) d na rt = high passes2 (FStr formula) d na rt.
Proof.
  intros Hs. unfold highlevel_design. destruct (match rt with RDataFrame => _ | _ => _ end); [reflexivity|]. destruct (match rt with RUnknown => _ | _ => _ end); [reflexivity|].
  cbn [try_incr_builders]. destruct (formula_desc tokenize norm is_float formula) as [md|]; cbn [bind]; [|reflexivity]. specialize (Hs md eq_refl). unfold desc_builders.
  now rewrite (passes_builders (fun _ => [d]) na _ Hs).
Qed.
End Pipe.

(** * Preparing a factor looks up only the names it mentions *)
Section Env.
Context {val op St : Type}.
Variable parse : list ptok -> result (@cx op).
Variable stateful : val -> bool.
Variable t_new : val -> St.
Variable builtins : @namespace val.
Variables e1 e2 : @env val.
Lemma new_vld_lookup (e : @env val) s : vlookup (new_vld e) s = vlookup e s.
Proof. reflexivity. Qed.
Lemma env_passes f names : text_names py_lex parse f = Ok names -> (forall s, In s names -> vlookup (e1 ++ [builtins]) s = vlookup (e2 ++ [builtins]) s) ->
  tf_passes py_lex parse stateful t_new builtins e1 f = tf_passes py_lex parse stateful t_new builtins e2 f.
Proof.
  intros En H. unfold tf_passes, memorize_passes_needed, with_outer_namespace. rewrite En. cbn [bind]. do 2 f_equal.
  assert (Ef : filter (fun n => match vlookup (new_vld (e1 ++ [builtins])) n with Some _ => true | None => false end) names = filter (fun n => match vlookup (new_vld (e2 ++ [builtins])) n with Some _ => true | None => false end) names).
  { apply filter_ext_in. intros s Hs. rewrite !new_vld_lookup. now rewrite (H s Hs). }
  rewrite Ef. set (l := filter _ names). assert (Hl : incl l names) by (intros s Hs; apply filter_In in Hs; apply Hs). clearbody l. clear Ef.
  unfold env_subset. f_equal. apply both_eq. clear En. induction l as [|s l IH]; [reflexivity|]. cbn [mapM]. rewrite !new_vld_lookup, (H s (Hl s (or_introl eq_refl))). destruct (vlookup (e2 ++ [builtins]) s); cbn [bind]; [|reflexivity].
  specialize (IH (fun z Hz => Hl z (or_intror Hz))). apply both_eq in IH. rewrite IH. apply both_refl.
Qed.
End Env.
