# Formal model of patsy: design

Source: `/repo/patsy` (read as text, never run).  Prover: Coq 8.16.1, standard
library only.  Everything lives in `rocq/theories`.

## Conventions

* For each area `X` there are up to four kinds of files: `XModel.v` (executable
  Gallina functions mirroring the Python, branch by branch, each with a
  `file:lines` citation and a note where it simplifies), `XSpec.v` (the small
  specification the theorems are stated against, not using the model's helpers),
  `X...Proofs.v`, and `X...Props.v` (the theorems, `Print Assumptions`, and
  `Example`s showing that hypotheses are met by non-trivial cases).
* Python exceptions are values: `result A` is `Ok a` or `Err e`, where `e : exn`
  is `PatsyError ...` (with its message and origin) or any other exception
  (`AssertionError`, `IndexError`, `KeyError`, `ValueError` ...).  Nothing is
  totalised silently: an out-of-range access in the Python is an `Err` in the
  model.
* Python objects compared with `==` are modelled by a type with a decidable
  equality; Python strings by `string` (list of bytes) or by an abstract type
  with decidable equality when only equality matters.
* Python floats are modelled by exact rationals (`Qc`) or by an abstract field.
  Rounding, infinities and NaN (except as an explicit "missing" marker) are not
  modelled; each area says so.
* `while` loops become structural recursion, or fuelled recursion whose
  exhaustion (`OutOfFuel`) is an error value that the theorems rule out.
* External code (Python's tokenizer and evaluator, NumPy, pandas, scipy) is
  either modelled after its documentation (`np.linalg.solve`, `np.percentile`,
  FITPACK's B-spline evaluation, Python's tokenizer for the subset of the language
  used in formulas) or is a parameter of the model with its contract as a
  hypothesis of the theorem (scipy's `qr`, `eval`, `sqrt`, hash collisions).


## Plan and result per property

| id | what is modelled | how it is proved | theorems |
|----|----|----|----|
| C01 | `infix_parse` as a two-stack machine, generic operator table | concrete syntax trees with explicit parentheses and precedence side conditions; soundness by a stack invariant, completeness by induction on trees | `infix_parse_correct` |
| C02 | same | parsing is a function and complete, so a valid tree is determined by its yield | `infix_grammar_unambiguous` |
| C03 | same, other exceptions included | invariant: noun and operator stacks are balanced; the empty stream is the exception | `infix_parse_errors_located`, `infix_parse_errors_earliest`, `infix_parse_empty_refuted` |
| C04 | nodes carry origins as in the code | induction over concrete trees: a node's origin is the span of its tokens | `infix_parse_origins` |
| C05 | `Origin.combine` | induction; extremal characterisation | `origin_combine_none`, `origin_combine_hull`, `origin_combine_order` |
| C06 | `_tokenize_formula`, `_read_python_expr` over Python token lists, with push-back | induction on the token list, bracket-level invariant | `tokenize_formula_groups`, `segmentation_unique` |
| C07 | `_tokenize_formula`, `_read_python_expr` over Python token lists, with push-back | induction on the token list, bracket-level invariant | `tokenize_formula_errors` |
| C08 | `PushbackAdapter` as a state machine | simulation by an abstract list for every call history | `pushback_refines_stream` |
| C09 | `pretty_untokenize` | induction over tokens with the loop state generalised | `pretty_untokenize_spacing`, `pretty_untokenize_total`, `pretty_untokenize_rule`, `spacing_cases`, `spacing_sign`, `pretty_untokenize_glues_fstring_refuted`, `pretty_untokenize_number_attribute_refuted` |
| C10 | `normalize_token_spacing`, `EvalFactor.__eq__`, with a model of Python's tokenizer | equational, and the read-back law proved for the modelled tokenizer | `normal_form`, `normal_form_any_tokenizer`, `normal_form_number_attribute_refuted`, `operators_longest`, `character_classes` |
| C11 | `Evaluator` and all `_eval_*` functions | denotational spec (status and set of factor sets); induction over trees | `from_tree_means_sets` |
| C12 | `uniqueify_list`, `Term`, `IntermediateExpr`, `ModelDesc` | induction over chains | `from_tree_terms_distinct`, `from_tree_sum_order` |
| C13 | `uniqueify_list`, `Term`, `IntermediateExpr`, `ModelDesc` | induction over chains | `from_tree_intercept_last_mention` |
| C14 | `_eval_binary_power` | fixpoint argument: after len(terms) rounds no new factor set appears | `from_tree_power`, `from_tree_power_saturates` |
| C15 | same with assertions modelled | induction; error characterisation by an independent predicate | `from_tree_succeeds_iff_sensible`, `from_formula_total_or_located` |
| C16 | `describe` at formula-token level, composed with parser and evaluator | uses completeness of the parser | `describe_reads_back`, `describe_writes` |
| C17 | `Term.__eq__`, `__ne__`, `__hash__` (DescModel.v, AttrModel.v) | set reasoning; the exclusive or of hashes does not depend on their order | `term_equal_iff_same_factors`, `uniqueify_first_occurrences`, `term_hash_agrees` |
| C18 | `pick_contrasts_for_term` with the `used_subterms` set | multiset invariant of `_simplify_one_subterm`: the expansion is preserved | `contrast_selection_codes_each_subset_once`, `contrast_selection_hash_collision_refuted` |
| C19 | `_simplify_subterms` | the number of subterms decreases; no assertion failure | `simplification_terminates_irreducible`, `simplification_preserves_meaning` |
| C20 | `_make_subterm_infos` column counts | algebra over the invariant of C18 | `contrast_selection_column_count`, `design_column_count` |
| C21 | tensor products of contrast columns over an abstract field | induction over factors; linear algebra by hand | `design_columns_full_rank`, `builtin_design_full_rank` |
| C22 | `_subsets_sorted` | sortedness and permutation | `subsets_complete_sorted` |
| C23 | `_make_subterm_infos` bucketing | permutation, stable sort | `term_order` |
| C24 | `_column_combinations`, names, `_build_subterm` | induction | `combinations_leftmost_fastest`, `subterm_names_and_values_aligned`, `design_column_names` |
| C25 | `_column_combinations`, names, `_build_subterm` | induction | `build_design_matrices_correct` |
| C26 | `_build_design_matrix` | row-locality | `chunked_building`, `chunked_labels` |
| C27 | `NAAction.handle_NA`, `_CheckMatch`, `build_design_matrices` | induction over the factor list | `rows_kept`, `handle_NA_correct`, `handle_NA_raise_is_patsy_error`, `eval_factor_marks_missing`, `build_design_matrices_correct`, `na_action_arguments`, `na_action_string` |
| C28 | `NAAction.handle_NA`, `_CheckMatch`, `build_design_matrices` | induction over the factor list | `row_mismatch_is_error`, `building_succeeds_iff` |
| C29 | `_factors_memorize` with an event trace | loop invariant on the trace | `memorize_calls`, `memorize_succeeds_iff`, `memorize_errors` |
| C30 | `EvalFactor.memorize_passes_needed` on token lists | acyclicity of nesting, loop measure | `transforms_innermost_first`, `transforms_innermost_first_any_tokenizer`, `transforms_memorized_in_order` |
| C31 | `EvalFactor.memorize_passes_needed` on token lists | acyclicity of nesting, loop measure | `stateful_calls_rewritten` |
| C32 | `_examine_factor_types`, `CategoricalSniffer` | fold over chunks | `factor_types`, `factor_type_errors`, `numerical_or_categorical`, `levels_chunking`, `types_chunking_refuted` |
| C33 | `_examine_factor_types`, `CategoricalSniffer` | fold over chunks | `missing_texts`, `levels_cover_data`, `levels_found`, `levels_declared`, `levels_sorted`, `levels_cover_refuted` |
| C34 | `categorical_to_int` | induction over the vector | `category_codes`, `category_codes_pandas`, `category_codes_total`, `category_codes_error`, `category_codes_bools_refuted` |
| C35 | `SortAnythingKey` on tagged values | order axioms; refutation for tuples | `levels_sorted`, `tuple_levels_sorted`, `levels_order`, `levels_order_plain`, `levels_order_tuples_refuted` |
| C36 | `DesignInfo.__init__`, `slice`, `subset`, `terms`, `term_names`, `builder` | induction over term codings | `term_slices_partition_columns`, `slice_other_ways`, `design_terms` |
| C37 | `DesignInfo.__init__`, `slice`, `subset`, `terms`, `term_names`, `builder` | induction over term codings | `subset_selects_columns`, `subset_built_together` |
| C38 | contrast matrices over `Qc` | explicit inverses for every number of levels | `builtin_codings_full_rank`, `builtin_codings_entries`, `builtin_codings_full_names`, `builtin_codings_bad_reference` |
| C39 | contrast matrices over `Qc` | explicit inverses for every number of levels | `builtin_codings_coefficients`, `builtin_codings_sum_to_zero`, `diff_intercept_is_first_level_mean_refuted` |
| C40 | `_get_level` | case analysis | `reference_level_lookup` |
| C41 | `_EvalConstraint` | evaluation homomorphism into affine functions | `constraint_string_meaning`, `constraint_reading_unique`, `constraint_numbers` |
| C42 | `_EvalConstraint` | evaluation homomorphism into affine functions | `constraint_linear_iff_accepted`, `constraint_unreadable`, `constraint_blank_patsyerror_refuted` |
| C43 | `LinearConstraint.combine`, dict constraints | induction; negative index refutation | `combine_is_conjunction`, `combine_accepts` |
| C44 | `_tokenize_constraint` | scanner induction | `constraint_tokens`, `constraint_token_errors`, `constraint_next_token_unique` |
| C45 | `LinearConstraint.combine`, dict constraints | induction; negative index refutation | `mapping_constraint_rows`, `mapping_constraint_accepts`, `mapping_duplicates_rejected_refuted` |
| C46 | `VarLookupDict`, `EvalEnvironment.subset` | lookup lemmas; evaluation as a function of lookups | `lookup_innermost`, `name_resolution`, `lookup_contains_get`, `data_hides_transform_refuted` |
| C47 | `VarLookupDict`, `EvalEnvironment.subset` | lookup lemmas; evaluation as a function of lookups | `subset_preserves_value`, `value_depends_on_names`, `code_names` |
| C48 | `Center`, `Standardize` over `Qc` | loop invariants over chunks (Welford's update for the second) | `center_subtracts_mean`, `center_sums_to_zero`, `center_is_standardize`, `center_one_for_all`, `center_width_refused` |
| C49 | `Center`, `Standardize` over `Qc` | loop invariants over chunks (Welford's update for the second) | `standardize_exact`, `standardize_unit`, `center_is_standardize`, `standardize_one_for_all`, `standardize_width_refused`, `nothing_memorized` |
| C50 | `balanced`, `demo_data` | counting | `balanced_design`, `balanced_no_levels` |
| C51 | `_map_cyclic`, `_find_knots_lower_bounds`, `_row_tensor_product` | arithmetic, induction over factors | `cyclic_mapping`, `cyclic_mapping_bad_bounds` |
| C52 | `_map_cyclic`, `_find_knots_lower_bounds`, `_row_tensor_product` | arithmetic, induction over factors | `knot_interval` |
| C53 | `_map_cyclic`, `_find_knots_lower_bounds`, `_row_tensor_product` | arithmetic, induction over factors | `tensor_product_rows`, `tensor_product_errors` |
| C54 | `BS`, `CubicRegressionSpline`, `_get_all_sorted_knots`, `TE` | arithmetic on counts; sortedness of `np.unique` and percentiles | `bs_columns`, `crs_columns`, `te_columns` |
| C55 | factor keys | case analysis | `factor_keys` |
| C56 | `PatsyError.set_origin`, `call_and_wrap_exc` | case analysis | `first_origin_wins` |
| C57 | `_format_float_column` | string induction | `format_trims_alike`, `format_keeps_values`, `format_trims_all` |
| C58 | `_try_incr_builders`, `_do_highlevel_design`, `dmatrix`, `dmatrices` | case analysis over the inputs, on top of `build_design_matrices` | `dmatrices_aligned`, `dmatrix_shaped`, `one_of_dmatrix_dmatrices` |
| C59 | `parse_formula` | composition of C01-C07 | `parse_formula_correct` |
| C60 | `_eval_binary_prod` | corollary of C11-C13 | `times_is_sum_and_interaction` |
| C61 | `LinearConstraint.__init__`, `linear_constraint` | linear algebra | `matrix_constraint_meaning`, `constraint_object` |
| C62 | `balanced`, `demo_data` | counting | `demo_data_design`, `demo_data_bad_name`, `demo_data_errors`, `balanced_design` |
| C63 | `BS`, `CubicRegressionSpline`, `_get_all_sorted_knots`, `TE` | arithmetic on counts; sortedness of `np.unique` and percentiles | `crs_knots_spec` |
| C64 | `_eval_bspline_basis`, FITPACK's de Boor evaluation | induction over the degree: the triangular scheme computes the Cox-de Boor recursion; partition of unity by induction | `bs_remembers`, `bs_basis`, `bs_rows_sum_to_one`, `bs_range`, `bs_rows_sum_to_one_at_bound_refuted`, `spline_values`, `spline_columns_refused` |
| C65 | `_get_natural_f`, `_get_cyclic_f`, `_compute_base_functions`, `_get_free_crs_dmatrix`, `_absorb_constraints` | Gaussian elimination is sound; the banded and cyclic systems are diagonally dominant, hence regular; the second derivatives they give make the pieces meet; uniqueness by the same dominance; orthogonality of q | `crs_curves`, `crs_all_curves`, `crs_total`, `qr_exists`, `crs_reproduces`, `cr_two_knots_fail`, `cc_few_knots_refuted`, `spline_values`, `spline_columns_refused` |
| C66 | `_get_centering_constraint_from_dmatrix`, `TE.memorize_chunk` | column sums through the orthogonal q; loop invariant over chunks | `crs_centered`, `te_centered`, `qr_exists` |
| C67 | `_do_highlevel_design`, `DesignMatrix.__new__` | both calls satisfy the same specification of `build_design_matrices` | `return_types_agree`, `return_types_agree_dmatrix`, `return_types_agree_explicit`, `return_types_agree_explicit_refuted` |
| C68 | `_try_incr_builders`, `incr_dbuilders` | the empty design in front may be exchanged | `dmatrix_again`, `dmatrices_again`, `incremental_designs`, `incremental_design`, `one_of_incr_dbuilder_dbuilders` |
| C69 | `design_matrix_builders`, `_eval_factor` | factors' places in the set identify what they know | `designs_remember` |
| C70 | `DesignInfo.from_array`, `DesignMatrix.__new__` | case analysis | `lone_matrix`, `lone_array_names`, `tuple_keeps_designs`, `lone_matrix_keeps_design`, `lone_frame_forgets_design`, `mixed_tuple_refused`, `lone_keeps_design_refuted`, `lone_frame_names` |
| C71 | `design_matrix_builders` down to `SortAnythingKey` | what a run leaves open is a record; every function is shown to give equal results for two of them | `runs_agree_designs`, `runs_agree_dmatrices`, `runs_agree_dmatrix`, `runs_agree_addresses_refuted` |
| C72 | `Poly._code_either` | Gram-Schmidt; root counting for polynomials; uniqueness by projecting on lower degrees | `poly_is_orthogonal`, `poly_default_scores`, `poly_determined`, `poly_scale_of_scores`, `poly_code_again`, `poly_full_rank`, `poly_coefficients`, `poly_trend`, `poly_names_known`, `poly_wrong_scores`, `poly_qr_exists`, `poly_repeated_scores_refuted`, `poly_scores_unchanged_refuted` |
| C73 | `C`, `code_contrast_matrix` | induction on the nesting; case analysis | `nested_C`, `outermost_unique`, `C_is_categorical`, `matrix_contrast_as_given`, `contrast_argument_meaning`, `contrast_called_twice_refuted`, `matrix_contrast_ranks_refuted` |
| C74 | `EvalEnvironment.capture`, `__eq__`, `__hash__`, `with_outer_namespace`, the entry points | walk up the list of frames | `capture_depth`, `entry_point_env`, `too_deep_is_value_error_refuted` |
| C75 | `EvalEnvironment.capture`, `__eq__`, `__hash__`, `with_outer_namespace`, the entry points | walk up the list of frames | `environment_equality`, `environment_identity` |
| C76 | `Q`, `EvalFactor.eval` | simulation of expressions with and without quotes | `quote_value`, `quote_is_variable`, `quote_finds_environment_refuted` |
| C77 | `EvalFactor` memorization, `stateful_transform` | invariant over passes and chunks; induction on the nesting | `fitted_factor_value`, `one_chunk_is_direct`, `conditional_fit_refuted` |
| C78 | `memorize_chunk` and `memorize_finish` of the transforms | sorted lists, sums and extremes do not change under permutations | `crs_split_order`, `bs_split_order`, `te_split_order`, `center_split_order`, `standardize_split_order` |
| C79 | the whole way from training data and formula to matrices | composition of the theorems about fitting, types, levels, contrasts and building | `matrix_entries`, `formula_entries` |
| C80 | `call_and_wrap_exc`, `EvalFactor._eval`, `memorize_chunk`, `memorize_finish`, `_factors_memorize` | invariant over the calls | `factor_errors_point_at_factor`, `finish_errors_refuted` |
| C81 | the whole way from training data and formula to matrices, `_make_subterm_infos` | per bucket of terms with the same numeric factors the rank theorem (C21), put together over the cells by linear algebra | `design_rank`, `matrix_full_rank`, `formula_full_rank`, `builtin_contrasts_good`, `numeric_redundancy_refuted` |
| C82 | `EvalFactor` on text: preparation, evaluation of the prepared code, effects on the transform objects | simulation: the rewritten text is read back as the rewritten tree, whose evaluation is related to FitModel's; composition with C77 and C79 | `text_factor_value`, `text_factor_python`, `text_design_entries`, `formula_text_entries`, `hidden_transforms_refuted` |
| C83 | the whole way from chunks of training data to designs and matrices; the classes of the built-in transforms | simulation of two runs of the pipeline over different chunks, induction over the code of factors; each transform learns a function of the multiset of rows | `incremental_at_once`, `center_by_row`, `standardize_by_row`, `bs_by_row`, `crs_by_row`, `te_by_row`, `values_by_row` |
| C84 | `DesignMatrix._repr_pretty_`, `_MiniPPrinter` | the calls of the printer are computed, induction over columns, rows and terms | `matrix_shown`, `table_lines_fit`, `terms_listed_refuted` |
| C85 | `DesignInfo.linear_constraint` on the columns of designs | the tokens and tree of the written text are computed by induction over expressions, then C41 and C42 | `written_constraint`, `matrix_as_text`, `column_name_constraint`, `column_name_constraint_refuted` |
| C86 | `LookupFactor` used by the building functions | instance of the lemma behind C79, whose factors are arbitrary functions of the data | `lookup_arguments`, `lookup_entries`, `lookup_forced` |
| C87 | `DesignInfo.describe` on designs made of formulas | names and order of the terms from C23 and C36; the tree of the text is computed as for C16 | `design_description`, `column_description`, `description_equivalent_refuted`, `description_of_variable_refuted` |
| C88 | `DesignInfo.subset`: success and errors, designs without terms | every check of the constructor is shown to pass for a part of a checked design | `subset_succeeds`, `subset_fails`, `subset_without_terms`, `subset_by_formula`, `subset_by_equal_formula_refuted` |
| C89 | tokens.py:25-64 python_tokenize on text, parse_formula.py:141-142, desc.py:164-181 on text (TextModel.v) | positions by induction over the text; a simulation between parse trees that differ in origins only; the text of describe() is shown to be written with the tokens of the description | `formula_spacing`, `formula_same_tokens`, `describe_text_reads_back`, `formula_text_total_or_located`, `formula_token_places`, `blank_formula`, `open_quotes_alone`, `open_quotes_dropped`, `unclosed_string_refused_refuted` |
| C90 | origin.py:74-119, __init__.py:53-57 (OriginModel.v, MiscModel.v, ErrTextModel.v) | places of nodes are hulls of places of tokens, by induction over the parser's stacks; errors of the two evaluators point at nodes or tokens, by induction over the tree; characters by position for the caret line | `error_text_shape`, `formula_error_shown`, `constraint_errors_located`, `constraint_error_located`, `formula_token_relevant`, `constraint_token_relevant`, `origin_repr_shows`, `origin_equality`, `constraint_error_shown_refuted` |
| C91 | build.py:66-94, 861-1022, missing.py:146-202, categorical.py:327-396 (PipeModel.v, BuildModel.v, CategoricalModel.v) | the characterisation of what is built (C23-C26) for the data and for the rearranged data; positions in the list of kept rows; for designs made from the data the training theorem of C83 | `rows_rearranged`, `order_of_rows` |
| C92 | build.py:43-49, 66-94, 834-858, 861-1022, categorical.py:327-396, missing.py:146-192, with origins (BuildModel.v, CategoricalModel.v, PipeModel.v) | the loop over the factors by induction, with what has been seen so far; codes in range by what training learned (C37, C43), which excludes the errors of the matrices themselves | `new_data_errors`, `errors_point_to_factors`, `building_errors`, `columns_message`, `columns_message_refuted`, `nonnumeric_reported`, `nonnumeric_reported_refuted` |
| C93 | splines.py:66-72, 179-261, mgcv_cubic_splines.py:397-490, 632-690 (BsModel.v, SplineModel.v) | position of the quantile by the floor of a rational; sorted lists by position; counting over initial and final segments | `bs_knots_are_quantiles`, `crs_knots_are_quantiles`, `quantile_divides` |
| C94 | compat_ordereddict.py:24-252 (ODictModel.v) | refinement: the heap of links as a doubly linked chain with NoDup addresses, simulation for each call, induction over the calls | `ordered_dict_is_a_list`, `ordered_dict_copy`, `ordered_dict_fromkeys`, `ordered_dict_eq`, `ordered_dict_clear`, `ordered_dict_with_clear_refuted` |
| C95 | the whole pipeline from the text of a formula (CodeModel.v, PipeModel.v) with two assignments of origins | a relation between two runs that is preserved by every function of the pipeline | `same_model_same_matrices`, `spacing_same_matrices`, `description_same_matrices`, `same_terms_same_designs` |
| C96 | DesignInfo.subset, build_design_matrices, NAAction (BuildModel.v) | an invariant of subset's loop; both builds characterized by the specification `built`; the kept rows of one are a sublist of the other's | `subset_needs_chosen_variables`, `subset_built_alone`, `subset_alone_same_rows_refuted` |
| C97 | _make_subterm_infos, _subterm_column_names_iter, DesignInfo.__init__, Term.name, ContrastMatrix suffixes (BuildModel.v, ContrastModel.v) | names are parsed back by counting open brackets; two subterms of a design never have the same factors, by the specification of the redundancy algorithm; every other check of the constructor is shown to pass | `design_made_unless_names_clash`, `plain_names_never_clash`, `builtin_suffixes_plain`, `design_always_made_refuted` |
| C98 | design_matrix_builders, _do_highlevel_design, dmatrix, dmatrices on formulas and descriptions (PipeModel.v) | errors are traced through the passes, the type detection and the coding of subterms; failing contrasts are replaced by dummies to show that nothing else depends on them; for data in one piece the learned levels cover the data | `design_errors`, `matrices_errors`, `no_description`, `matrices_made` |
| C99 | repr_pretty_impl, _MiniPPrinter, the _repr_pretty_ and __repr__ methods (ShowModel.v) | a reader of Python expressions is the specification; printing and reading are inverse by induction over the objects | `repr_text`, `repr_is_expression`, `desc_repr_evaluates`, `term_repr_evaluates`, `formula_repr_evaluates`, `str_repr_reads`, `objects_shown`, `origin_shown`, `intermediate_repr_refuted` |
| C100 | build.py, redundancy.py, eval.py as in C81 | the columns of a design span its model for rows of any kind (C81); taking all conceivable rows as points, the coefficients do not depend on the data | `nested_predictions`, `margin_predictions`, `rewritten_models` |
| C101 | build.py, missing.py, categorical.py, eval.py as in C83 and C91 | the two trainings learn the same (kinds, levels, contrasts, states that evaluate alike); the complete rows are a rearrangement of the data (C91) of which no row is dropped | `drop_before_or_after`, `stateless_alike`, `drop_first_refuted` |
| C102 | build.py 386-413, 485-511, 693-796, 827-973 as in C71 and C83 | what is learned about a factor does not depend on which other factors there are; designs from equal preparations are equal; rows kept for more factors are among the rows kept for fewer, entries are those of the row | `designs_apart`, `designs_together`, `matrices_apart`, `right_side_alone` |
| C103 | build.py 606-691, 693-796, 827-973 as in C23 and C71 | a stable sort commutes with leaving out terms; codings are picked in order within terms with the same numerical factors, so the codings of a term depend on those sorted before it; a term's slice holds exactly its columns | `earlier_terms_decide`, `earlier_terms_decide_apart` |
| C104 | eval.py 497-599 as in C82, the pipeline as in C59 | two runs over two data types related step by step: the state of a factor is that of its own preparation; evaluating a tree looks up only its names; preparing a factor keeps of the environment only its names; the rewritten tree has the names of the tree and those of the objects | `only_mentioned_variables`, `only_mentioned_variables_formula`, `unmentioned_variable_refuted` |
| C105 | missing.py 149-190, build.py 693-1022, highlevel.py 31-322 as in C59 | where no mask has a missing value the mask of all of them keeps every row; otherwise 'raise' stops at the first one; the other direction through the specification of building (C25) | `raise_or_drop`, `raise_or_drop_formula` |
| C106 | build.py, redundancy.py, eval.py as in C81 | a product of columns is multiplied out into products over the other variables, one for each choice of columns and of shifted factors left out; C100's transfer from models to designs; the inverse of a reparametrisation is one too | `affine_predictions`, `reparametrised`, `hierarchical_models` |
| C107 | splines.py as in C64 | Marsden's identity, on coefficients, around any point: psi polynomials vanish to the order of the knots there, which gives monomials and truncated powers; for the converse, these powers are independent (root counting, piece by piece), there are as many as columns, and more vectors than dimensions are dependent | `bs_draws_splines`, `bs_draws_only_splines`, `bs_coefficients_unique` |
| C108 | mgcv_cubic_splines.py te() as in C53, C54, C66 | the absorbed coefficients are the null space of the constraint (C65's spread and gather); rows of products tell apart weights by induction on the number of arguments; C107 and C65 for the margins | `te_surfaces`, `te_all_surfaces`, `te_coefficients_unique`, `te_center_constraint`, `bs_telling`, `crs_telling` |
| C109 | splines.py, mgcv_cubic_splines.py, state.py as in C48, C49, C64, C65 | sorting, quantiles and the Cox-de Boor steps commute with the conversion; for cr() and cc() a converted spline is a spline on the converted knots and C65 determines the matrix from the splines | `bs_units`, `crs_units`, `bs_df_units`, `standardize_units`, `center_units` |
| C110 | splines.py as in C64 | the support of the Cox-de Boor recursion and sorted knots; rows are convex combinations (C64) | `bs_local`, `bs_hull` |
| C111 | splines.py as in C64 | what bs() draws (C107) for both; splines on some knots are splines on more, and of a higher degree with each knot repeated | `bs_nested` |
| C112 | mgcv_cubic_splines.py as in C65 | what cr() and cc() draw (C65) for both; a knot inserted splits one piece in two equal ones, and all the missing knots can be inserted one by one | `crs_nested` |

## Which code is modelled

Generated from the citations in the `*Model.v` files: functions whose lines a model definition cites.

* `__init__.py`: PatsyError.__init__ (47-51), PatsyError.__str__ (53-57), PatsyError.set_origin (59-69)
  * not modelled or only through the functions that call it: _reexport (79-82)
* `build.py`: _eval_factor (66-94), _column_combinations (219-223), _subterm_column_combinations (239-247), _subterm_column_names_iter (250-274), _build_subterm (277-297), _factors_memorize (386-413), _examine_factor_types (485-511), _make_subterm_infos (627-690), design_matrix_builders (693-796), _build_design_matrix (799-831), _CheckMatch.check (842-858), build_design_matrices (861-1022)
  * not modelled or only through the functions that call it: _MockFactor.__init__ (33-34), _MockFactor.eval (36-37), _MockFactor.name (39-40), _max_allowed_dim (43-49), _CheckMatch.__init__ (835-840)
* `builtins.py`: Q (57-98)
  * not modelled or only through the functions that call it: I (34-49)
* `categorical.py`: _CategoricalBox.__init__ (61-64), C (69-107), guess_categorical (132-140), _categorical_shape_fix (160-171), CategoricalSniffer.__init__ (175-180), CategoricalSniffer.levels_contrast (182-187), CategoricalSniffer.sniff (189-229), categorical_to_int (327-396)
* `compat.py`: call_and_wrap_exc (38-43)
* `compat_ordereddict.py`: OrderedDict.__init__ (37-51), OrderedDict.__setitem__ (53-61), OrderedDict.__delitem__ (63-70), OrderedDict.__iter__ (72-78), OrderedDict.__reversed__ (80-86), OrderedDict.clear (88-98), OrderedDict.popitem (100-121), OrderedDict.values (129-131), OrderedDict.items (133-135), OrderedDict.itervalues (141-144), OrderedDict.iteritems (146-149), OrderedDict.update (151-182), OrderedDict.pop (188-199), OrderedDict.setdefault (201-206), OrderedDict.copy (231-233), OrderedDict.fromkeys (236-244), OrderedDict.__eq__ (246-253)
  * not modelled or only through the functions that call it: OrderedDict.keys (125-127), OrderedDict.iterkeys (137-139), OrderedDict.__repr__ (208-219), OrderedDict.__reduce__ (221-229), OrderedDict.__ne__ (255-256), OrderedDict.viewkeys (260-262), OrderedDict.viewvalues (264-266), OrderedDict.viewitems (268-270)
* `constraint.py`: LinearConstraint.__init__ (53-67), LinearConstraint._repr_pretty_ (71-75), LinearConstraint.combine (80-96), _tokenize_constraint (186-214), parse_constraint (257-258), _EvalConstraint.__init__ (262-277), _EvalConstraint.is_constant (286-287), _EvalConstraint._eval_variable (289-293), _EvalConstraint._eval_number (295-298), _EvalConstraint._eval_unary_plus (300-301), _EvalConstraint._eval_unary_minus (303-304), _EvalConstraint._eval_binary_plus (306-307), _EvalConstraint._eval_binary_minus (309-310), _EvalConstraint._eval_binary_div (312-319), _EvalConstraint._eval_binary_multiply (321-331), _EvalConstraint._eval_binary_eq (333-351), _EvalConstraint._eval_binary_comma (353-356), _EvalConstraint.eval (358-375), linear_constraint (378-437)
  * not modelled or only through the functions that call it: _token_maker (175-183), _check_lincon (440-453)
* `contrasts.py`: ContrastMatrix.__init__ (42-46), ContrastMatrix._repr_pretty_ (50-51), _obj_to_readable_str (75-84), _name_levels (106-107), _dummy_code (114-115), _get_level (118-127), Treatment.__init__ (174-175), Treatment.code_with_intercept (177-178), Treatment.code_without_intercept (180-190), Poly._code_either (257-286), Poly.code_with_intercept (288-289), Sum._omit_i (398-403), Sum._sum_contrast (405-413), Sum.code_with_intercept (415-419), Sum.code_without_intercept (421-425), Helmert._helmert_contrast (492-512), Helmert.code_with_intercept (514-519), Helmert.code_without_intercept (521-523), Diff._diff_contrast (564-581), Diff.code_with_intercept (583-585), Diff.code_without_intercept (587-589), code_contrast_matrix (627-642)
  * not modelled or only through the functions that call it: Poly.__init__ (254-255), Poly.code_without_intercept (291-292), Sum.__init__ (395-396)
* `desc.py`: Term.__init__ (42-43), Term.__eq__ (45-48), Term.__ne__ (50-51), Term.__hash__ (53-54), Term._repr_pretty_ (58-60), Term.name (62-67), ModelDesc.__init__ (115-117), ModelDesc._repr_pretty_ (121-128), ModelDesc.describe (130-162), ModelDesc.from_formula (165-179), IntermediateExpr.__init__ (213-220), IntermediateExpr._pretty_repr_ (224-230), _maybe_add_intercept (235-239), _eval_any_tilde (242-253), _eval_binary_plus (256-275), _eval_binary_minus (278-295), _check_interactable (298-303), _interaction (306-313), _eval_binary_prod (316-320), _eval_binary_div (331-343), _eval_binary_interact (346-348), _eval_binary_power (351-370), _eval_unary_plus (373-374), _eval_unary_minus (377-383), _eval_zero (386-387), _eval_one (390-391), _eval_number (394-395), _eval_python_expr (398-400), Evaluator.__init__ (404-426), Evaluator.add_op (431-432), Evaluator.eval (434-456)
  * not modelled or only through the functions that call it: _MockFactor.__init__ (76-77), _MockFactor.name (79-80), _assert_terms_match (626-636), _do_eval_formula_tests (639-649)
* `design_info.py`: FactorInfo.__init__ (79-101), FactorInfo._repr_pretty_ (105-126), SubtermInfo.__init__ (212-227), SubtermInfo._repr_pretty_ (231-242), DesignInfo.__init__ (276-401), DesignInfo._repr_pretty_ (405-412), DesignInfo.column_names (415-417), DesignInfo.terms (420-424), DesignInfo.term_names (427-429), DesignInfo.builder (432-444), DesignInfo.design_info (447-458), DesignInfo.slice (460-504), DesignInfo.linear_constraint (506-555), DesignInfo.describe (557-588), DesignInfo.subset (590-681), DesignInfo.from_array (684-713), _format_float_column (1059-1085), DesignMatrix.__new__ (1126-1171), DesignMatrix._repr_pretty_ (1175-1262)
* `eval.py`: _all_future_flags (27-37), VarLookupDict.__init__ (47-48), VarLookupDict.__getitem__ (50-56), VarLookupDict.__setitem__ (58-59), VarLookupDict.__contains__ (61-67), VarLookupDict.get (69-73), VarLookupDict.__repr__ (75-76), ast_names (101-118), EvalEnvironment.__init__ (151-154), EvalEnvironment.namespace (157-160), EvalEnvironment.with_outer_namespace (162-167), EvalEnvironment.eval (169-179), EvalEnvironment.capture (182-251), EvalEnvironment.subset (253-258), EvalEnvironment._namespace_ids (260-261), EvalEnvironment.__eq__ (263-268), EvalEnvironment.__ne__ (270-271), EvalEnvironment.__hash__ (273-274), EvalFactor.__repr__ (485-486), EvalFactor.__eq__ (488-489), EvalFactor.__ne__ (491-492), EvalFactor.__hash__ (494-495), EvalFactor.memorize_passes_needed (497-578), EvalFactor._eval (580-588), EvalFactor.memorize_chunk (590-592), EvalFactor.memorize_finish (594-596), EvalFactor.eval (598-599), annotated_tokens (730-740), has_bare_variable_reference (763-767), replace_bare_funcalls (770-776), _FuncallCapturer.__init__ (799-804), _FuncallCapturer.add_token (806-822), capture_obj_method_calls (827-837)
  * not modelled or only through the functions that call it: _a (279-281), _b (284-286), _c (289-298), EvalFactor.__init__ (456-480), EvalFactor.name (482-483), _MockTransform.__init__ (662-665), _MockTransform.memorize_chunk (667-671), _MockTransform.memorize_finish (673-674), _MockTransform.transform (676-677)
* `highlevel.py`: _try_incr_builders (31-63), incr_dbuilder (66-112), incr_dbuilders (115-130), _do_highlevel_design (150-227), dmatrix (230-301), dmatrices (304-322)
* `infix_parser.py`: _UniqueValue.__repr__ (47-48), Token.__init__ (65-68), Token._repr_pretty_ (72-77), ParseNode.__init__ (83-87), Operator.__init__ (98-101), Operator.__repr__ (103-109), _StackOperator.__init__ (115-117), _ParseContext.__init__ (126-132), _read_noun_context (137-156), _run_op (159-174), _read_op_context (177-206), infix_parse (209-252)
  * not modelled or only through the functions that call it: _UniqueValue.__init__ (44-45), ParseNode._repr_pretty_ (91-92)
* `mgcv_cubic_splines.py`: _get_natural_f (25-55), _map_cyclic (61-81), _get_cyclic_f (101-133), _row_tensor_product (139-179), _find_knots_lower_bounds (226-250), _compute_base_functions (253-287), _absorb_constraints (290-310), _get_free_crs_dmatrix (313-351), _get_crs_dmatrix (354-376), _get_te_dmatrix (379-391), _get_all_sorted_knots (397-490), _get_centering_constraint_from_dmatrix (540-552), CubicRegressionSpline.__init__ (597-602), CubicRegressionSpline.memorize_chunk (604-630), CubicRegressionSpline.memorize_finish (632-690), CubicRegressionSpline.transform (692-716), CR.__init__ (746-747), CC.__init__ (777-778), TE.__init__ (948-950), TE.memorize_chunk (952-971), TE.memorize_finish (973-987), TE.transform (989-999)
* `missing.py`: NAAction.__init__ (91-122), NAAction.is_categorical_NA (124-132), NAAction.handle_NA (146-172), NAAction._handle_NA_raise (174-178), NAAction._handle_NA_drop (180-186)
  * not modelled or only through the functions that call it: _desc_options (50-51), NAAction.is_numerical_NA (134-144)
* `origin.py`: Origin.__init__ (36-39), Origin.combine (42-72), Origin.relevant_code (74-77), Origin.__eq__ (79-85), Origin.__ne__ (87-88), Origin.__hash__ (90-91), Origin.caretize (93-110), Origin.__repr__ (112-119)
  * not modelled or only through the functions that call it: Origin.__getstate__ (122-123)
* `parse_formula.py`: _is_a (27-33), _read_python_expr (37-73), _tokenize_formula (76-96), parse_formula (140-155)
  * not modelled or only through the functions that call it: _compare_trees (189-197), _do_parse_test (200-205), _parsing_error_test (251-275)
* `redundancy.py`: _ExpandedFactor.__init__ (54-56), _ExpandedFactor.__hash__ (58-59), _ExpandedFactor.__eq__ (61-66), _ExpandedFactor.__ne__ (68-69), _ExpandedFactor.__repr__ (71-76), _Subterm.__init__ (84-85), _Subterm.can_absorb (87-91), _Subterm.absorb (93-100), _Subterm.__hash__ (102-103), _Subterm.__eq__ (105-106), _subsets_sorted (149-170), _simplify_one_subterm (188-198), _simplify_subterms (201-203), pick_contrasts_for_term (241-259)
  * not modelled or only through the functions that call it: _Subterm.__ne__ (108-109), _Subterm.__repr__ (111-112), _expand_test_abbrevs (120-128)
* `splines.py`: _eval_bspline_basis (19-63), _R_compat_quantile (66-72), BS.__init__ (145-148), BS.memorize_chunk (150-177), BS.memorize_finish (179-261), BS.transform (263-280)
* `state.py`: stateful_transform (48-61), Center.__init__ (102-104), Center.memorize_chunk (106-114), Center.memorize_finish (116-117), Center.transform (119-131), Standardize.__init__ (161-164), Standardize.memorize_chunk (166-176), Standardize.memorize_finish (178-179), Standardize.transform (181-192)
* `tokens.py`: python_tokenize (25-64), pretty_untokenize (116-174), normalize_token_spacing (177-179)
* `user_util.py`: balanced (18-56), demo_data (94-147), LookupFactor.__init__ (200-212), LookupFactor.name (214-215), LookupFactor.__repr__ (217-218), LookupFactor.__eq__ (220-227), LookupFactor.__ne__ (229-230), LookupFactor.__hash__ (232-241), LookupFactor.memorize_passes_needed (243-244), LookupFactor.memorize_chunk (246-247), LookupFactor.memorize_finish (249-250), LookupFactor.eval (252-256)
* `util.py`: asarray_or_pandas (89-99), atleast_2d_column_default (191-203), pandas_friendly_reshape (292-307), uniqueify_list (343-350), PushbackAdapter.__init__ (401-403), PushbackAdapter.push_back (408-409), PushbackAdapter.next (411-416), PushbackAdapter.peek (420-426), PushbackAdapter.has_more (428-434), _MiniPPrinter.__init__ (476-478), _MiniPPrinter.text (480-481), _MiniPPrinter.breakable (483-484), _MiniPPrinter.begin_group (486-487), _MiniPPrinter.end_group (489-490), _MiniPPrinter.pretty (492-496), _MiniPPrinter.getvalue (498-499), _mini_pretty (502-505), repr_pretty_delegate (508-526), repr_pretty_impl (529-548), SortAnythingKey.__lt__ (597-617), safe_scalar_isnan (649-653)
  * not modelled or only through the functions that call it: safe_is_pandas_string_dtype (74-75), wide_dtype_for (373-381), widen (384-385), PushbackAdapter.__iter__ (405-406), SortAnythingKey.__init__ (583-584), SortAnythingKey._python_lt (586-595), iterable (682-687), pandas_Categorical_from_codes (716-725), pandas_Categorical_categories (737-746), pandas_Categorical_codes (750-759), safe_is_pandas_categorical_dtype (776-779), safe_is_pandas_categorical (783-790), safe_issubdtype (817-821), no_pickling (835-840), assert_no_pickling (843-847), safe_string_eq (855-859)

## Assumptions of each theorem

`Print Assumptions` after every theorem prints "Closed under the global context": no axiom at all. The theorems, by file:

* `AffineProps.v`: `affine_predictions`, `reparametrised`, `hierarchical_models`
* `ApartProps.v`: `designs_apart`, `designs_together`, `matrices_apart`, `right_side_alone`
* `ArrangeProps.v`: `rows_rearranged`, `order_of_rows`
* `AttrProps.v`: `lookup_contains_get`, `term_hash_agrees`, `design_terms`
* `BsCurveProps.v`: `bs_draws_splines`, `bs_draws_only_splines`, `bs_coefficients_unique`
* `BsLocalProps.v`: `bs_local`, `bs_hull`
* `BsNestProps.v`: `bs_nested`
* `BsProps.v`: `bs_remembers`, `bs_columns`, `bs_basis`, `bs_rows_sum_to_one`, `bs_range`, `bs_rows_sum_to_one_at_bound_refuted`
* `BuildProps.v`: `term_order`, `design_column_count`, `combinations_leftmost_fastest`, `subterm_names_and_values_aligned`, `design_column_names`, `build_design_matrices_correct`, `rows_kept`, `handle_NA_correct`, `handle_NA_raise_is_patsy_error`, `eval_factor_marks_missing`, `row_mismatch_is_error`, `building_succeeds_iff`, `chunked_building`, `chunked_labels`, `term_slices_partition_columns`, `slice_other_ways`, `subset_selects_columns`, `subset_built_together`
* `CategoricalProps.v`: `factor_types`, `factor_type_errors`, `numerical_or_categorical`, `levels_cover_data`, `levels_found`, `levels_declared`, `levels_cover_refuted`, `levels_chunking`, `types_chunking_refuted`, `category_codes`, `category_codes_pandas`, `category_codes_total`, `category_codes_error`, `category_codes_bools_refuted`, `levels_sorted`, `levels_order`, `levels_order_plain`, `tuple_levels_sorted`, `levels_order_tuples_refuted`
* `ChoiceProps.v`: `nested_C`, `outermost_unique`, `C_is_categorical`, `matrix_contrast_as_given`, `contrast_argument_meaning`, `contrast_called_twice_refuted`, `matrix_contrast_ranks_refuted`, `missing_texts`
* `CodeProps.v`: `text_factor_value`, `text_factor_python`, `text_design_entries`, `formula_text_entries`, `hidden_transforms_refuted`
* `ConstraintProps.v`: `constraint_string_meaning`, `constraint_reading_unique`, `constraint_numbers`, `constraint_linear_iff_accepted`, `constraint_unreadable`, `constraint_blank_patsyerror_refuted`, `combine_is_conjunction`, `combine_accepts`, `constraint_tokens`, `constraint_token_errors`, `constraint_next_token_unique`, `mapping_constraint_rows`, `mapping_constraint_accepts`, `mapping_duplicates_rejected_refuted`, `matrix_constraint_meaning`, `constraint_object`
* `ContrastProps.v`: `reference_level_lookup`, `builtin_codings_entries`, `builtin_codings_full_names`, `builtin_codings_full_rank`, `builtin_codings_bad_reference`, `builtin_codings_sum_to_zero`, `builtin_codings_coefficients`, `diff_intercept_is_first_level_mean_refuted`, `builtin_design_full_rank`
* `CrsNestProps.v`: `crs_nested`
* `CrsProps.v`: `crs_knots_spec`, `crs_columns`, `te_columns`
* `CrsSplineProps.v`: `crs_curves`, `crs_all_curves`, `crs_total`, `qr_exists`, `crs_reproduces`, `crs_centered`, `te_centered`, `cr_two_knots_fail`, `cc_few_knots_refuted`
* `DDescProps.v`: `design_description`, `column_description`, `description_equivalent_refuted`, `description_of_variable_refuted`
* `DescProps.v`: `from_tree_means_sets`, `from_tree_terms_distinct`, `from_tree_sum_order`, `from_tree_intercept_last_mention`, `from_tree_power`, `from_tree_power_saturates`, `from_tree_succeeds_iff_sensible`, `from_formula_total_or_located`, `describe_reads_back`, `describe_writes`, `term_equal_iff_same_factors`, `times_is_sum_and_interaction`
* `DropProps.v`: `drop_before_or_after`, `stateless_alike`, `drop_first_refuted`
* `EntryProps.v`: `matrix_entries`, `formula_entries`, `factor_errors_point_at_factor`, `finish_errors_refuted`
* `ErrTextProps.v`: `error_text_shape`, `formula_error_shown`, `constraint_errors_located`, `constraint_error_located`, `formula_token_relevant`, `constraint_token_relevant`, `origin_repr_shows`, `origin_equality`, `constraint_error_shown_refuted`
* `EvalProps.v`: `stateful_calls_rewritten`, `transforms_innermost_first_any_tokenizer`, `transforms_innermost_first`, `transforms_memorized_in_order`, `lookup_innermost`, `name_resolution`, `data_hides_transform_refuted`, `subset_preserves_value`, `value_depends_on_names`, `normal_form_any_tokenizer`, `normal_form`, `normal_form_number_attribute_refuted`, `code_names`, `operators_longest`, `character_classes`, `factor_keys`
* `FitProps.v`: `fitted_factor_value`, `one_chunk_is_direct`, `conditional_fit_refuted`
* `FrameProps.v`: `capture_depth`, `entry_point_env`, `too_deep_is_value_error_refuted`, `environment_equality`, `environment_identity`, `quote_value`, `quote_is_variable`, `quote_finds_environment_refuted`
* `IncrProps.v`: `incremental_at_once`, `center_by_row`, `standardize_by_row`, `bs_by_row`, `crs_by_row`, `te_by_row`, `values_by_row`
* `InfixProps.v`: `infix_parse_correct`, `infix_grammar_unambiguous`, `infix_parse_errors_located`, `infix_parse_errors_earliest`, `infix_parse_empty_refuted`, `infix_parse_origins`
* `KnotProps.v`: `bs_knots_are_quantiles`, `crs_knots_are_quantiles`, `quantile_divides`
* `LaterProps.v`: `earlier_terms_decide`, `earlier_terms_decide_apart`
* `LayoutProps.v`: `same_model_same_matrices`, `spacing_same_matrices`, `description_same_matrices`, `same_terms_same_designs`
* `LookupProps.v`: `lookup_arguments`, `lookup_entries`, `lookup_forced`
* `MadeProps.v`: `design_errors`, `matrices_errors`, `no_description`, `matrices_made`
* `MemorizeProps.v`: `memorize_calls`, `memorize_succeeds_iff`, `memorize_errors`
* `MiscProps.v`: `balanced_design`, `balanced_no_levels`, `demo_data_design`, `demo_data_bad_name`, `demo_data_errors`, `first_origin_wins`, `format_trims_alike`, `format_keeps_values`, `format_trims_all`
* `NaProps.v`: `raise_or_drop`, `raise_or_drop_formula`
* `NameProps.v`: `design_made_unless_names_clash`, `plain_names_never_clash`, `builtin_suffixes_plain`, `design_always_made_refuted`
* `ODictProps.v`: `ordered_dict_is_a_list`, `ordered_dict_copy`, `ordered_dict_fromkeys`, `ordered_dict_eq`, `ordered_dict_clear`, `ordered_dict_with_clear_refuted`
* `OriginProps.v`: `origin_combine_none`, `origin_combine_hull`, `origin_combine_order`
* `ParseFormulaProps.v`: `tokenize_formula_groups`, `segmentation_unique`, `tokenize_formula_errors`, `parse_formula_correct`
* `PipeErrProps.v`: `new_data_errors`, `errors_point_to_factors`, `building_errors`, `columns_message`, `columns_message_refuted`, `nonnumeric_reported_refuted`, `nonnumeric_reported`
* `PipeExplicitProps.v`: `tuple_keeps_designs`, `lone_matrix_keeps_design`, `lone_frame_forgets_design`, `mixed_tuple_refused`, `lone_keeps_design_refuted`
* `PipeProps.v`: `dmatrices_aligned`, `dmatrix_shaped`, `one_of_dmatrix_dmatrices`, `return_types_agree`, `return_types_agree_dmatrix`, `return_types_agree_explicit`, `dmatrix_again`, `dmatrices_again`, `incremental_designs`, `incremental_design`, `one_of_incr_dbuilder_dbuilders`, `designs_remember`, `lone_matrix`, `lone_array_names`, `lone_frame_names`, `na_action_arguments`, `na_action_string`, `return_types_agree_explicit_refuted`
* `PipeSeedProps.v`: `runs_agree_designs`, `runs_agree_dmatrices`, `runs_agree_dmatrix`, `runs_agree_addresses_refuted`
* `PolyProps.v`: `poly_qr_exists`, `poly_names_known`, `poly_is_orthogonal`, `poly_default_scores`, `poly_determined`, `poly_scale_of_scores`, `poly_code_again`, `poly_full_rank`, `poly_coefficients`, `poly_trend`, `poly_wrong_scores`, `poly_repeated_scores_refuted`, `poly_scores_unchanged_refuted`
* `RankMatProps.v`: `design_rank`, `matrix_full_rank`, `formula_full_rank`, `builtin_contrasts_good`, `numeric_redundancy_refuted`
* `RankProps.v`: `design_columns_full_rank`
* `RedundancyProps.v`: `contrast_selection_codes_each_subset_once`, `contrast_selection_hash_collision_refuted`, `simplification_terminates_irreducible`, `simplification_preserves_meaning`, `contrast_selection_column_count`, `subsets_complete_sorted`
* `ReprProps.v`: `matrix_shown`, `table_lines_fit`, `terms_listed_refuted`
* `ShowProps.v`: `repr_text`, `repr_is_expression`, `desc_repr_evaluates`, `term_repr_evaluates`, `formula_repr_evaluates`, `str_repr_reads`, `objects_shown`, `origin_shown`, `intermediate_repr_refuted`
* `SourceProps.v`: `only_mentioned_variables`, `only_mentioned_variables_formula`, `unmentioned_variable_refuted`
* `SpaceProps.v`: `nested_predictions`, `margin_predictions`, `rewritten_models`
* `SpacingProps.v`: `pretty_untokenize_rule`, `spacing_cases`, `spacing_sign`
* `SplineProps.v`: `cyclic_mapping`, `cyclic_mapping_bad_bounds`, `knot_interval`, `tensor_product_rows`, `tensor_product_errors`
* `SplitProps.v`: `crs_split_order`, `bs_split_order`, `te_split_order`, `center_split_order`, `standardize_split_order`
* `StateProps.v`: `center_subtracts_mean`, `center_sums_to_zero`, `standardize_exact`, `standardize_unit`, `nothing_memorized`, `center_is_standardize`
* `SubsetAloneProps.v`: `subset_needs_chosen_variables`, `subset_built_alone`, `subset_alone_same_rows_refuted`
* `SubsetProps.v`: `subset_succeeds`, `subset_fails`, `subset_without_terms`, `subset_by_formula`, `subset_by_equal_formula_refuted`
* `TeProps.v`: `te_surfaces`, `te_all_surfaces`, `te_coefficients_unique`, `te_center_constraint`, `bs_telling`, `crs_telling`
* `TextProps.v`: `formula_spacing`, `formula_same_tokens`, `describe_text_reads_back`, `formula_text_total_or_located`, `open_quotes_alone`, `open_quotes_dropped`, `unclosed_string_refused_refuted`, `formula_token_places`, `blank_formula`
* `TokensProps.v`: `pretty_untokenize_spacing`, `pretty_untokenize_total`, `pretty_untokenize_glues_fstring_refuted`, `pretty_untokenize_number_attribute_refuted`
* `UnitProps.v`: `bs_units`, `crs_units`, `bs_df_units`, `standardize_units`, `center_units`
* `UtilProps.v`: `pushback_refines_stream`, `uniqueify_first_occurrences`
* `WidthProps.v`: `center_one_for_all`, `center_width_refused`, `standardize_one_for_all`, `standardize_width_refused`, `spline_values`, `spline_columns_refused`
* `WriteProps.v`: `written_constraint`, `matrix_as_text`, `column_name_constraint`, `column_name_constraint_refuted`

## Trusted base

* Coq's kernel (8.16.1) and the definitions of its standard library.  No axiom
  is used by any theorem (see the table above).  The two Examples `reals_euclidean` and `ex_poly_three`
  in `PolyProps.v` are about the standard library's real numbers and rest on its axioms
  `ClassicalDedekindReals.sig_forall_dec`, `ClassicalDedekindReals.sig_not_dec` and
  `FunctionalExtensionality.functional_extensionality_dep`.  A
  whole-library axiom listing also shows constants of module types of the standard library that
  its files load (`Coq.ssr.ssrunder.Under_rel.*`, `Coq.Reals.Rdefinitions.RbaseSymbolsImpl.*` and
  `RinvImpl.*`) and `Classical_Prop.classic`, which the real numbers' files load; no theorem here
  depends on them.
* The correspondence between the Python text and the Gallina definitions,
  argued only by the citations and comments.
* For statements in terms of text: the model of Python's tokenizer
  (`PyLexModel.v`) for ASCII text on one line: names, numbers (not checked for being
  well-formed), strings with prefixes, escapes and three quotes, operators, brackets
  and white space.

## Not modelled

CPython's parser and evaluator (an arbitrary function of the code and the
values it looks up; in `CodeModel.v` names, calls, methods and conditional expressions are
modelled, and any other syntax is an arbitrary function of the operands' values); NumPy/pandas array semantics beyond shapes, masks, the dtypes
that patsy inspects, and element-wise exact arithmetic; floating-point rounding,
overflow; pickling (refused by patsy); pretty printing other than of design matrices;
threads.  The columns of scipy's q have length 1, which takes
square roots; the theorems about constraints of splines speak of every function that
returns decompositions with orthogonal columns of any length, and of these some exist for
every rational matrix (`qr_exists`).

## Findings

Each was found by reading and, where a theorem is named, proved of the model.
None was run.

1. `_Subterm.__eq__` (redundancy.py:106) compares `self.efs` with itself, so any
   two subterms with equal hashes are equal; correct only because hash collisions do not occur.
2. `infix_parse` on an empty token stream raises IndexError rather than PatsyError; a blank
   constraint string reaches it.
3. `*`, `:`, `/` and `**` forget that the intercept was removed inside their operands:
   `~ (0 + a)**2` has an intercept.  `a + (b + 0)` and `a + +0` keep it too.
4. `pretty_untokenize` glues f-string starts to a preceding word (Python >= 3.12), turns `1 .real` into
   `1.real`, and maps `x[a: =b]` and `x[a:=b]` to the same text.
5. `_eval_factor` passes the two numbers of its message about the number of columns in the wrong order (build.py:77; `columns_message`, `columns_message_refuted`).
6. A raw term list with a repeated term trips an assertion in `_make_subterm_infos`.
7. `CategoricalSniffer`: sniffing stops once the level set equals {True, False}, which the integers 0 and 1
   also do, so later levels are missed (`levels_cover_refuted`); the boolean fast path replaces the level set,
   so levels of mixed data depend on how it is split.
8. The decision numeric/categorical uses only the first piece of data (`types_chunking_refuted`); an empty
   list counts as numeric.
9. The string "nan" counts as missing in categorical data; a huge integer raises OverflowError
   in `safe_scalar_isnan`; boolean arrays with levels that lack False or True raise KeyError
   (`category_codes_bools_refuted`).
10. `_categorical_shape_fix`'s error has no origin.  An empty data iterator gives AssertionError.
11. `SortAnythingKey` is not transitive on tuples (`levels_order_tuples_refuted`), nor with NaN.
12. Dict constraints: negative indices bypass the duplicate check.  Division by a zero constant gives
    inf/nan constraints.  Without column names, or with an empty one, the constraint tokenizer rejects all
    text; a column named "1" makes "10" two tokens; names starting with an operator character are unreachable, and
    with columns `x` and `-x` the text "-x" constrains `x` (`column_name_constraint_refuted`).
    `nan` and `inf` are numbers.
13. `EvalFactor` (eval.py:528-531) raises NameError where a PatsyError is meant.  A data column named
    `_patsy_stobj0__center__` shadows the transform's state (`unmentioned_variable_refuted`).  A data column named like a stateful transform
    does not shadow it when called (`hidden_transforms_refuted`).
14. `DesignInfo`: duplicate column names give ValueError or AssertionError; two terms with the same name,
    and `subset()` with repeated terms, fail; `subset` with a Term whose factors are in another order renames
    the term but not the columns.
15. `Diff`'s docstring claims its coefficient of the intercept is the mean (refuted); its full-rank coding
    names the intercept column like a difference.
16. `balanced` with a count of 0 returns no columns.  `demo_data` treats a to n as categorical, the
    documentation says a to m.
17. `center()` on boolean data computes a boolean mean; NumPy then refuses to subtract.
18. `bs()` with an inner knot at the upper bound (which quantiles can produce) gives an all-zero row at the
    bound (`bs_rows_sum_to_one_at_bound_refuted`).  The degree error message prints None.  Several columns
    raise AssertionError rather than ValueError; degree 3.0 raises TypeError.
19. `cr()` with its two bounds as only knots (df=2, or df=1 with a constraint) fails in every transform, as
    line 46 builds an array from rows of unequal lengths (`cr_two_knots_fail`).
20. `cc()` with df 1 or 2: `_get_cyclic_f` overwrites entries it should add to, so the columns do not draw
    cyclic splines and rows do not sum to one (`cc_few_knots_refuted`).
21. `LookupFactor` with a list of levels is unhashable.
22. Explicit matrices: with return_type="dataframe" their contents are not checked, so objects, None and even
    a DesignInfo in a mixed tuple pass, where return_type="matrix" raises ValueError
    (`return_types_agree_explicit_refuted`); integers stay integers in a data frame only.  A lone DataFrame
    with a `design_info` loses it (`lone_keeps_design_refuted`), a DataFrame in a tuple does not.  An invalid NA_action string goes
    unnoticed.
23. Levels that are objects without an order are sorted by address, so columns may differ from run to run (`runs_agree_addresses_refuted`).
24. `Poly` accepts repeated scores: a zero column (in exact arithmetic), or rounding noise brought to length one
    (`poly_repeated_scores_refuted`).  `np.asarray` does not copy an array of floats, so `scores -= scores.mean()`
    overwrites the scores of the user (`poly_scores_unchanged_refuted`).  Line 277 normalises columns by the
    lengths of rows (`axis=1`); harmless, as both are one already.
25. `code_contrast_matrix` calls a callable once only, so a function returning a class fails with
    AttributeError (`contrast_called_twice_refuted`).  A matrix is used for full- and reduced-rank coding alike,
    without checking its rank (`matrix_contrast_ranks_refuted`); a number or a flat list raises IndexError.
26. `EvalEnvironment.capture` on a stack that is too short by exactly one frame raises AttributeError instead of
    the ValueError meant for it (`too_deep_is_value_error_refuted`); a negative depth captures the frame of
    `capture` itself.
27. `Q("x")` finds variables of the data only: variables of the calling environment are kept only if the factor's
    code names them (`quote_finds_environment_refuted`), and Python's builtins are not found either.
28. A stateful transform in the branch of a conditional expression that is not taken is still fitted, with any
    error this raises (`conditional_fit_refuted`).
29. Errors raised by a transform's `memorize_finish`, such as the ValueError of `bs(x)` without df or knots, are not
    wrapped and do not tell which factor failed (`finish_errors_refuted`).
30. Redundancy is looked for between categorical factors only; numeric terms that are multiples of each other give
    linearly dependent columns without a warning (`numeric_redundancy_refuted`).
31. When a design matrix is shown, the comma between terms is left out wherever a term starts at column 0, so also
    after a first term without columns (`terms_listed_refuted`).
32. `DesignInfo.describe()` does not write `0` for a missing intercept, so its text read as a formula has one, and
    writes `1` for a variable called Intercept (`description_equivalent_refuted`,
    `description_of_variable_refuted`); its documentation gives no guarantee.
33. `DesignInfo.subset` with a formula string looks terms up by name, so `x:a` is a KeyError for a design with `a:x`,
    although the Term objects are equal and `subset([term])` finds it (`subset_by_equal_formula_refuted`); documented.
34. (C90, `constraint_error_shown_refuted`) A constraint given as a string may contain newlines (they count as white space), but the text of an error about it shows the code unchanged and one caret line counted from its beginning, so the carets do not stand under the characters they mean. `linear_constraint` of `"a =\nb"` with the single column `a` prints `b` at the beginning of a line and the caret under the ninth column of it. Formulas do not have this problem because newlines are replaced before parsing.
35. A numerical factor that is a pandas object of a non-numeric dtype on new data raises AttributeError: the message of the PatsyError meant for it (build.py:80-85) asks for the `dtype` of the DataFrame that `atleast_2d_column_default` has made (`nonnumeric_reported_refuted`).
36. Under Python 3 `clear()` of the OrderedDict patsy brings along (compat_ordereddict.py:88-98) empties only the inherited dict: `self.__map.itervalues()` raises AttributeError, which is swallowed, so the links stay. The length is 0, all old keys are still iterated over, `items()` raises KeyError, and a key set again is iterated over twice (`ordered_dict_clear`, `ordered_dict_with_clear_refuted`). patsy itself never calls `clear()`.
37. A string in three quotes that is never closed is not reported (tokens.py:46-64): the tokenizer's error is taken for an unclosed parenthesis and ends the stream, so `y ~ x '''+ z` is silently read as `y ~ x` (`open_quotes_dropped`, `unclosed_string_refused_refuted`), and a formula that starts with such a string has no tokens and raises IndexError (`open_quotes_alone`, cf. finding 2).
38. The documentation of `DesignInfo.subset` (design_info.py:603-606) says that building the full design and selecting columns and building the subset return the same thing. With NA_action='drop' they have different rows when a variable that is left out has missing values (`subset_alone_same_rows_refuted`); and if only the intercept is left, building the subset from a dict fails because the number of rows is unknown, although the full design can be built (C28 says when building succeeds).
39. A correct formula and correct data can be refused because of names alone: a numeric variable called `Intercept` beside the intercept (`y ~ Intercept`) gives two columns with that name and `ValueError: mismatch between column_names and columns coded by given terms`, a message that does not say what is wrong (`design_always_made_refuted`, `clash_intercept_ex`). The same happens for levels whose texts are equal (1 and '1'), for a level called 'intercept' under full-rank Helmert coding, for a level such as 'p]:b[T.q', and for `x` with two columns beside a factor `x[0]`.
40. `repr` of an `IntermediateExpr` (the value the formula evaluator works with, desc.py:210-232) recurses until Python gives up: its method is called `_pretty_repr_`, the printer looks for `_repr_pretty_`, finds none and calls `repr`, which calls the printer (desc.py:222-230, util.py:492-496, 508-525). Only someone who debugs or extends the evaluator meets it. Proved as `intermediate_repr_refuted`.
41. `NA_action="drop"` acts when matrices are built, not when designs are made (build.py:386-413, 485-511 and 693-796 look at every row): levels which occur only in dropped rows get a column of zeros, so the matrix for the very data the design was made from can be rank deficient, and `center`, `standardize`, `bs`, `cr` and so on remember rows that are dropped for another variable's missing values. `dmatrix(f, data)` is then not `dmatrix(f, complete rows of data)` (`drop_first_refuted`). Documented nowhere in the code read.

## Testing the theorems

`seeded/LOG.jsonl` records each wrong variant of the model that was tried in a
scratch copy, the theorems that failed to prove, and the theorems that were
tightened because they did not fail.
