{
 "claims": [
  {
   "property": "C01",
   "status": "proved",
   "theorems": [
    "infix_parse_correct"
   ],
   "note": "All operator tables, all token streams. Precedences are integers; an operator may not itself have the LPAREN type."
  },
  {
   "property": "C02",
   "status": "proved",
   "theorems": [
    "infix_grammar_unambiguous"
   ],
   "note": ""
  },
  {
   "property": "C03",
   "status": "proved",
   "theorems": [
    "infix_parse_errors_located",
    "infix_parse_errors_earliest",
    "infix_parse_empty_refuted"
   ],
   "note": "Finding: the empty token stream raises IndexError instead of PatsyError (unreachable from parse_formula, which substitutes '~ 1')."
  },
  {
   "property": "C04",
   "status": "proved",
   "theorems": [
    "infix_parse_origins"
   ],
   "note": ""
  },
  {
   "property": "C05",
   "status": "proved",
   "theorems": [
    "origin_combine_none",
    "origin_combine_hull",
    "origin_combine_order"
   ],
   "note": ""
  },
  {
   "property": "C06",
   "status": "proved",
   "theorems": [
    "tokenize_formula_groups",
    "segmentation_unique"
   ],
   "note": "Python tokens are given with their types, strings and origins; CPython's tokenizer itself is not modelled."
  },
  {
   "property": "C07",
   "status": "proved",
   "theorems": [
    "tokenize_formula_errors"
   ],
   "note": ""
  },
  {
   "property": "C08",
   "status": "proved",
   "theorems": [
    "pushback_refines_stream"
   ],
   "note": ""
  },
  {
   "property": "C09",
   "status": "proved",
   "theorems": [
    "pretty_untokenize_spacing",
    "pretty_untokenize_total",
    "pretty_untokenize_rule",
    "spacing_cases",
    "spacing_sign",
    "pretty_untokenize_glues_fstring_refuted",
    "pretty_untokenize_number_attribute_refuted"
   ],
   "note": "Findings: f-string start tokens (Python >= 3.12) are glued to a preceding word; '1 .real' becomes '1.real'."
  },
  {
   "property": "C10",
   "status": "proved",
   "theorems": [
    "normal_form",
    "normal_form_any_tokenizer",
    "normal_form_number_attribute_refuted",
    "operators_longest",
    "character_classes"
   ],
   "note": "normal_form: concrete tokenizer for the common part of Python's syntax, no read-back assumption; normal_form_any_tokenizer: any tokenizer satisfying it. Finding: '1 .real' and '1.real' share a normal form."
  },
  {
   "property": "C11",
   "status": "proved",
   "theorems": [
    "from_tree_means_sets"
   ],
   "note": "Factors are normalised code strings. Quirk recorded: only top-level chains remove the intercept."
  },
  {
   "property": "C12",
   "status": "proved",
   "theorems": [
    "from_tree_terms_distinct",
    "from_tree_sum_order"
   ],
   "note": ""
  },
  {
   "property": "C13",
   "status": "proved",
   "theorems": [
    "from_tree_intercept_last_mention"
   ],
   "note": "Items of the chain are the literals 0/1 and expressions that say nothing about the intercept; finding: 'a + (b + 0)' and '(0 + a)**2' keep the intercept (Examples d_kept, d_regained)."
  },
  {
   "property": "C14",
   "status": "proved",
   "theorems": [
    "from_tree_power",
    "from_tree_power_saturates"
   ],
   "note": ""
  },
  {
   "property": "C15",
   "status": "proved",
   "theorems": [
    "from_tree_succeeds_iff_sensible",
    "from_formula_total_or_located"
   ],
   "note": ""
  },
  {
   "property": "C16",
   "status": "proved",
   "theorems": [
    "describe_reads_back",
    "describe_writes"
   ],
   "note": "describe()'s text is tokenized by CPython; the theorem speaks about the token list of that text."
  },
  {
   "property": "C17",
   "status": "proved",
   "theorems": [
    "term_equal_iff_same_factors",
    "uniqueify_first_occurrences",
    "term_hash_agrees"
   ],
   "note": ""
  },
  {
   "property": "C18",
   "status": "proved",
   "theorems": [
    "contrast_selection_codes_each_subset_once",
    "contrast_selection_hash_collision_refuted"
   ],
   "note": "Needs a hash without collisions on the subterms involved: _Subterm.__eq__ compares self with itself (redundancy.py:106), so set membership is decided by hashes; the _refuted theorem shows a colliding hash loses columns."
  },
  {
   "property": "C19",
   "status": "proved",
   "theorems": [
    "simplification_terminates_irreducible",
    "simplification_preserves_meaning"
   ],
   "note": ""
  },
  {
   "property": "C20",
   "status": "proved",
   "theorems": [
    "contrast_selection_column_count",
    "design_column_count"
   ],
   "note": "The number of columns of each group of terms with the same numeric factors, for whatever factor counts, under: the hash of subterms does not collide, and a factor coded with n levels gives n or n-1 columns."
  },
  {
   "property": "C21",
   "status": "proved",
   "theorems": [
    "design_columns_full_rank",
    "builtin_design_full_rank"
   ],
   "note": "Over any commutative ring, with the contract that [1|contrast] and the full-rank matrices are invertible; builtin_design_full_rank discharges the contract for Treatment, Sum, Helmert and Diff over the rationals."
  },
  {
   "property": "C22",
   "status": "proved",
   "theorems": [
    "subsets_complete_sorted"
   ],
   "note": ""
  },
  {
   "property": "C23",
   "status": "proved",
   "theorems": [
    "term_order"
   ],
   "note": ""
  },
  {
   "property": "C24",
   "status": "proved",
   "theorems": [
    "combinations_leftmost_fastest",
    "subterm_names_and_values_aligned",
    "design_column_names"
   ],
   "note": ""
  },
  {
   "property": "C25",
   "status": "proved",
   "theorems": [
    "build_design_matrices_correct"
   ],
   "note": "Values are an abstract type with a product; [fits] says evaluation results have the shapes that eval_factor checks (eval_factor_marks_missing proves eval_factor gives that)."
  },
  {
   "property": "C26",
   "status": "proved",
   "theorems": [
    "chunked_building",
    "chunked_labels"
   ],
   "note": "For factors evaluated row by row (BuildSpec.row_ev)."
  },
  {
   "property": "C27",
   "status": "proved",
   "theorems": [
    "rows_kept",
    "handle_NA_correct",
    "handle_NA_raise_is_patsy_error",
    "eval_factor_marks_missing",
    "build_design_matrices_correct",
    "na_action_arguments",
    "na_action_string"
   ],
   "note": ""
  },
  {
   "property": "C28",
   "status": "proved",
   "theorems": [
    "row_mismatch_is_error",
    "building_succeeds_iff"
   ],
   "note": ""
  },
  {
   "property": "C29",
   "status": "proved",
   "theorems": [
    "memorize_calls",
    "memorize_succeeds_iff",
    "memorize_errors"
   ],
   "note": "Factors are abstract objects with their own state; iteration order over the Python set is arbitrary and may differ between passes."
  },
  {
   "property": "C30",
   "status": "proved",
   "theorems": [
    "transforms_innermost_first",
    "transforms_innermost_first_any_tokenizer",
    "transforms_memorized_in_order"
   ],
   "note": "For the tokenizer of PyLexModel (common part of Python's syntax), or any tokenizer that reads printed code back. Assumes no variable is named like a transform object (the code raises NameError instead of PatsyError then)."
  },
  {
   "property": "C31",
   "status": "proved",
   "theorems": [
    "stateful_calls_rewritten"
   ],
   "note": "Any tokenizer."
  },
  {
   "property": "C32",
   "status": "proved",
   "theorems": [
    "factor_types",
    "factor_type_errors",
    "numerical_or_categorical",
    "levels_chunking",
    "types_chunking_refuted"
   ],
   "note": "Values are Python scalars, tuples and opaque objects; eval is an arbitrary function of factor and chunk. Finding: the numeric/categorical decision uses only the first chunk."
  },
  {
   "property": "C33",
   "status": "proved",
   "theorems": [
    "missing_texts",
    "levels_cover_data",
    "levels_found",
    "levels_declared",
    "levels_sorted",
    "levels_cover_refuted"
   ],
   "note": "Finding: sniffing stops once the levels equal {True, False}, which integer data 0 and 1 does too, so later levels are missed."
  },
  {
   "property": "C34",
   "status": "proved",
   "theorems": [
    "category_codes",
    "category_codes_pandas",
    "category_codes_total",
    "category_codes_error",
    "category_codes_bools_refuted"
   ],
   "note": "Testing a huge int for NaN raises OverflowError (excluded by testable/usable)."
  },
  {
   "property": "C35",
   "status": "proved",
   "theorems": [
    "levels_sorted",
    "tuple_levels_sorted",
    "levels_order",
    "levels_order_plain",
    "levels_order_tuples_refuted"
   ],
   "note": ""
  },
  {
   "property": "C36",
   "status": "proved",
   "theorems": [
    "term_slices_partition_columns",
    "slice_other_ways",
    "design_terms"
   ],
   "note": ""
  },
  {
   "property": "C37",
   "status": "proved",
   "theorems": [
    "subset_selects_columns",
    "subset_built_together"
   ],
   "note": ""
  },
  {
   "property": "C38",
   "status": "proved",
   "theorems": [
    "builtin_codings_full_rank",
    "builtin_codings_entries",
    "builtin_codings_full_names",
    "builtin_codings_bad_reference"
   ],
   "note": "Exact rational arithmetic instead of floating point."
  },
  {
   "property": "C39",
   "status": "proved",
   "theorems": [
    "builtin_codings_coefficients",
    "builtin_codings_sum_to_zero",
    "diff_intercept_is_first_level_mean_refuted"
   ],
   "note": "Finding: the Diff docstring says the intercept of the full-rank coding is the mean of the first level; it is the mean of the level means."
  },
  {
   "property": "C40",
   "status": "proved",
   "theorems": [
    "reference_level_lookup"
   ],
   "note": ""
  },
  {
   "property": "C41",
   "status": "proved",
   "theorems": [
    "constraint_string_meaning",
    "constraint_reading_unique",
    "constraint_numbers"
   ],
   "note": "Exact rational arithmetic; division by a constant zero (inf/nan in numpy) is an error in the model."
  },
  {
   "property": "C42",
   "status": "proved",
   "theorems": [
    "constraint_linear_iff_accepted",
    "constraint_unreadable",
    "constraint_blank_patsyerror_refuted"
   ],
   "note": "Findings: a blank constraint string raises IndexError; dividing by zero is not rejected by the code (excluded by division_safe)."
  },
  {
   "property": "C43",
   "status": "proved",
   "theorems": [
    "combine_is_conjunction",
    "combine_accepts"
   ],
   "note": ""
  },
  {
   "property": "C44",
   "status": "proved",
   "theorems": [
    "constraint_tokens",
    "constraint_token_errors",
    "constraint_next_token_unique"
   ],
   "note": "ASCII text."
  },
  {
   "property": "C45",
   "status": "proved",
   "theorems": [
    "mapping_constraint_rows",
    "mapping_constraint_accepts",
    "mapping_duplicates_rejected_refuted"
   ],
   "note": "Finding: a negative position and the name of the same column are not recognised as duplicates; the _refuted theorem has the witness."
  },
  {
   "property": "C46",
   "status": "proved",
   "theorems": [
    "lookup_innermost",
    "name_resolution",
    "lookup_contains_get",
    "data_hides_transform_refuted"
   ],
   "note": "Finding: data variables do not hide stateful transforms that are called."
  },
  {
   "property": "C47",
   "status": "proved",
   "theorems": [
    "subset_preserves_value",
    "value_depends_on_names",
    "code_names"
   ],
   "note": "Expressions without lambdas and comprehensions (rejected by ast_names); operations are arbitrary functions of their operands and a global state, so builtins like eval or locals() that look at variables are excluded."
  },
  {
   "property": "C48",
   "status": "proved",
   "theorems": [
    "center_subtracts_mean",
    "center_sums_to_zero",
    "center_is_standardize",
    "center_one_for_all",
    "center_width_refused"
   ],
   "note": "Exact arithmetic; scalars, vectors and 2-d arrays. Finding: boolean data makes center() compute a boolean mean, and numpy then refuses to subtract."
  },
  {
   "property": "C49",
   "status": "proved",
   "theorems": [
    "standardize_exact",
    "standardize_unit",
    "center_is_standardize",
    "standardize_one_for_all",
    "standardize_width_refused",
    "nothing_memorized"
   ],
   "note": "Exact arithmetic; the square root is any function, required to square back to the variance where that is claimed."
  },
  {
   "property": "C50",
   "status": "proved",
   "theorems": [
    "balanced_design",
    "balanced_no_levels"
   ],
   "note": "Finding: a count of 0 removes all columns instead of giving empty ones."
  },
  {
   "property": "C51",
   "status": "proved",
   "theorems": [
    "cyclic_mapping",
    "cyclic_mapping_bad_bounds"
   ],
   "note": "Exact arithmetic."
  },
  {
   "property": "C52",
   "status": "proved",
   "theorems": [
    "knot_interval"
   ],
   "note": "Exact arithmetic."
  },
  {
   "property": "C53",
   "status": "proved",
   "theorems": [
    "tensor_product_rows",
    "tensor_product_errors"
   ],
   "note": "Every factor has at least one column."
  },
  {
   "property": "C54",
   "status": "proved",
   "theorems": [
    "bs_columns",
    "crs_columns",
    "te_columns"
   ],
   "note": "Exact arithmetic. scipy's qr is any function: the q it returns is square by scipy's contract, which the column count after constraints relies on."
  },
  {
   "property": "C55",
   "status": "proved",
   "theorems": [
    "factor_keys"
   ],
   "note": "Relative to == and hash of the contrast and levels arguments."
  },
  {
   "property": "C56",
   "status": "proved",
   "theorems": [
    "first_origin_wins"
   ],
   "note": ""
  },
  {
   "property": "C57",
   "status": "proved",
   "theorems": [
    "format_trims_alike",
    "format_keeps_values",
    "format_trims_all"
   ],
   "note": "The strings produced by '%.5f' are the input; they have at most one point."
  },
  {
   "property": "C58",
   "status": "proved",
   "theorems": [
    "dmatrices_aligned",
    "dmatrix_shaped",
    "one_of_dmatrix_dmatrices"
   ],
   "note": "Factors are arbitrary functions; pandas objects they return have as many labels as rows."
  },
  {
   "property": "C59",
   "status": "proved",
   "theorems": [
    "parse_formula_correct"
   ],
   "note": ""
  },
  {
   "property": "C60",
   "status": "proved",
   "theorems": [
    "times_is_sum_and_interaction"
   ],
   "note": ""
  },
  {
   "property": "C61",
   "status": "proved",
   "theorems": [
    "matrix_constraint_meaning",
    "constraint_object"
   ],
   "note": "Constants and coefficients are exact rationals instead of floats."
  },
  {
   "property": "C62",
   "status": "proved",
   "theorems": [
    "demo_data_design",
    "demo_data_bad_name",
    "demo_data_errors",
    "balanced_design"
   ],
   "note": "The random numbers are any values. Finding: the documentation says a to m are categorical, the code says a to n."
  },
  {
   "property": "C63",
   "status": "proved",
   "theorems": [
    "crs_knots_spec"
   ],
   "note": "Exact arithmetic."
  },
  {
   "property": "C64",
   "status": "proved",
   "theorems": [
    "bs_remembers",
    "bs_basis",
    "bs_rows_sum_to_one",
    "bs_range",
    "bs_rows_sum_to_one_at_bound_refuted",
    "spline_values",
    "spline_columns_refused"
   ],
   "note": "Exact arithmetic; scipy's splev is modelled after FITPACK. Finding: with an inner knot at the upper bound (also from quantiles) the row at the bound is all zeros."
  },
  {
   "property": "C65",
   "status": "proved",
   "theorems": [
    "crs_curves",
    "crs_all_curves",
    "crs_total",
    "qr_exists",
    "crs_reproduces",
    "cr_two_knots_fail",
    "cc_few_knots_refuted",
    "spline_values",
    "spline_columns_refused"
   ],
   "note": "Exact arithmetic; scipy's qr is any function whose results are QR decompositions with orthogonal columns; those exist for every matrix (qr_exists). Findings: cr() with only its two bounds as knots (df=2) always fails; cc() with df 1 or 2 does not draw cyclic splines, as _get_cyclic_f overwrites matrix entries."
  },
  {
   "property": "C66",
   "status": "proved",
   "theorems": [
    "crs_centered",
    "te_centered",
    "qr_exists"
   ],
   "note": "Exact arithmetic; scipy's qr as in C65."
  },
  {
   "property": "C67",
   "status": "proved",
   "theorems": [
    "return_types_agree",
    "return_types_agree_dmatrix",
    "return_types_agree_explicit",
    "return_types_agree_explicit_refuted"
   ],
   "note": "Finding: explicit matrices that hold no numbers are rejected only for return_type='matrix'."
  },
  {
   "property": "C68",
   "status": "proved",
   "theorems": [
    "dmatrix_again",
    "dmatrices_again",
    "incremental_designs",
    "incremental_design",
    "one_of_incr_dbuilder_dbuilders"
   ],
   "note": ""
  },
  {
   "property": "C69",
   "status": "proved",
   "theorems": [
    "designs_remember"
   ],
   "note": ""
  },
  {
   "property": "C70",
   "status": "proved",
   "theorems": [
    "lone_matrix",
    "lone_array_names",
    "tuple_keeps_designs",
    "lone_matrix_keeps_design",
    "lone_frame_forgets_design",
    "mixed_tuple_refused",
    "lone_keeps_design_refuted",
    "lone_frame_names"
   ],
   "note": ""
  },
  {
   "property": "C71",
   "status": "proved",
   "theorems": [
    "runs_agree_designs",
    "runs_agree_dmatrices",
    "runs_agree_dmatrix",
    "runs_agree_addresses_refuted"
   ],
   "note": "Factors are arbitrary functions. A collision of hashes of two sets of factors is excluded (see C18). Finding: levels that are objects without an order are sorted by address, so the order of columns may change from run to run; the _refuted theorem has the witness."
  },
  {
   "property": "C72",
   "status": "proved",
   "theorems": [
    "poly_is_orthogonal",
    "poly_default_scores",
    "poly_determined",
    "poly_scale_of_scores",
    "poly_code_again",
    "poly_full_rank",
    "poly_coefficients",
    "poly_trend",
    "poly_names_known",
    "poly_wrong_scores",
    "poly_qr_exists",
    "poly_repeated_scores_refuted",
    "poly_scores_unchanged_refuted"
   ],
   "note": "Exact arithmetic in any ordered field with square roots; the Examples are over Coq's real numbers and use the axioms of its standard library for them, the theorems use none. Findings: repeated scores silently give a zero column, and a float array of scores is overwritten; the _refuted theorems have the witnesses."
  },
  {
   "property": "C73",
   "status": "proved",
   "theorems": [
    "nested_C",
    "outermost_unique",
    "C_is_categorical",
    "matrix_contrast_as_given",
    "contrast_argument_meaning",
    "contrast_called_twice_refuted",
    "matrix_contrast_ranks_refuted"
   ],
   "note": "Findings: a function that returns a class is not called again; a matrix is used for both kinds of coding, so full rank is up to the user. The _refuted theorems have the witnesses."
  },
  {
   "property": "C74",
   "status": "proved",
   "theorems": [
    "capture_depth",
    "entry_point_env",
    "too_deep_is_value_error_refuted"
   ],
   "note": "The stack is a list of frames (locals, globals, flags). Finding: a stack too short by one gives AttributeError; the _refuted theorem has the witness."
  },
  {
   "property": "C75",
   "status": "proved",
   "theorems": [
    "environment_equality",
    "environment_identity"
   ],
   "note": "Identities of namespaces are numbers; the hash of a tuple is any function."
  },
  {
   "property": "C76",
   "status": "proved",
   "theorems": [
    "quote_value",
    "quote_is_variable",
    "quote_finds_environment_refuted"
   ],
   "note": "Finding: Q does not find variables of the calling environment that the factor's code does not name; the _refuted theorem has the witness."
  },
  {
   "property": "C77",
   "status": "proved",
   "theorems": [
    "fitted_factor_value",
    "one_chunk_is_direct",
    "conditional_fit_refuted"
   ],
   "note": "Expressions are trees of operations, conditionals, data lookups and transform calls; transforms are arbitrary. Finding: a transform in the branch of a conditional expression that is not taken is still fitted."
  },
  {
   "property": "C78",
   "status": "proved",
   "theorems": [
    "crs_split_order",
    "bs_split_order",
    "te_split_order",
    "center_split_order",
    "standardize_split_order"
   ],
   "note": "Exact arithmetic over the rationals."
  },
  {
   "property": "C79",
   "status": "proved",
   "theorems": [
    "matrix_entries",
    "formula_entries"
   ],
   "note": "Values of code are arbitrary; what the pipeline reads off a value (shape, numbers, levels, index) is a function of it."
  },
  {
   "property": "C80",
   "status": "proved",
   "theorems": [
    "factor_errors_point_at_factor",
    "finish_errors_refuted"
   ],
   "note": "Of the message only its beginning is modelled. Finding: errors of a transform's memorize_finish come out without the origin; the _refuted theorem has the witness."
  },
  {
   "property": "C81",
   "status": "proved",
   "theorems": [
    "design_rank",
    "matrix_full_rank",
    "formula_full_rank",
    "builtin_contrasts_good",
    "numeric_redundancy_refuted"
   ],
   "note": "Over any commutative ring. Linear dependence between numeric factors themselves is not looked for; the _refuted theorem has the witness."
  },
  {
   "property": "C82",
   "status": "proved",
   "theorems": [
    "text_factor_value",
    "text_factor_python",
    "text_design_entries",
    "formula_text_entries",
    "hidden_transforms_refuted"
   ],
   "note": "Python's parser is a parameter whose trees keep the tokens; its evaluator is modelled for names, calls, methods and conditional expressions, all other syntax is an arbitrary function of the operands' values (no lambda, comprehensions, assignments; and/or evaluate both operands). Text is of the kind the tokenizer of PyLexModel reads (common part of Python's syntax). Finding: a variable in the data named like a stateful transform does not hide it where it is called; the _refuted theorem has the witness."
  },
  {
   "property": "C83",
   "status": "proved",
   "theorems": [
    "incremental_at_once",
    "center_by_row",
    "standardize_by_row",
    "bs_by_row",
    "crs_by_row",
    "te_by_row",
    "values_by_row"
   ],
   "note": "Exact arithmetic for the built-in transforms; their keyword arguments are constants. Levels found in the data must not be written in two ways (1 and True) and must be sortable. That the type may otherwise depend on the first chunk is types_chunking_refuted (C32); empty chunks are excluded because bs refuses them and an empty first chunk has no type."
  },
  {
   "property": "C84",
   "status": "proved",
   "theorems": [
    "matrix_shown",
    "table_lines_fit",
    "terms_listed_refuted"
   ],
   "note": "Outside IPython, for which the layout is decided by IPython's printer. How a number is written with five digits, and repr of names, are arbitrary. Finding: if the first term has no columns, the comma after it is missing; the _refuted theorem has the witness."
  },
  {
   "property": "C85",
   "status": "proved",
   "theorems": [
    "written_constraint",
    "matrix_as_text",
    "column_name_constraint",
    "column_name_constraint_refuted"
   ],
   "note": "Exact arithmetic. Finding: the text of a column name that starts with an operator is read as that operator, and may silently constrain another column; the _refuted theorem has the witness."
  },
  {
   "property": "C86",
   "status": "proved",
   "theorems": [
    "lookup_arguments",
    "lookup_entries",
    "lookup_forced"
   ],
   "note": "Equality and hash of LookupFactors are in C55; here the factors of a model are told apart by a name."
  },
  {
   "property": "C87",
   "status": "proved",
   "theorems": [
    "design_description",
    "column_description",
    "description_equivalent_refuted",
    "description_of_variable_refuted"
   ],
   "note": "The documentation gives no guarantee that the description is a formula for the same model; the _refuted theorems show where it is not: designs without intercept, and without intercept but with a variable called Intercept."
  },
  {
   "property": "C88",
   "status": "proved",
   "theorems": [
    "subset_succeeds",
    "subset_fails",
    "subset_without_terms",
    "subset_by_formula",
    "subset_by_equal_formula_refuted"
   ],
   "note": "What the selected columns are is C37. A Term with the factors in another order than the design's selects the term as well, but whether the new design is accepted is then not claimed. Finding: a formula with the factors of an interaction in another order is a KeyError; the _refuted theorem has the witness."
  },
  {
   "property": "C89",
   "status": "proved",
   "theorems": [
    "formula_spacing",
    "formula_same_tokens",
    "describe_text_reads_back",
    "formula_text_total_or_located",
    "formula_token_places",
    "blank_formula",
    "open_quotes_alone",
    "open_quotes_dropped",
    "unclosed_string_refused_refuted"
   ],
   "note": "python_tokenize is modelled on text with a model of CPython's tokenizer for ASCII text (names, numbers, strings with prefixes, escapes and three quotes, operators, brackets, blanks; '#', unclosed strings and other characters end it with PatsyError; an unclosed string in three quotes just ends it, finding 37, so a text that starts with one is excepted from the claim about errors). Numbers are not checked for being well-formed; f-strings are single tokens, as before Python 3.12. normalize_token_spacing is the modelled function, not a parameter; float() stays a parameter. Reading back needs neighbouring tokens that do not merge when printed without a space (only sequences like '1 .real' violate this)."
  },
  {
   "property": "C90",
   "status": "proved",
   "theorems": [
    "error_text_shape",
    "formula_error_shown",
    "constraint_errors_located",
    "constraint_error_located",
    "formula_token_relevant",
    "constraint_token_relevant",
    "origin_repr_shows",
    "origin_equality",
    "constraint_error_shown_refuted"
   ],
   "note": "The shape of the text is proved for codes without newline, which holds for formulas. For constraints it is refuted: a constraint string may contain newlines, and the caret line then does not stand under the code (finding 34). Same tokenizer model and exception as in C89."
  },
  {
   "property": "C91",
   "status": "proved",
   "theorems": [
    "rows_rearranged",
    "order_of_rows"
   ],
   "note": "What the factors evaluate to for the rearranged data is given by the hypothesis `rearranges`, or, if they are fitted on it, by `order_free`, which the fitted transforms of patsy meet (C83: center_by_row, standardize_by_row, bs_by_row, crs_by_row, te_by_row)."
  },
  {
   "property": "C92",
   "status": "proved",
   "theorems": [
    "new_data_errors",
    "errors_point_to_factors",
    "building_errors",
    "columns_message",
    "columns_message_refuted",
    "nonnumeric_reported",
    "nonnumeric_reported_refuted"
   ],
   "note": "The messages about numbers of rows, indices and categorical values are modelled without the values they show. The message about the number of columns has its numbers swapped (columns_message_refuted); non-numeric pandas objects raise AttributeError (nonnumeric_reported_refuted); categorical data of more than one dimension is reported without a place (in errors_point_to_factors)."
  },
  {
   "property": "C93",
   "status": "proved",
   "theorems": [
    "bs_knots_are_quantiles",
    "crs_knots_are_quantiles",
    "quantile_divides"
   ],
   "note": "In exact arithmetic; np.percentile is modelled as linear interpolation between the nearest ranks, its default."
  },
  {
   "property": "C94",
   "status": "proved",
   "theorems": [
    "ordered_dict_is_a_list",
    "ordered_dict_copy",
    "ordered_dict_fromkeys",
    "ordered_dict_eq",
    "ordered_dict_clear",
    "ordered_dict_with_clear_refuted"
   ],
   "note": "Keys with a decidable equality that is identity; keyword arguments, __repr__, __reduce__ and the Python 2.7 views are not modelled. clear() is stated as it behaves under Python 3 (finding 36)."
  },
  {
   "property": "C95",
   "status": "proved",
   "theorems": [
    "same_model_same_matrices",
    "spacing_same_matrices",
    "description_same_matrices",
    "same_terms_same_designs"
   ],
   "note": "The models of the whole pipeline run with two unrelated assignments of origins; results are related step by step (same value, or same error up to the origin). For the text of formulas this is combined with C89."
  },
  {
   "property": "C96",
   "status": "proved",
   "theorems": [
    "subset_needs_chosen_variables",
    "subset_built_alone",
    "subset_alone_same_rows_refuted"
   ],
   "note": "The model of subset and of build_design_matrices; the evaluation of the factors is any function, and the second build uses any other function that agrees on the factors of the subset. The claim of the documentation that both ways return the same thing is refuted for data with missing values in a variable that is left out (finding 38)."
  },
  {
   "property": "C97",
   "status": "proved",
   "theorems": [
    "design_made_unless_names_clash",
    "plain_names_never_clash",
    "builtin_suffixes_plain",
    "design_always_made_refuted"
   ],
   "note": "About _make_subterm_infos, the naming of columns and the checks of DesignInfo. That a correct formula always gives a design is refuted by a variable called Intercept (finding 39). Poly's suffixes and user-written contrasts are covered through the hypothesis on suffixes only."
  },
  {
   "property": "C98",
   "status": "proved",
   "theorems": [
    "design_errors",
    "matrices_errors",
    "no_description",
    "matrices_made"
   ],
   "note": "no_description only says that the errors of ModelDesc.from_formula are passed on; which ones there are is the subject of the properties about formulas. matrices_made is for data in one piece, as dmatrix and dmatrices use it. Errors raised by factors and contrasts are passed on as they are."
  },
  {
   "property": "C99",
   "status": "proved",
   "theorems": [
    "repr_text",
    "repr_is_expression",
    "desc_repr_evaluates",
    "term_repr_evaluates",
    "formula_repr_evaluates",
    "str_repr_reads",
    "objects_shown",
    "origin_shown",
    "intermediate_repr_refuted"
   ],
   "note": "Python's repr of a str is modelled on one-byte characters (its quotes and escapes), its reading of expressions is the specification. Dicts, arrays and numbers inside an object are shown by Python or numpy; their text is arbitrary. intermediate_repr_refuted is finding 40."
  },
  {
   "property": "C100",
   "status": "proved",
   "theorems": [
    "nested_predictions",
    "margin_predictions",
    "rewritten_models"
   ],
   "note": "Contrasts have to have full rank, as the built-in ones do (C81). Linear relations among numeric factors are outside it."
  },
  {
   "property": "C101",
   "status": "proved",
   "theorems": [
    "drop_before_or_after",
    "stateless_alike",
    "drop_first_refuted"
   ],
   "note": "drop_first_refuted is the negative part: two data sets for which dropping first makes a difference (finding 41)."
  },
  {
   "property": "C102",
   "status": "proved",
   "theorems": [
    "designs_apart",
    "designs_together",
    "matrices_apart",
    "right_side_alone"
   ],
   "note": "For the selection to be buildable at all it must have a factor, or the data must be a DataFrame (finding on designs without factors)."
  },
  {
   "property": "C103",
   "status": "proved",
   "theorems": [
    "earlier_terms_decide",
    "earlier_terms_decide_apart"
   ],
   "note": "The entries are compared in matrices built together, which have the same rows; C102 says how they relate to matrices built apart."
  },
  {
   "property": "C104",
   "status": "proved",
   "theorems": [
    "only_mentioned_variables",
    "only_mentioned_variables_formula",
    "unmentioned_variable_refuted"
   ],
   "note": "Both data objects must agree on whether they are a DataFrame and on its index, and must not have variables named like patsy's transform objects; unmentioned_variable_refuted shows that the latter is needed."
  },
  {
   "property": "C105",
   "status": "proved",
   "theorems": [
    "raise_or_drop",
    "raise_or_drop_formula"
   ],
   "note": "The index of a pandas object has one label for each row (as pandas makes sure of). Designs passed in are ones that were made by patsy or that pass DesignInfo's checks."
  },
  {
   "property": "C106",
   "status": "proved",
   "theorems": [
    "affine_predictions",
    "reparametrised",
    "hierarchical_models"
   ],
   "note": "Over any commutative ring (C100's setting, not floating point). Contrast matrices have the property that C81 proves for the built-in ones; hash collisions between subterms are excluded."
  },
  {
   "property": "C107",
   "status": "proved",
   "theorems": [
    "bs_draws_splines",
    "bs_draws_only_splines",
    "bs_coefficients_unique"
   ],
   "note": "In exact arithmetic, with scipy's splev as modelled for C64. Hypotheses: the lower bound is below the upper one."
  },
  {
   "property": "C108",
   "status": "proved",
   "theorems": [
    "te_surfaces",
    "te_all_surfaces",
    "te_coefficients_unique",
    "te_center_constraint",
    "bs_telling",
    "crs_telling"
   ],
   "note": "In exact arithmetic; scipy's qr is any function that returns a QR decomposition, as for C65."
  },
  {
   "property": "C109",
   "status": "proved",
   "theorems": [
    "bs_units",
    "crs_units",
    "bs_df_units",
    "standardize_units",
    "center_units"
   ],
   "note": "In exact arithmetic. standardize() for square roots with sqrt(c*c*v) = c*sqrt(v). cr() with two knots always fails (cr_two_knots_fail)."
  },
  {
   "property": "C110",
   "status": "proved",
   "theorems": [
    "bs_local",
    "bs_hull"
   ],
   "note": "In exact arithmetic. At the upper bound with an inner knot there, rows may be zero (C64, bs_rows_sum_to_one_at_bound_refuted)."
  },
  {
   "property": "C111",
   "status": "proved",
   "theorems": [
    "bs_nested"
   ],
   "note": "In exact arithmetic. A knot of the first may be repeated up to degree + 1 times."
  },
  {
   "property": "C112",
   "status": "proved",
   "theorems": [
    "crs_nested"
   ],
   "note": "In exact arithmetic, for any sound QR decomposition. Fewer knots are no good (C65: cr_two_knots_fail, cc_few_knots_refuted)."
  }
 ]
}