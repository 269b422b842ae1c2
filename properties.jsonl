{"id": "C01", "title": "The infix parser builds exactly the tree its precedence table dictates", "statement": "infix_parse(tokens, operators, atomic_types) succeeds exactly when the token stream can be bracketed as an expression that respects the operator table (binary operators associate to the left, a tighter operator binds first, a prefix operator extends as far right as its precedence allows, parentheses override), and then returns that expression's tree: same operators, same atoms, same left-to-right order, nothing dropped or duplicated.", "quantifier": "every operator table with precedences above the open-paren sentinel, every set of atomic types, every finite token stream", "why_tests_cant": "There are infinitely many token streams and operator tables; the unit tests parse about twenty strings with one table.", "anchors": ["patsy/infix_parser.py:infix_parse", "patsy/infix_parser.py:_read_noun_context", "patsy/infix_parser.py:_read_op_context", "patsy/infix_parser.py:_run_op"]}
{"id": "C02", "title": "Formula grammar is unambiguous", "statement": "For a given operator table, no token stream has two different well-bracketed readings; so the tree a formula parses to depends only on its tokens.", "quantifier": "every operator table and every pair of concrete expressions with the same token sequence", "why_tests_cant": "Ambiguity is a statement about all pairs of expressions.", "anchors": ["patsy/infix_parser.py:infix_parse"]}
{"id": "C03", "title": "Malformed token streams are reported as PatsyError located at a token of the input", "statement": "When infix_parse rejects a non-empty token stream it raises PatsyError whose origin is that of one of the tokens of that stream; it never fails with an internal error (popping an empty stack, a failed assertion).  On the empty stream it fails with an internal IndexError instead.", "quantifier": "every operator table and every token stream", "why_tests_cant": "Internal stack underflow could be triggered by any of infinitely many malformed inputs.", "anchors": ["patsy/infix_parser.py:infix_parse", "patsy/infix_parser.py:_run_op"]}
{"id": "C04", "title": "Parse tree origins cover exactly the source text of the sub-expression", "statement": "The origin of every node returned by the parser runs from the first to the last character of the tokens that make up that sub-expression, including its enclosing parentheses.", "quantifier": "every operator table and every accepted token stream whose token origins are in increasing, non-overlapping order in one string", "why_tests_cant": "Holds for every nesting shape; tests check seven spans.", "anchors": ["patsy/infix_parser.py:_run_op", "patsy/infix_parser.py:_read_op_context", "patsy/origin.py:Origin.combine"]}
{"id": "C05", "title": "Origin.combine is the smallest span containing all the given origins", "statement": "Origin.combine(objs) is None exactly when no object has an origin; otherwise it is the smallest interval containing every given origin, independent of the order and the repetition of the arguments.", "quantifier": "every finite sequence of origins and None over one code string", "why_tests_cant": "Order-independence ranges over all permutations of all lists.", "anchors": ["patsy/origin.py:Origin.combine"]}
{"id": "C06", "title": "Splitting a formula into formula tokens loses nothing and never splits inside brackets", "statement": "Tokenizing a formula groups the Python tokens into magic tokens (operators and parens) and embedded Python expressions such that concatenating the groups gives back the Python tokens in order; inside every embedded expression brackets are balanced, and no operator occurs in it outside brackets.", "quantifier": "every sequence of Python tokens and every operator set not containing parens", "why_tests_cant": "Bracket nesting depth and token count are unbounded.", "anchors": ["patsy/parse_formula.py:_tokenize_formula", "patsy/parse_formula.py:_read_python_expr", "patsy/util.py:PushbackAdapter"]}
{"id": "C07", "title": "Formula tokenization fails exactly on bracket errors", "statement": "Formula tokenization raises PatsyError iff some embedded Python expression has an unmatched closing square/curly bracket or an unclosed bracket; it never fails in another way and always terminates.", "quantifier": "every sequence of Python tokens", "why_tests_cant": "Infinitely many unbalanced inputs.", "anchors": ["patsy/parse_formula.py:_tokenize_formula", "patsy/parse_formula.py:_read_python_expr"]}
{"id": "C08", "title": "PushbackAdapter is a faithful stream with LIFO push-back", "statement": "Any sequence of next/peek/has_more/push_back calls behaves as on an abstract list: push_back prepends, next pops the head, peek and has_more do not change what later calls return.", "quantifier": "every underlying finite iterator and every history of calls", "why_tests_cant": "Property of all operation histories.", "anchors": ["patsy/util.py:PushbackAdapter"]}
{"id": "C09", "title": "Whitespace normalisation of code preserves the token text and never glues two words together", "statement": "The string built by pretty_untokenize consists of the token strings in order separated by either nothing or a single space, and two adjacent name/number/string tokens are always separated by a space. Where the spaces are follows one rule: a space on both sides of an operator between operands and of an assignment outside brackets, before '!' and '~', after ',' and ':', none around a sign, the star of an argument, the '=' of a keyword argument or after the ':' of a slice.", "quantifier": "every sequence of typed tokens", "why_tests_cant": "All token sequences; context flags (brackets, previous token kind) make the state space unbounded.", "anchors": ["patsy/tokens.py:pretty_untokenize", "patsy/tokens.py:normalize_token_spacing"]}
{"id": "C10", "title": "Two spellings of the same Python code give equal factors and equal names", "statement": "Two EvalFactors are equal exactly when their code has the same normalised text, and normalising normalised code changes nothing, provided the Python tokenizer reads the normalised text back as the same tokens.", "quantifier": "every pair of code strings, every tokenizer satisfying the stated read-back law", "why_tests_cant": "Idempotence and equality range over all code strings.", "anchors": ["patsy/eval.py:EvalFactor.__eq__", "patsy/tokens.py:normalize_token_spacing"]}
{"id": "C11", "title": "The formula operators implement the documented set algebra on terms", "statement": "For any formula, the set of terms on each side is what the documentation says: + is union, - is difference, a:b is the set of all pairwise unions of a term of a with a term of b, a*b is a + b + a:b, a/b is a plus every term of b interacted with all the factors of a, and a**n is the set of unions of between 1 and n terms of a.", "quantifier": "every formula parse tree, of any size and nesting", "why_tests_cant": "Infinite set of formulas; algebra must hold under arbitrary nesting.", "anchors": ["patsy/desc.py:_eval_binary_plus", "patsy/desc.py:_eval_binary_minus", "patsy/desc.py:_eval_binary_interact", "patsy/desc.py:_eval_binary_prod", "patsy/desc.py:_eval_binary_div", "patsy/desc.py:_eval_binary_power"]}
{"id": "C12", "title": "Termlists contain no duplicates and keep first-occurrence order", "statement": "Both termlists of any ModelDesc are duplicate-free up to factor order inside a term, every term's factors are duplicate-free, and for + chains the terms are in the order of their first occurrence in the formula.", "quantifier": "every formula parse tree", "why_tests_cant": "Duplicates can be created by any combination of operators.", "anchors": ["patsy/desc.py:ModelDesc.__init__", "patsy/desc.py:IntermediateExpr.__init__", "patsy/desc.py:Term.__init__", "patsy/util.py:uniqueify_list"]}
{"id": "C13", "title": "The intercept follows the last-mention rule", "statement": "In a flat chain of +/- items, the right-hand side has an intercept iff the last item mentioning it adds it (+1 or -0), or no item mentions it; the left-hand side has one iff the last mention adds it. When present it is the first term.", "quantifier": "every formula that is a chain of any length of signed items", "why_tests_cant": "Chains have unbounded length and arbitrary interleavings of 0/1 items.", "anchors": ["patsy/desc.py:_eval_any_tilde", "patsy/desc.py:_eval_binary_plus", "patsy/desc.py:_eval_binary_minus", "patsy/desc.py:_maybe_add_intercept"]}
{"id": "C14", "title": "Powers beyond the number of terms change nothing", "statement": "(expr)**n for any n at least the number of terms of expr gives the same termlist, in the same order, as computing all n rounds of interaction would; so the implementation's cap on n is unobservable.", "quantifier": "every expression and every exponent n", "why_tests_cant": "Unbounded exponent and unbounded number of terms.", "anchors": ["patsy/desc.py:_eval_binary_power"]}
{"id": "C15", "title": "Formula evaluation either returns a ModelDesc or raises PatsyError", "statement": "Evaluating any parse tree produced by the formula parser never trips an internal assertion; the result is a ModelDesc or a PatsyError, and it is an error iff a ~ occurs below the top, a number other than 0/1 is used outside an exponent, unary minus is applied to something other than 0/1, an intercept is interacted, or an exponent is not a positive integer.", "quantifier": "every parse tree over the default operators", "why_tests_cant": "Every reachable combination of operators would have to be tried.", "anchors": ["patsy/desc.py:Evaluator.eval", "patsy/desc.py:IntermediateExpr.__init__"]}
{"id": "C16", "title": "ModelDesc.describe() parses back to the same model", "statement": "For a ModelDesc obtained from a formula, parsing and evaluating the token sequence of describe() gives the same left and right termlists in the same order.", "quantifier": "every ModelDesc reachable from a formula (any number of terms and factors)", "why_tests_cant": "Round trip over all models.", "anchors": ["patsy/desc.py:ModelDesc.describe", "patsy/desc.py:ModelDesc.from_formula"]}
{"id": "C17", "title": "Terms are equal irrespective of factor order and repetition", "statement": "Term(xs) == Term(ys) iff xs and ys contain the same factors; equality is an equivalence relation and uniqueify_list keeps exactly one (the first) representative of every equal group.", "quantifier": "every pair of factor lists", "why_tests_cant": "All permutations and repetitions.", "anchors": ["patsy/desc.py:Term.__eq__", "patsy/util.py:uniqueify_list"]}
{"id": "C18", "title": "Contrast selection codes each sub-interaction exactly once", "statement": "For any list of terms processed in order within a bucket, the codings chosen expand (full-rank factor = intercept + contrast) into a disjoint union covering exactly the subsets of categorical factors of each term not already covered by an earlier term; hence no sub-interaction is coded twice or missed.", "quantifier": "every list of terms with any number of categorical factors, any split into numeric and categorical", "why_tests_cant": "2^k subsets for every k, every order of terms.", "anchors": ["patsy/redundancy.py:pick_contrasts_for_term", "patsy/redundancy.py:_simplify_subterms", "patsy/redundancy.py:_simplify_one_subterm", "patsy/redundancy.py:_subsets_sorted"]}
{"id": "C19", "title": "Subterm simplification terminates and never gets stuck with a redundancy", "statement": "The greedy simplification loop terminates for every input, each step removes exactly one subterm, and its result cannot be simplified further.", "quantifier": "every list of subterms", "why_tests_cant": "Termination over unbounded input.", "anchors": ["patsy/redundancy.py:_simplify_subterms", "patsy/redundancy.py:_Subterm.absorb"]}
{"id": "C20", "title": "The number of design columns for categorical terms is the dimension of the model space", "statement": "For any bucket of terms, the number of columns generated is the sum over the distinct covered subsets S of the product over S of (levels - 1) times the numeric columns; in particular it does not depend on how redundancy is resolved.", "quantifier": "every list of terms, every number of levels per factor", "why_tests_cant": "All level counts and all term structures.", "anchors": ["patsy/build.py:_make_subterm_infos", "patsy/redundancy.py:pick_contrasts_for_term"]}
{"id": "C21", "title": "The design matrix has no structural redundancy and spans the whole model", "statement": "On a data set containing every combination of levels, the columns produced for a bucket of categorical terms are linearly independent and their span is exactly the space of sums of functions of the factors of each term, for any contrast codings that together with the constant are invertible.", "quantifier": "every list of categorical terms, every number of levels, every contrast coding satisfying the contract", "why_tests_cant": "A rank statement for all sizes; tests check a few small designs numerically.", "anchors": ["patsy/redundancy.py:pick_contrasts_for_term", "patsy/build.py:_build_subterm", "patsy/contrasts.py:Treatment"]}
{"id": "C22", "title": "Subset enumeration is complete, duplicate-free and sorted", "statement": "_subsets_sorted as observed through the column order of interactions: every subset of the term's factors is considered exactly once, shorter before longer, and within one length in lexicographic order of position.", "quantifier": "every tuple length", "why_tests_cant": "Exponentially many subsets for each length.", "anchors": ["patsy/redundancy.py:_subsets_sorted"]}
{"id": "C23", "title": "Terms are re-ordered by numeric bucket then by interaction order, stably", "statement": "The term order of a DesignInfo is a permutation of the requested termlist: terms with the same set of numeric factors are contiguous, the bucket with no numeric factors comes first, other buckets come in order of first appearance, and inside a bucket terms are sorted by number of factors with ties in the requested order.", "quantifier": "every duplicate-free termlist and every classification of factors", "why_tests_cant": "All permutations and bucket structures.", "anchors": ["patsy/build.py:_make_subterm_infos"]}
{"id": "C24", "title": "Column names and column values are aligned and enumerated leftmost-fastest", "statement": "For every subterm the i-th column name and the i-th column of values are built from the same combination of factor columns; combinations are enumerated exactly once each, leftmost factor varying fastest; their number is the product of the factor column counts.", "quantifier": "every subterm with any number of factors and columns", "why_tests_cant": "Unbounded number of factors and column counts.", "anchors": ["patsy/build.py:_column_combinations", "patsy/build.py:_subterm_column_names_iter", "patsy/build.py:_build_subterm"]}
{"id": "C25", "title": "Each design matrix entry is the product of the factor contributions", "statement": "Entry (row, column) of a built matrix is the product over the column's factors of the numeric value at that row or of the contrast-matrix entry for that row's category; it depends on that row only.", "quantifier": "every design and data set", "why_tests_cant": "All shapes and values.", "anchors": ["patsy/build.py:_build_subterm", "patsy/build.py:_build_design_matrix"]}
{"id": "C26", "title": "Building is row-wise: splitting the data into chunks and stacking the results changes nothing", "statement": "For any partition of the rows into chunks, building each chunk with the same DesignInfo and stacking gives the matrix built from all rows at once (for factors evaluated row-wise and no row-dependent failure).", "quantifier": "every data set and every way of splitting it", "why_tests_cant": "All splits.", "anchors": ["patsy/build.py:build_design_matrices", "patsy/build.py:_build_design_matrix"]}
{"id": "C27", "title": "All matrices built together have the same rows after NA handling", "statement": "With NA_action='drop', the rows kept are exactly the rows where no factor of any of the requested matrices is missing, in the original order, for every returned matrix and the index alike; with 'raise', an error is raised iff some factor has a missing value.", "quantifier": "every collection of factor values and missingness masks", "why_tests_cant": "All missingness patterns.", "anchors": ["patsy/missing.py:NAAction.handle_NA", "patsy/missing.py:NAAction._handle_NA_drop", "patsy/missing.py:NAAction._handle_NA_raise", "patsy/build.py:build_design_matrices"]}
{"id": "C28", "title": "Row-count mismatches are always detected", "statement": "build_design_matrices raises an error iff two factors (or a factor and the DataFrame) disagree on the number of rows, whatever the order in which they are evaluated; otherwise every returned matrix has the common number of rows minus dropped ones.", "quantifier": "every collection of factors and every evaluation order", "why_tests_cant": "Factor iteration order is arbitrary.", "anchors": ["patsy/build.py:_CheckMatch", "patsy/build.py:build_design_matrices"]}
{"id": "C29", "title": "Memorization runs every pass of every factor over all data, in order", "statement": "design_matrix_builders calls, for each factor needing k passes, exactly: for each pass 0..k-1, memorize_chunk on every data chunk in order, then memorize_finish, with nothing in between for other pass numbers; the number of passes over the data is the maximum k, and it terminates.", "quantifier": "every set of factors with any pass counts, every data iterator, every factor iteration order", "why_tests_cant": "Schedules with unbounded passes/chunks and arbitrary set order.", "anchors": ["patsy/build.py:_factors_memorize"]}
{"id": "C30", "title": "Stateful transforms are memorized innermost first", "statement": "In a formula factor with nested stateful transforms, a transform is memorized only in a pass strictly after every stateful transform appearing inside its call has been finished; every stateful transform call is assigned to exactly one pass and the scheduling loop terminates without assertion failure.", "quantifier": "every Python expression, any number and nesting of stateful transform calls", "why_tests_cant": "Unbounded nesting; schedule property.", "anchors": ["patsy/eval.py:EvalFactor.memorize_passes_needed", "patsy/eval.py:replace_bare_funcalls", "patsy/eval.py:capture_obj_method_calls"]}
{"id": "C31", "title": "Only calls of bare names are rewritten as stateful transform calls", "statement": "Rewriting a factor's code replaces exactly the names that are called directly, are not attribute accesses, and are bound to stateful transforms in the captured environment; all other tokens are unchanged and every replacement gets its own object.", "quantifier": "every token sequence", "why_tests_cant": "All code strings.", "anchors": ["patsy/eval.py:replace_bare_funcalls", "patsy/eval.py:annotated_tokens"]}
{"id": "C32", "title": "Factor type detection does not depend on how the data is chunked", "statement": "Each factor is classified from its own data only, whatever the other factors are and in whatever order they are examined; and for categorical data without declared levels (that does not mix zero/False and one/True with other values) the levels found are the same tuple for every way of splitting the data into chunks.  The numeric/categorical decision itself is taken from the first chunk alone.", "quantifier": "every data set and chunking", "why_tests_cant": "All chunkings.", "anchors": ["patsy/build.py:_examine_factor_types", "patsy/categorical.py:CategoricalSniffer"]}
{"id": "C33", "title": "Categorical levels cover the data exactly", "statement": "For categorical data without declared levels that does not mix zero/False and one/True with other values, the levels are exactly the distinct non-missing values in all chunks (True and False both if there is any boolean), each once, in sorted order; declared levels are taken as they are.  Integer data that shows only 0 and 1 in the first chunks misses later levels (finding).", "quantifier": "every sequence of chunks", "why_tests_cant": "All data.", "anchors": ["patsy/categorical.py:CategoricalSniffer.sniff", "patsy/categorical.py:CategoricalSniffer.levels_contrast"]}
{"id": "C34", "title": "Category coding is exact", "statement": "Every non-missing value is coded as the position of its level, every missing value as -1, and a value that is neither missing nor a level raises PatsyError; nothing else happens, except that a boolean array whose levels lack False or True gives KeyError (finding).", "quantifier": "every data vector and level tuple", "why_tests_cant": "All vectors.", "anchors": ["patsy/categorical.py:categorical_to_int"]}
{"id": "C35", "title": "Sorting of mixed-type levels", "statement": "Levels that are numbers, strings or other objects without ordering, in any mixture, are sorted consistently (numbers ascending first, strings in character order), independent of data order; for tuples this is false (finding).", "quantifier": "every mixture of level values", "why_tests_cant": "Strict weak ordering is a property of all triples.", "anchors": ["patsy/util.py:SortAnythingKey"]}
{"id": "C36", "title": "Term slices partition the columns", "statement": "For every DesignInfo that can be constructed, term slices are contiguous, in term order, non-overlapping and cover all columns; column names are unique; term and column name lookups never disagree.", "quantifier": "every list of column names and term codings", "why_tests_cant": "All shapes, including zero-column terms and name clashes.", "anchors": ["patsy/design_info.py:DesignInfo.__init__", "patsy/design_info.py:DesignInfo.slice"]}
{"id": "C37", "title": "subset() selects the same columns that the full design has", "statement": "The columns of design_info.subset(terms) are the columns of those terms in the full design, in the requested order, with identical names and identical values on any data.", "quantifier": "every design and every selection of its terms", "why_tests_cant": "All selections.", "anchors": ["patsy/design_info.py:DesignInfo.subset"]}
{"id": "C38", "title": "Built-in contrast codings are full rank", "statement": "For every number of levels n >= 1 and every reference/omitted level, the constant column together with the n-1 Treatment, Sum, Helmert or Diff columns is an invertible matrix, and so is the n-column full-rank coding; the columns are named after the levels they belong to, and the columns of ones are called mean (Sum) and intercept (Helmert).", "quantifier": "every n and every reference level", "why_tests_cant": "All sizes.", "anchors": ["patsy/contrasts.py:Treatment", "patsy/contrasts.py:Sum", "patsy/contrasts.py:Helmert", "patsy/contrasts.py:Diff"]}
{"id": "C39", "title": "Contrast matrices have their documented meaning", "statement": "Treatment columns are indicators of the non-reference levels; Sum, Helmert and Diff columns sum to zero; Diff coefficients are differences of consecutive level means; Sum coefficients are deviations from the grand mean; Treatment coefficients are differences from the reference mean.", "quantifier": "every n and reference level, every vector of level means", "why_tests_cant": "All sizes and values.", "anchors": ["patsy/contrasts.py:Treatment", "patsy/contrasts.py:Sum", "patsy/contrasts.py:Helmert", "patsy/contrasts.py:Diff"]}
{"id": "C40", "title": "Reference level lookup", "statement": "A reference equal to some level selects the first such level; a reference equal to none that is an in-range integer selects that position (negative from the end); anything else raises PatsyError; the position returned is always within range.", "quantifier": "every level list and reference", "why_tests_cant": "All inputs including negative indexes.", "anchors": ["patsy/contrasts.py:_get_level"]}
{"id": "C41", "title": "A linear constraint string means what its equations say", "statement": "For any constraint expression built from variables, numbers, + - * / = , and parentheses, if linear_constraint returns (A, b) then a parameter vector satisfies A beta = b iff it satisfies every equation in the expression (a bare expression meaning = 0, chained equalities meaning each adjacent pair).", "quantifier": "every constraint expression and every parameter vector over a field", "why_tests_cant": "All expressions and all vectors.", "anchors": ["patsy/constraint.py:_EvalConstraint", "patsy/constraint.py:linear_constraint"]}
{"id": "C42", "title": "Non-linear constraints are rejected", "statement": "Evaluating a product of two non-constant expressions, a division by a non-constant expression, or a constraint with no variables always raises PatsyError; accepted expressions are affine.", "quantifier": "every constraint expression", "why_tests_cant": "All expressions.", "anchors": ["patsy/constraint.py:_EvalConstraint._eval_binary_multiply", "patsy/constraint.py:_EvalConstraint._eval_binary_div"]}
{"id": "C43", "title": "Combining constraints is conjunction", "statement": "LinearConstraint.combine(cs) is satisfied by beta iff every one of cs is; row order is preserved.", "quantifier": "every non-empty list of constraints over the same variables", "why_tests_cant": "All lists and all vectors.", "anchors": ["patsy/constraint.py:LinearConstraint.combine"]}
{"id": "C44", "title": "Constraint tokenization takes the longest column name", "statement": "At each position of a constraint string where no paren or operator matches, the tokenizer reads the longest column name that matches there; the tokens with skipped whitespace cover the whole string in order or an error is raised.", "quantifier": "every string and every set of column names", "why_tests_cant": "All strings.", "anchors": ["patsy/constraint.py:_tokenize_constraint"]}
{"id": "C45", "title": "Dictionary constraints", "statement": "A mapping {name or index: value} yields one row per entry, setting exactly that variable equal to that value; unknown names and repeated variables raise an error.", "quantifier": "every mapping", "why_tests_cant": "All mappings, including mixes of names and (possibly negative) indexes.", "anchors": ["patsy/constraint.py:linear_constraint"]}
{"id": "C46", "title": "Variable lookup order", "statement": "A name in a formula (except one called as a stateful transform) resolves to the data if present there, else to the innermost enclosing namespace that defines it; adding an outer namespace never changes the meaning of a name already defined.", "quantifier": "every stack of namespaces and every name", "why_tests_cant": "All stacks.", "anchors": ["patsy/eval.py:VarLookupDict", "patsy/eval.py:EvalEnvironment.with_outer_namespace", "patsy/eval.py:EvalEnvironment.eval"]}
{"id": "C47", "title": "Environment subsetting preserves the meaning of the expression", "statement": "Restricting the captured environment to the names an expression mentions does not change the result of evaluating it on any data.", "quantifier": "every environment, expression and data", "why_tests_cant": "All environments.", "anchors": ["patsy/eval.py:EvalEnvironment.subset", "patsy/eval.py:EvalFactor.memorize_passes_needed"]}
{"id": "C48", "title": "center() is independent of chunking and centers exactly", "statement": "However the training rows are split into chunks (including empty ones), center() subtracts the mean of all training rows; the transformed training data sums to zero; on new data it subtracts the training mean. One training column serves new data with any number of columns; otherwise another number of columns is refused.", "quantifier": "every data set and chunking (exact arithmetic)", "why_tests_cant": "All chunkings.", "anchors": ["patsy/state.py:Center"]}
{"id": "C49", "title": "standardize()'s online algorithm computes the exact mean and variance", "statement": "However the training rows are split into chunks, the online update yields exactly the mean and the sum of squared deviations of all training rows, which are then used for any data; the standardized training data has mean 0 and variance 1 (with the given ddof), and center(x) equals standardize(x, rescale=False). One training column serves new data with any number of columns; otherwise another number of columns is refused.", "quantifier": "every data set and chunking (exact arithmetic)", "why_tests_cant": "All chunkings; loop invariant of Welford's algorithm.", "anchors": ["patsy/state.py:Standardize"]}
{"id": "C50", "title": "balanced() is balanced", "statement": "balanced(a=n1, b=n2, ..., repeat=r) with all n >= 1 yields r*n1*n2*... rows in which every combination of levels occurs exactly r times and nothing else does.  (If some count is 0, the result has no columns at all.)", "quantifier": "every number of factors, level counts and repeat", "why_tests_cant": "All sizes.", "anchors": ["patsy/user_util.py:balanced"]}
{"id": "C51", "title": "Cyclic mapping lands in the base interval and preserves position modulo the period", "statement": "For any lower < upper, the mapped value lies in [lower, upper], differs from the input by an integer multiple of the period, and values already inside are unchanged.", "quantifier": "every input vector and bounds", "why_tests_cant": "All reals.", "anchors": ["patsy/mgcv_cubic_splines.py:_map_cyclic"]}
{"id": "C52", "title": "Knot interval lookup", "statement": "For strictly sorted knots the lower-bound index j returned for x satisfies knots[j] <= x <= knots[j+1] whenever x is within the knots, and is the first/last interval when x is outside.", "quantifier": "every sorted knot vector and x", "why_tests_cant": "All vectors.", "anchors": ["patsy/mgcv_cubic_splines.py:_find_knots_lower_bounds"]}
{"id": "C53", "title": "Row-wise tensor product order", "statement": "te() combines marginal bases so that each output row contains every product of one entry from each marginal row exactly once, in row-major order of the marginals.", "quantifier": "every list of matrices with equal row counts", "why_tests_cant": "All sizes.", "anchors": ["patsy/mgcv_cubic_splines.py:_row_tensor_product"]}
{"id": "C54", "title": "Spline column counts equal df", "statement": "bs(x, df=d, ...) accepted by memorize yields exactly d columns; cr/cc with df=d yield exactly d columns after constraints.", "quantifier": "every degree, df, knots and intercept/constraint choice accepted", "why_tests_cant": "All parameter combinations.", "anchors": ["patsy/splines.py:BS", "patsy/mgcv_cubic_splines.py:_get_all_sorted_knots", "patsy/mgcv_cubic_splines.py:CubicRegressionSpline.memorize_finish"]}
{"id": "C55", "title": "LookupFactor and EvalFactor equality is consistent with hashing", "statement": "Equal factors hash equally, equality is an equivalence relation, so using them as dict keys identifies exactly equal factors.", "quantifier": "every pair of factors", "why_tests_cant": "All pairs.", "anchors": ["patsy/user_util.py:LookupFactor", "patsy/eval.py:EvalFactor"]}
{"id": "C56", "title": "The first origin attached to a PatsyError wins", "statement": "However often set_origin is called as the error propagates, the reported location is the first non-None origin attached.", "quantifier": "every history of set_origin calls", "why_tests_cant": "All histories.", "anchors": ["patsy/__init__.py:PatsyError.set_origin"]}
{"id": "C57", "title": "Matrix repr trims only redundant zeros", "statement": "When formatting a column of floats, trailing characters are removed from every entry alike, only zeros after the decimal point and then the point itself; as many as possible; the represented values are unchanged, and entries such as nan, inf or 1e5 are left alone.", "quantifier": "every column and precision", "why_tests_cant": "All columns.", "anchors": ["patsy/design_info.py:_format_float_column"]}
{"id": "C58", "title": "dmatrices returns aligned left and right matrices", "statement": "If dmatrices/dmatrix succeed, dmatrix's formula has no left-hand side columns, dmatrices' has at least one, and both matrices have the same number of rows.", "quantifier": "every formula-like input and data", "why_tests_cant": "All inputs.", "anchors": ["patsy/highlevel.py:_do_highlevel_design", "patsy/highlevel.py:dmatrix", "patsy/highlevel.py:dmatrices"]}
{"id": "C59", "title": "parse_formula returns the tree of the tokens under exactly one top-level ~, or a located PatsyError", "statement": "parse_formula(code) either returns the tree that the operator table dictates for the formula's tokens, wrapped in a ~ node when the formula has none at the top (an empty formula reading as '~ 1'), or raises PatsyError located inside the formula text; it never fails in another way.", "quantifier": "every Python token list the tokenizer can yield and every table of extra operators that is well-formed", "why_tests_cant": "All formulas.", "anchors": ["patsy/parse_formula.py:parse_formula", "patsy/parse_formula.py:_tokenize_formula"]}
{"id": "C60", "title": "a*b means a + b + a:b, in that order", "statement": "For any expressions a and b, the formula '~ a*b' has the same non-intercept terms in the same order as '~ a + b + a:b'.", "quantifier": "every pair of formula expressions for which '~ a*b' is accepted, b not the literal 0", "why_tests_cant": "All expressions.", "anchors": ["patsy/desc.py:_eval_binary_prod", "patsy/desc.py:_interaction"]}
{"id": "C61", "title": "A coefficient matrix given as a constraint means matrix times parameters equals constants", "statement": "linear_constraint given a coefficient matrix, alone or in a pair with constants, succeeds iff the matrix has at least one row, one column per parameter and one constant per row, and then represents exactly the equations 'matrix times parameters = constants', with constants 0 if none are given; otherwise it raises ValueError. A LinearConstraint object is taken as it is when its column names are those of the model, and refused with ValueError otherwise.", "quantifier": "every matrix, constants vector and list of parameter names", "why_tests_cant": "All matrices.", "anchors": ["patsy/constraint.py:LinearConstraint.__init__", "patsy/constraint.py:linear_constraint"]}
{"id": "C62", "title": "demo_data returns a balanced design with at least min_rows rows", "statement": "demo_data(*names, nlevels=n, min_rows=m) with n >= 1 and m >= 0 returns one column per distinct name; the names starting with a to n form a balanced design with n levels each, those starting with p to z are numeric; all columns have the same length, the smallest multiple of the size of the balanced design that is at least m. Any other first letter raises PatsyError.", "quantifier": "every list of names, nlevels and min_rows", "why_tests_cant": "All sizes and names.", "anchors": ["patsy/user_util.py:demo_data", "patsy/user_util.py:balanced"]}
{"id": "C63", "title": "cr() and cc() place their knots between the bounds, strictly increasing", "statement": "After training, the knots of cr() and cc() are strictly increasing, the first is lower_bound (or the least training value), the last upper_bound (or the greatest training value), and knots given by the user are exactly the ones in between.", "quantifier": "every training data and every df, knots, bounds and constraints for which training succeeds", "why_tests_cant": "All data and arguments.", "anchors": ["patsy/mgcv_cubic_splines.py:_get_all_sorted_knots", "patsy/mgcv_cubic_splines.py:CubicRegressionSpline.memorize_finish"]}
{"id": "C64", "title": "bs() computes the B-spline basis of the remembered knots", "statement": "The columns of bs() are the B-splines (Cox-de Boor) of degree `degree` for the remembered knots, bounds repeated degree+1 times; with include_intercept=True each row is nonnegative and sums to 1; values outside the bounds raise NotImplementedError and, for degrees up to 5, values within them are accepted. Numbers, vectors and one-column matrices are accepted; other matrices are refused.", "quantifier": "every training data, arguments and new data; row sums: no inner knot equal to the upper bound, or value below it", "why_tests_cant": "All knots, degrees and values.", "anchors": ["patsy/splines.py:_eval_bspline_basis", "patsy/splines.py:BS.memorize_finish", "patsy/splines.py:BS.transform"]}
{"id": "C65", "title": "cr() and cc() draw exactly the natural and cyclic cubic splines on their knots", "statement": "For any coefficients the columns of cr() (cc()), evaluated on any data, add up to the values of one natural (cyclic) cubic spline on the remembered knots: cubic between knots, twice continuously differentiable, linear outside (periodic); it satisfies the constraints. Conversely every such spline that satisfies the constraints is obtained, with exactly one list of coefficients. Without constraints the coefficients are the values at the knots, each row sums to one, and weighting the columns of cr() by the knots returns the data.", "quantifier": "every training data and arguments giving at least 3 (cc: 4) knots, every linearly independent constraint, every new data", "why_tests_cant": "All knots, coefficients and curves.", "anchors": ["patsy/mgcv_cubic_splines.py:_get_free_crs_dmatrix", "patsy/mgcv_cubic_splines.py:_get_natural_f", "patsy/mgcv_cubic_splines.py:_get_cyclic_f", "patsy/mgcv_cubic_splines.py:_compute_base_functions", "patsy/mgcv_cubic_splines.py:_absorb_constraints"]}
{"id": "C66", "title": "constraints='center' makes every column of cr(), cc() and te() sum to zero over the training data", "statement": "With constraints='center', each column that cr(), cc() or te() returns sums to zero over the training data, also when te() saw that data in several pieces.", "quantifier": "every training data, arguments, and splitting into pieces", "why_tests_cant": "All data and splittings.", "anchors": ["patsy/mgcv_cubic_splines.py:_get_centering_constraint_from_dmatrix", "patsy/mgcv_cubic_splines.py:_absorb_constraints", "patsy/mgcv_cubic_splines.py:TE.memorize_chunk"]}
{"id": "C67", "title": "The return type changes only the container", "statement": "For every formula or pair of designs and every data, dmatrix/dmatrices with return_type='dataframe' succeed exactly if they do with return_type='matrix' (given pandas), with the same numbers and design_info; likewise for explicit matrices of floats.", "quantifier": "every formula-like object, data and NA action", "why_tests_cant": "All formulas, data and ways the two code paths could differ.", "anchors": ["patsy/highlevel.py:_do_highlevel_design", "patsy/build.py:build_design_matrices", "patsy/design_info.py:DesignMatrix.__new__"]}
{"id": "C68", "title": "A design_info used again on the same data gives the same matrix", "statement": "If dmatrix succeeds for a one-sided formula, dmatrix given the design_info of the result and the same data returns the same matrix, and the same holds for dmatrices given both design_infos; the incremental functions give the same design_infos.", "quantifier": "every formula, data, NA action and return type", "why_tests_cant": "All formulas and data, with any stateful transforms.", "anchors": ["patsy/highlevel.py:_try_incr_builders", "patsy/highlevel.py:dmatrix", "patsy/build.py:build_design_matrices"]}
{"id": "C69", "title": "Designs evaluate later data with what they learned from the training data", "statement": "After designs were made for some formulas and training data, each factor is evaluated on any other data with the state it had after all its passes over the training data, and categorical data is coded with the levels of the training data, whichever of the designs are used together.", "quantifier": "every list of term lists, training data in any pieces, later data, order of sets", "why_tests_cant": "All states, orders and pieces.", "anchors": ["patsy/build.py:design_matrix_builders", "patsy/build.py:_eval_factor"]}
{"id": "C70", "title": "Explicit matrices are taken as they are", "statement": "dmatrix of a matrix without design_info succeeds exactly if the matrix has at most two dimensions, holds numbers and its columns have distinct names; it returns the same numbers, and numpy arrays get the names x0, x1, .... Matrices in a tuple, and a lone DesignMatrix, keep the design_info they have (a lone DataFrame is taken by its column names alone); a DesignInfo or None next to a matrix is refused when matrices are asked for.", "quantifier": "every array", "why_tests_cant": "All arrays and names.", "anchors": ["patsy/highlevel.py:_do_highlevel_design", "patsy/design_info.py:DesignInfo.from_array", "patsy/design_info.py:DesignMatrix.__new__"]}
{"id": "C71", "title": "The same call gives the same result in every run of Python", "statement": "If dmatrix, dmatrices or incr_dbuilders succeeds in one run of Python, it succeeds in any other run with the same numbers, row labels, column names, term and factor order, codings, states and levels, although hashes (PYTHONHASHSEED), the order in which sets are gone through, and object identities differ; levels found in the data are numbers and strings, or unordered objects and None whose addresses are the same.", "quantifier": "every pair of runs in which sets of factors of the formula have different hashes, every formula, data in any number of pieces, NA action and return type", "why_tests_cant": "A test sees the few hash seeds it is run with.", "anchors": ["patsy/build.py:design_matrix_builders", "patsy/build.py:_factors_memorize", "patsy/build.py:_examine_factor_types", "patsy/redundancy.py:pick_contrasts_for_term", "patsy/util.py:SortAnythingKey", "patsy/categorical.py:CategoricalSniffer.levels_contrast", "patsy/highlevel.py:dmatrices"]}
{"id": "C72", "title": "Poly coding gives the orthogonal polynomials of the scores", "statement": "For distinct scores Poly codes the levels by the values of the orthogonal polynomials of degree 0, 1, 2, ... with positive leading coefficient, the first constant one and the others of length one; there is only one such matrix, so it does not depend on how the QR decomposition was computed, nor on shifting or stretching the scores, nor on earlier use; full- and reduced-rank coding are of full rank, coefficients are projections of the level means, and a trend of degree d in the scores has no coefficients beyond degree d.", "quantifier": "every number of levels, distinct scores, QR routine that returns orthonormal and triangular factors, ordered field with square roots", "why_tests_cant": "All scores and all QR routines.", "anchors": ["patsy/contrasts.py:Poly._code_either"]}
{"id": "C73", "title": "C(x, contrast, levels) means what its outermost arguments say", "statement": "In nested calls of C the outermost contrast given and the outermost levels given count, independently; None means the default coding, a class or function means what it returns, an object with the two coding methods is asked for the kind of coding wanted, and a matrix is used unchanged for any levels and either kind of coding, with suffixes [custom0], [custom1], ...", "quantifier": "every nesting, contrast argument and list of levels", "why_tests_cant": "All nestings and arguments.", "anchors": ["patsy/categorical.py:C", "patsy/contrasts.py:code_contrast_matrix"]}
{"id": "C74", "title": "eval_env counts calling functions", "statement": "EvalEnvironment.capture(k, reference=r) called in a function gives the environment of the (k+r)-th function up the stack, 0 being the caller itself; dmatrix, dmatrices and the incremental functions with eval_env=k evaluate factors in the variables of their caller (k=0), its caller (k=1), and so on; an environment is used as it is, anything else is refused, and a stack that is too short is an error.", "quantifier": "every stack of frames, depth and reference", "why_tests_cant": "All stacks and depths.", "anchors": ["patsy/eval.py:EvalEnvironment.capture", "patsy/highlevel.py:dmatrix", "patsy/highlevel.py:incr_dbuilder"]}
{"id": "C75", "title": "Environments are equal exactly if they have the same namespaces and flags", "statement": "Two environments are equal if and only if they have the same flags and consist of the same mapping objects in the same order; this is an equivalence that hashes agree with, and equal environments give every name the same value; capturing one function call twice gives equal environments, while adding a namespace or restricting to some names gives another one.", "quantifier": "every pair of environments", "why_tests_cant": "All environments.", "anchors": ["patsy/eval.py:EvalEnvironment.__eq__", "patsy/eval.py:EvalEnvironment.__hash__"]}
{"id": "C76", "title": "Q('name') stands for the variable of that name", "statement": "In a factor, writing variables of the data as Q('name') instead of by their names changes nothing in its value, error or effects; called directly, Q finds the local, then the global variables of its caller, else it raises NameError.", "quantifier": "every factor, data and environment", "why_tests_cant": "All expressions and names.", "anchors": ["patsy/builtins.py:Q", "patsy/eval.py:EvalFactor.eval"]}
{"id": "C77", "title": "A factor's stateful transforms are fitted on the values of their arguments over all the data", "statement": "A factor with any nesting of stateful transforms can be fitted exactly if every transform can be fitted on the values its arguments take on all chunks of the training data, and its value on any old or new data is the one such fitted transforms give; on data in one chunk this is what Python computes with the transforms called directly.", "quantifier": "every expression, transform, number of chunks and order within the passes", "why_tests_cant": "All nestings, chunks and transforms.", "anchors": ["patsy/eval.py:EvalFactor.memorize_chunk", "patsy/eval.py:EvalFactor.memorize_finish", "patsy/eval.py:EvalFactor.eval", "patsy/state.py:stateful_transform"]}
{"id": "C78", "title": "What a transform learns depends on the training values only, not on their order and splitting", "statement": "bs(), cr(), cc(), te(), center() and standardize() learn the same from data given in one piece, in several pieces, as numbers, vectors or one-column matrices, and in any order of the rows.", "quantifier": "every two ways of splitting and ordering the same rows", "why_tests_cant": "All splittings and orders.", "anchors": ["patsy/splines.py:BS.memorize_chunk", "patsy/mgcv_cubic_splines.py:CubicRegressionSpline.memorize_chunk", "patsy/mgcv_cubic_splines.py:TE.memorize_chunk", "patsy/state.py:Center.memorize_chunk", "patsy/state.py:Standardize.memorize_chunk"]}
{"id": "C79", "title": "Each entry of a design matrix is the product of what its factors contribute to the row", "statement": "Each entry of a design matrix, for old or new data, is the product over the factors of its column's term of the number in the factor's value for that row, or of the entry in the row of the factor's contrast matrix that belongs to the level of that row; the rows are those of the data in which no factor is missing, in order; a factor's value is that of its code with stateful transforms fitted on the training data, and its levels are those found in the training data.", "quantifier": "every list of models, factors, training data in any number of chunks, new data and missing-data policy", "why_tests_cant": "All formulas and all data.", "anchors": ["patsy/build.py:build_design_matrices", "patsy/build.py:design_matrix_builders", "patsy/build.py:_build_subterm", "patsy/eval.py:EvalFactor.eval", "patsy/categorical.py:categorical_to_int"]}
{"id": "C80", "title": "Errors in a factor's code are PatsyErrors that point at the factor", "statement": "An error raised by a factor's code, when it is evaluated or when its transforms see the training data, is reported as a PatsyError with the factor's place in the formula; what is raised when a transform has seen all data comes out unchanged.", "quantifier": "every factor, data and error", "why_tests_cant": "All expressions, transforms and errors.", "anchors": ["patsy/compat.py:call_and_wrap_exc", "patsy/eval.py:EvalFactor._eval", "patsy/eval.py:EvalFactor.memorize_finish", "patsy/build.py:_factors_memorize"]}
{"id": "C81", "title": "Design matrices have full column rank and span exactly the model, also with numeric factors", "statement": "The columns of a design matrix span exactly the sums, over the terms, of products of the term's numeric columns with arbitrary functions of the levels of its categorical factors, for any data and any contrasts that have full rank; the built-in contrasts do. If the data is rich enough (within every combination of levels, the distinct products of numeric columns occurring in the terms are linearly independent), the columns are also linearly independent.", "quantifier": "every list of terms, factors, levels, full-rank contrasts and data, old or new (rich enough data for independence)", "why_tests_cant": "All formulas with any interactions of numeric and categorical factors and all data.", "anchors": ["patsy/build.py:_make_subterm_infos", "patsy/build.py:build_design_matrices", "patsy/redundancy.py:pick_contrasts_for_term", "patsy/contrasts.py:code_contrast_matrix"]}
{"id": "C82", "title": "The entries of dmatrices(formula, data) are Python's values of the factors' text", "statement": "A factor given as text is fitted and evaluated as Python would evaluate the text's syntax tree, with every call of a stateful transform (found by its name in the environment, nested in others or not) replaced by the transform fitted on all training data; in dmatrices and dmatrix on a formula, each entry is the product of contributions of the values that Python computes from the factors' texts on the data, where stateful transforms are called like any function. (Not so if a variable in the data is named like a stateful transform that is called.)", "quantifier": "every formula, Python expression, transform, environment, data in any number of chunks and new data", "why_tests_cant": "All expressions with calls at any depth, all data, and rewriting of text in between.", "anchors": ["patsy/eval.py:EvalFactor", "patsy/eval.py:replace_bare_funcalls", "patsy/eval.py:capture_obj_method_calls", "patsy/state.py:stateful_transform", "patsy/highlevel.py:dmatrices", "patsy/build.py:build_design_matrices"]}
{"id": "C83", "title": "A design built incrementally from chunks is the design built from all the data at once", "statement": "incr_dbuilder and incr_dbuilders (and any design built from an iterator of chunks) give the same design whatever chunks the rows come in and in whatever order: same columns, terms, codings and levels, and the same matrices for any later data, if one way of splitting works then so does any other; provided that each factor's code works row by row apart from its stateful transforms, that the transforms (all those of patsy) learn the same from any split, and that the type of a factor is the same in every chunk. Chunks without rows are excluded.", "quantifier": "every formula, factor code, rows, two lists of non-empty chunks with the same rows, runs of Python and later data", "why_tests_cant": "All data sets, all ways of splitting and ordering them, all formulas with transforms nested to any depth.", "anchors": ["patsy/highlevel.py:incr_dbuilders", "patsy/build.py:design_matrix_builders", "patsy/build.py:_factors_memorize", "patsy/build.py:_examine_factor_types", "patsy/state.py:Center", "patsy/state.py:Standardize", "patsy/splines.py:BS", "patsy/mgcv_cubic_splines.py:CubicRegressionSpline", "patsy/mgcv_cubic_splines.py:TE"]}
{"id": "C84", "title": "What is shown of a design matrix", "statement": "The text of a design matrix gives its shape, then the first thirty rows as a table with the column names, right-aligned in columns just wide enough, and a line with the number of rows left out, if the lines of the table have fewer than 78 places, otherwise the list of column names; then all terms in order with the columns they occupy; and a note on how to see the rest if and only if anything was left out. No line of the table exceeds 75 characters.", "quantifier": "every design whose first term has a column, every matrix of any size and every way of writing numbers with at most one point", "why_tests_cant": "Tests show a few matrices; the choice of layout depends on the widths of all names and numbers.", "anchors": ["patsy/design_info.py:DesignMatrix._repr_pretty_", "patsy/util.py:_MiniPPrinter", "patsy/design_info.py:_format_float_column"]}
{"id": "C85", "title": "Every column can be constrained by its name, and every linear system can be written as text", "statement": "design_info.linear_constraint accepts any system of linear equations between expressions in the column names, numbers, + - * / and parentheses, written with parentheses around every operand, and the constraint holds of exactly the parameter values that solve the equations; so for every matrix of rational numbers without a zero row there is a text that says the same; the name of a column alone says that its parameter is zero, however it overlaps other names. This needs names that do not start with a digit, an operator or a parenthesis, and for texts with parentheses no name that is another one followed by a closing parenthesis.", "quantifier": "every design, column names as described, every system of equations and every expression of any depth", "why_tests_cant": "Tests try a few strings on columns called a and b; which text is read as which name depends on all names.", "anchors": ["patsy/design_info.py:DesignInfo.linear_constraint", "patsy/constraint.py:linear_constraint", "patsy/constraint.py:_tokenize_constraint", "patsy/constraint.py:parse_constraint", "patsy/constraint.py:_EvalConstraint"]}
{"id": "C86", "title": "LookupFactor stands for the variable of its name", "statement": "In a model built of LookupFactors, each entry of a matrix is the product of what the variables of these names contribute on its row, for the data the model was built from as for any other, and nothing but levels and the type is learned from the data; a name may be any string. With force_categorical=True the factor is categorical whatever the data, with the levels, their order and the contrast given to it. A contrast or levels without force_categorical are refused with ValueError, nothing else is.", "quantifier": "every list of terms of LookupFactors, all data, contrasts, levels, missing value policies and later data", "why_tests_cant": "Tests use one or two numeric variables; the claim is about all data and combinations of arguments, and all entries of all matrices.", "anchors": ["patsy/user_util.py:LookupFactor.__init__", "patsy/user_util.py:LookupFactor.eval", "patsy/build.py:build_design_matrices", "patsy/build.py:design_matrix_builders"]}
{"id": "C87", "title": "What DesignInfo.describe() says", "statement": "For each side of a formula, the design_info of the matrix built from it describes itself as the sum of its terms, in the order in which their columns stand, with the intercept written 1. Read as a formula, the description of a design with an intercept gives exactly the terms of the design; the description of a design without one gives its terms and an intercept. A matrix the user gave is described by its column names. (A design without intercept that has a variable called Intercept is excluded.)", "quantifier": "every formula, data and types of its factors, and every token sequence that spells the description", "why_tests_cant": "Tests compare a few strings; the claim is about all formulas and orders of terms, and reads the text back.", "anchors": ["patsy/design_info.py:DesignInfo.describe", "patsy/desc.py:ModelDesc.from_formula", "patsy/build.py:design_matrix_builders"]}
{"id": "C88", "title": "When a subset of a design can be taken", "statement": "DesignInfo.subset succeeds for any distinct terms of the design, given by name or as the terms themselves, in any order, and the result has exactly these terms in this order; a name or Term that the design does not have is a KeyError, and a term with columns selected twice is an error. A formula selects the terms with the names of its right-hand terms, a formula with a left-hand side is refused. A design without terms can be subset by the names of columns, without repetition, and the result has exactly these columns.", "quantifier": "every design, every list of names and terms, every formula", "why_tests_cant": "Tests try a few subsets of one design; that no choice is refused by the constructor's checks depends on all of the design's columns and names.", "anchors": ["patsy/design_info.py:DesignInfo.subset", "patsy/design_info.py:DesignInfo.__init__"]}
{"id": "C89", "title": "A formula means the same however it is spaced, and describe() writes a formula that can be read back", "statement": "ModelDesc.from_formula of a text depends only on the kinds and texts of its tokens: blanks and newlines between, before and after them do not matter, except where leaving them out would join two tokens. The text that describe() returns for a model read from a formula is itself a formula, and reading it gives the same model. A text of white space only is the formula of the intercept alone. Any other text gives a model or raises PatsyError with an origin in that text; the origin of each token is the place where it stands in the text.", "quantifier": "all texts over names, numbers, strings (also with prefixes, escapes and three quotes), operators, brackets, blanks, tabs and newlines (and, for errors, all texts that do not start with an unclosed string in three quotes); for reading back, token sequences in which neighbouring tokens cannot be taken for a longer token when printed next to each other", "why_tests_cant": "Tests compare a few spellings of a few formulas; that no spelling, nesting or choice of factors changes the model, that the printed description always splits into the same tokens, and that no text escapes with another exception, concerns infinitely many texts.", "anchors": ["patsy/tokens.py:25-64", "patsy/tokens.py:82-179", "patsy/parse_formula.py:140-155", "patsy/desc.py:130-181"]}
{"id": "C90", "title": "An error shows the code it is about and marks the right characters of it", "statement": "str() of a PatsyError without origin is its message; with an origin it is the message, then the code moved four places to the right, then a line with blanks up to the start of the origin and carets under exactly its characters. A formula that is refused always gives such a text: the code shown is the formula (newlines as blanks, without the space around it), at least one caret is shown, and each caret is under a character of the formula. A PatsyError for constraints given as strings points at one or more characters of one of these strings. The relevant code of a token is its text. repr() of an origin is the code with the relevant part between arrows; origins are equal, and hash alike, exactly if code, start and end agree.", "quantifier": "all messages and origins, all texts given as formulas, all column names and lists of constraint strings", "why_tests_cant": "Tests look at the origins of a few hand-written errors; that no error of the tokenizer, the parser or the evaluator lacks an origin or points outside the text, whatever the formula or constraint, cannot be tested.", "anchors": ["patsy/origin.py:42-119", "patsy/__init__.py:46-69", "patsy/desc.py:164-456", "patsy/parse_formula.py:51-155", "patsy/constraint.py:186-216", "patsy/constraint.py:261-375"]}
{"id": "C91", "title": "A row of a design matrix depends only on that row of the data", "statement": "If build_design_matrices returns matrices for some data, it also returns them for any rearrangement of the rows of that data (another order, only some of the rows, rows repeated), with the same columns and with the same rows rearranged in the same way; a row that is dropped for a missing value is dropped from the rearranged data too, wherever it stands, and no other row is. Row labels go with their rows; data without row labels gets the new rows numbered. If the design itself is made from the rearranged data, and the code of the factors works row by row after fitting (as that of patsy's own transforms), it is the same design, so dmatrix of the permuted data is the permuted dmatrix.", "quantifier": "all designs, all data for which the matrices can be built, all lists of row numbers of that data, all NA actions, matrices and DataFrames; for designs made from the data, all permutations of its rows and all runs of Python (hash seeds)", "why_tests_cant": "Tests compare a matrix with a few reorderings or subsets of one data set; that no design, no kind of factor and no list of rows makes one row influence another cannot be enumerated.", "anchors": ["patsy/build.py:66-94", "patsy/build.py:861-1022", "patsy/missing.py:146-202", "patsy/categorical.py:327-396", "patsy/build.py:666-764"]}
{"id": "C92", "title": "Errors for new data say which factor does not fit", "statement": "If build_design_matrices raises an error for a design and new data, then the NA_action is not acceptable, or evaluating a factor raised it, or a factor's value does not suit what the design was made from: more than two dimensions, another number of columns, not numbers, a value that is not one of the levels (or other levels), another number of rows or another index than the data or an earlier factor has, missing values with NA_action='raise'; or the design has no factors and the data no number of rows. The error points to the factor that is at fault in the formula: to the first one that fails or disagrees with those before it, and only if there is none, to the first with missing values.", "quantifier": "all designs made by design_matrix_builders and all lists of them, all data, all values of factors, all NA actions, matrices and DataFrames, all runs of Python (hash seeds)", "why_tests_cant": "Tests try each error for one formula; that no other error can come up, for any combination of designs and factors in any order, and that the right factor is named, needs all of them.", "anchors": ["patsy/build.py:43-49", "patsy/build.py:66-94", "patsy/build.py:834-858", "patsy/build.py:861-1022", "patsy/categorical.py:327-396", "patsy/missing.py:146-192"]}
{"id": "C93", "title": "Knots chosen for a number of degrees of freedom divide the data into equal shares", "statement": "bs(x, df=...) without knots puts its inner knots at the quantiles that divide all the training data into equal shares, and as many of them as df, the degree and include_intercept leave room for; cr() and cc() put theirs at the quantiles of the different values that the training data has between the bounds, next to the bounds themselves. The knots do not depend on the order of the rows, and for the j-th of m knots more than j/(m+1) of the steps between the values are up to it and more than 1 - j/(m+1) from it on.", "quantifier": "all training data, all numbers of degrees of freedom, degrees, bounds and constraints, exact arithmetic", "why_tests_cant": "Tests compare the knots for a few data sets with those of R; that the formula for the positions is right for every number of rows and knots, with ties and bounds inside the data, is a statement about all of them.", "anchors": ["patsy/splines.py:66-72", "patsy/splines.py:179-261", "patsy/mgcv_cubic_splines.py:397-490", "patsy/mgcv_cubic_splines.py:632-690"]}
{"id": "C94", "title": "The ordered dictionary that patsy brings along is one", "statement": "With PATSY_AVOID_OPTIONAL_DEPENDENCIES set, patsy uses its own OrderedDict for terms, column names and slices. Whatever calls are made on one - setting, deleting, pop, popitem from either end, setdefault, update, looking up, iterating in both directions, keys, values, items, length, copies, fromkeys and comparisons - they return and raise what they would for the list of the items in the order in which their keys first came, a key set again keeping its place and a key deleted and set again going to the end. The exception is clear(): under Python 3 it leaves the order behind, so the old keys are still iterated over.", "quantifier": "all sequences of calls, of any length, on all keys and values", "why_tests_cant": "The linked list and the two dictionaries behind it have to agree after every interleaving of insertions and deletions; patsy has no tests of this class at all and it is excluded from the coverage report.", "anchors": ["patsy/compat_ordereddict.py:24-252", "patsy/compat.py:28-31"]}
{"id": "C95", "title": "How a formula is written does not change the matrices", "statement": "If two formulas (strings) give the same ModelDesc, then dmatrix and dmatrices give the same matrices, column names, indexes and designs for them, on any data and with any NA_action and return_type, or fail with the same exception and message; only the place an error points to can differ. They also give what passing the ModelDesc gives. In particular: space and newlines between tokens do not matter, and the text describe() returns for a formula gives the same matrices as the formula. The same is true for design_matrix_builders followed by build_design_matrices on other data.", "quantifier": "all pairs of formula texts with the same model (all ways to write the same tokens; every formula and its description), all data in any chunks, all functions and stateful transforms the factors call, all NA actions and return types, all places remembered by the factors", "why_tests_cant": "Each factor carries the place in the text it came from, and every stage from memorization to the check of the number of rows passes this on. Tests compare a few spellings on a few data sets; that no stage lets the place (or the text outside the terms) influence a value is a statement about all of them.", "anchors": ["patsy/build.py:66-94", "patsy/build.py:386-414", "patsy/build.py:485-518", "patsy/build.py:693-796", "patsy/build.py:842-1022", "patsy/eval.py:497-599", "patsy/highlevel.py:31-322", "patsy/desc.py:135-160"]}
{"id": "C96", "title": "A subset of a design is built from the variables of the chosen terms alone", "statement": "design_info.subset(...) keeps the factors of the chosen terms and no others. If build_design_matrices succeeds for a design on some data, then it succeeds for a subset of it on any data on which the factors of the chosen terms have the same values, even if evaluating the other factors there fails (so the data need not contain their variables), provided the subset has a factor or the data is a DataFrame. The matrix then has exactly the chosen columns of the full matrix, with the same rows when no row is dropped only because of a factor that was left out (always with NA_action='raise'); otherwise the full matrix' rows are some of its rows, in order, with the same row labels.", "quantifier": "all designs, all selections of terms by name or term, all data and all outcomes of evaluating the other factors, NA actions 'drop' and 'raise', with and without a DataFrame index", "why_tests_cant": "That no stage of building touches a factor outside the chosen terms, and that missing values only add rows, is a statement about all designs, selections and data; tests drop one variable from one small data set without missing values.", "anchors": ["patsy/design_info.py:590-681", "patsy/build.py:842-983", "patsy/build.py:693-756", "patsy/missing.py:146-245"]}
{"id": "C97", "title": "A design can be made unless names clash", "statement": "Once the types of the factors are known, making the design of a list of different terms (the last step of design_matrix_builders, dmatrix and dmatrices) never fails for any other reason than names: it succeeds exactly if the column names are pairwise different, the term names are pairwise different, and a column that is called like a term is that term's only column; otherwise ValueError or AssertionError is raised and no design is returned. Names cannot clash if every factor's text has balanced brackets, no colon outside of brackets, does not end in ']' and is not 'Intercept', and the contrast suffixes of each factor are different texts in balanced square brackets - which holds for Treatment, Sum, Helmert and Diff coding when the levels have different texts with balanced brackets (and no level is called 'intercept' under Helmert coding).", "quantifier": "all lists of different terms with any number of factors, all assignments of numeric and categorical types, column counts and contrast matrices, all collision-free hashes, all factor and level texts", "why_tests_cant": "That two different combinations of terms, subterms, levels and columns never give the same text is a statement about all texts; tests use a few short names.", "anchors": ["patsy/build.py:250-274", "patsy/build.py:627-690", "patsy/build.py:749-796", "patsy/design_info.py:276-401", "patsy/contrasts.py:107-116", "patsy/desc.py:62-67"]}
{"id": "C98", "title": "A formula and data give matrices unless one of a list of things is wrong", "statement": "Whenever design_matrix_builders, dmatrix or dmatrices raises an error for a formula (a string that can be parsed, a ModelDesc, or an object with __patsy_get_model_desc__), the error is one of these: NA_action or return_type is not acceptable; a factor's own code (its memorization, its evaluation) raised it; a factor's values are neither numbers of at most two dimensions nor usable as categories; there is no data; a contrast does not accept the levels learned; column names clash, which plain names never do; or, on the data, the number of columns, the type, the levels, the number of rows, the index or missing values of a factor do not agree with the rest; or outcome variables are missing or not expected. There is no other failure: if every factor gives numbers with n rows, or hashable values with n rows (or declared levels or a pandas Categorical that cover the values), indexes agree, contrasts accept the levels, and names are plain, then dmatrix returns a matrix for every one-sided formula, and dmatrices returns two matrices unless the outcome side has no columns.", "quantifier": "all formulas and ModelDescs, all data (in any number of chunks, for design_matrix_builders), all behaviours of factors and contrasts, all orders of sets and collision-free hashes, both NA actions and return types", "why_tests_cant": "That nothing else can fail is a statement about all inputs at once; tests show that some inputs work and that some errors are raised.", "anchors": ["patsy/build.py:693-796", "patsy/build.py:415-467", "patsy/build.py:470-563", "patsy/build.py:627-690", "patsy/build.py:861-1022", "patsy/highlevel.py:31-63", "patsy/highlevel.py:150-322"]}
{"id": "C99", "title": "The repr of a term or a model description is Python code that builds it again", "statement": "Without IPython, repr of a ModelDesc is ModelDesc(lhs_termlist=[...], rhs_termlist=[...]) with each term as Term([EvalFactor('code'), ...]); for every description whose terms are distinct and whose factors have normal code, reading this text as Python and calling the constructors gives the same description, and two different descriptions never have the same repr, whatever quotes, backslashes, newlines or other characters the code of their factors contains. The same is true of every Term, and of everything patsy shows that is made of strings, lists and such calls alone; all other objects are shown as their class name with the arguments, and the labelled arguments after them, set apart by commas: a DesignInfo with its column names, factor_infos and term_codings, a FactorInfo with its factor, type and number of columns or categories, a SubtermInfo, LinearConstraint or ContrastMatrix with what it was made of. An Origin shows all of the code with the marked characters between arrows, and their positions. (An IntermediateExpr cannot be shown at all: its repr never comes back.)", "quantifier": "all descriptions, terms and objects, all strings, all ways Python may treat characters beyond ASCII, every sufficient recursion depth (17 calls for a description, however many terms it has)", "why_tests_cant": "Quoting has to be right for every code a factor may have, and that no two descriptions look alike is about all pairs.", "anchors": ["patsy/util.py:475-548", "patsy/desc.py:56-60", "patsy/desc.py:119-128", "patsy/desc.py:222-230", "patsy/eval.py:485-486", "patsy/design_info.py:103-126", "patsy/design_info.py:229-242", "patsy/design_info.py:403-412"]}
{"id": "C100", "title": "Equivalent formulas make the same predictions, and larger models contain smaller ones", "statement": "If every term of one formula is a margin of a term of another (the same numeric factors and some or all of its categorical ones), then for all coefficients of the first design there are coefficients of the second that give the same prediction for every row of data, whether of the data the designs were made from or of any data matrices are built from later. So formulas which say the same thing differently (another order of terms or factors, a*b or a:b for categorical factors, with or without an intercept beside a categorical term, other full-rank contrasts or another order of levels) have designs that can predict exactly the same, and a formula with more terms can predict everything that one with fewer terms can.", "quantifier": "all term lists, factors, data, trainings and coefficients, all pairs of matrices built later, over any commutative ring; for designs with different factors (such as different contrasts), whenever the levels and numbers of the one follow from those of the other", "why_tests_cant": "Relates two designs on all data, also on data not seen yet; a test compares two matrices.", "anchors": ["patsy/build.py:_make_subterm_infos", "patsy/build.py:design_matrix_builders", "patsy/build.py:build_design_matrices", "patsy/redundancy.py:pick_contrasts_for_term"]}
{"id": "C101", "title": "Dropping incomplete rows before or after gives the same matrix if nothing is only in them", "statement": "Suppose designs are made from some data and matrices are built from it, with rows dropped that have a missing value. If the complete rows alone are used instead, and every level of every categorical factor occurs in them (or the levels are declared) and no stateful transform remembers anything else from them, then the same designs come out, with the same matrices, the same row labels and the same predictions for any other data. Factors without stateful transforms remember nothing, so for them only the levels count. Without these conditions it is false: a level that occurs only in dropped rows has a column (of zeros), and center() subtracts the mean over all rows, dropped ones included.", "quantifier": "all factors, term lists, data, NA actions, runs of the interpreter (hashes, set orders, addresses)", "why_tests_cant": "Compares two trainings on related data for all data; the tests of NA handling fix one small data set and never compare with training on the complete rows.", "anchors": ["patsy/build.py:design_matrix_builders", "patsy/build.py:build_design_matrices", "patsy/missing.py:NAAction", "patsy/categorical.py:CategoricalSniffer"]}
{"id": "C102", "title": "Designs and matrices made together are those made apart", "statement": "If several designs are made from the same data in one call, then any of them, in any selection and order, can be made in a call of their own and are the same designs: the same terms, column names, codings, levels and remembered states. Conversely the call for all of them succeeds if the call for each alone does. Matrices built together are those built apart, less the rows that are dropped because another design of the call has a missing value there; row labels too, if the selection has any. In particular the right-hand matrix of 'y ~ rhs' is the matrix of 'rhs' except for rows dropped because of y.", "quantifier": "all factors, term lists, selections, chunked data, NA actions and orders of sets; data that is the same on every pass", "why_tests_cant": "Relates calls with different sets of formulas for all formulas and data; tests compare a handful of dmatrix and dmatrices results.", "anchors": ["patsy/build.py:design_matrix_builders", "patsy/build.py:build_design_matrices", "patsy/highlevel.py:dmatrices", "patsy/highlevel.py:dmatrix"]}
{"id": "C103", "title": "A term's columns depend on the terms before it, not on those after it", "statement": "Leaving out of a list of terms any terms that have other numerical factors than t, or more factors than t, or as many factors and come later in the list, leaves the columns of t as they are: the same coding, the same column names and, for all data, the same entries. So adding an interaction or appending a term never changes the columns of the terms already there. (Terms before t do matter: categorical factors are coded with or without a reference level depending on them.)", "quantifier": "all factors, term lists, selections of terms to leave out, data, NA actions and orders of sets", "why_tests_cant": "Compares the designs of all pairs of formulas, one part of the other; tests fix some formulas and their columns.", "anchors": ["patsy/build.py:_make_subterm_infos", "patsy/redundancy.py:pick_contrasts_for_term", "patsy/build.py:design_matrix_builders", "patsy/build.py:build_design_matrices"]}
{"id": "C104", "title": "Only the variables a formula mentions matter, and not what they are kept in", "statement": "If two data objects, possibly of different types (a dict, a structured array, rows of records), have the same values for the names that occur in the text of a formula's factors, and the environments of the two calls have the same values for these names too, then dmatrix, dmatrices, design_matrix_builders (in any number of chunks) and build_design_matrices give exactly the same results on both: the same designs, matrices and labels, or the same exception. Other variables in the data, the order of the variables, and other names in the environment have no effect. It is also enough that a name is found with the same value, be it in the data or, where the data does not have it, in the environment: a variable of the environment can be put into the data, or left out of it, without any effect. The exception: a variable named like one of the objects patsy makes for stateful transforms (_patsy_stobj0__center__) does have an effect without being mentioned.", "quantifier": "all formulas and factor texts (read by Python's parser as some tree), both types of data, all environments, chunkings, NA actions, return types and orders of sets", "why_tests_cant": "Quantifies over all unmentioned variables and over pairs of data types; a test adds one column to one data set.", "anchors": ["patsy/eval.py:EvalFactor._eval", "patsy/eval.py:VarLookupDict", "patsy/build.py:design_matrix_builders", "patsy/build.py:build_design_matrices", "patsy/highlevel.py:dmatrices"]}
{"id": "C105", "title": "NA_action=\"raise\" and NA_action=\"drop\" differ only where something is missing", "statement": "For two NA actions with the same NA types, one that raises and one that drops: the designs are the same; whatever build_design_matrices, dmatrix and dmatrices return with 'raise', they return with 'drop' too; and where they return something with 'drop', 'raise' returns the same, or raises PatsyError(\"factor contains missing values\") with the origin of a factor of the design that has a missing value in the data. In that case the matrices of 'drop' have fewer rows than the data.", "quantifier": "all formulas, model descriptions, designs and explicit matrices, all data, NA types, return types and orders of sets", "why_tests_cant": "Relates two settings on all data sets; a test compares them on a few.", "anchors": ["patsy/missing.py:NAAction.handle_NA", "patsy/build.py:build_design_matrices", "patsy/build.py:design_matrix_builders", "patsy/highlevel.py:dmatrices", "patsy/highlevel.py:dmatrix"]}
{"id": "C106", "title": "Shifting and scaling numeric variables does not change what a hierarchical model predicts", "statement": "Take two designs with the same terms over different numeric variables, where the columns of each numeric factor of the one are an invertible combination of the columns of its counterpart in the other, plus constants: x and center(x), x and standardize(x), metres and feet, or center(x) trained on one data set and on another. If the model is hierarchical (for a term with a factor that something is added to, the rest of the term is in a term too), both designs predict the same: coefficients for the one can be turned into coefficients for the other that give equal predictions on every row of any data, and the other way round. If nothing is added, any model is fine. In general a design can do whatever another can if every term of the other, with any of the shifted factors left out, is in one of its terms. Without the hierarchy it is false: 0 + x and 0 + center(x) differ.", "quantifier": "all designs made by patsy for the terms, from any training data, any number of numeric and categorical factors and columns, all codings with the full rank property, all coefficients and all rows of all matrices built from any data", "why_tests_cant": "Quantifies over all coefficients and all data; a fitted example shows one pair of coefficients on one data set.", "anchors": ["patsy/build.py:design_matrix_builders", "patsy/build.py:build_design_matrices", "patsy/redundancy.py:pick_contrasts_for_term", "patsy/state.py:Center", "patsy/state.py:Standardize"]}
{"id": "C107", "title": "bs() draws exactly the splines on its knots, each in one way", "statement": "Every spline of bs()'s degree on its knots (a polynomial that may change at each inner knot by a multiple of the highest power from there on, and by lower ones where several knots coincide) is a constant plus a combination of the columns of bs(), with the same coefficients for all data; the constant is not needed with include_intercept=True. This holds between the bounds, and at the upper bound unless an inner knot is there. If the inner knots are strictly between the bounds and there are at most degree + 1 in one place, the converse is true too: every such combination is a spline, and different coefficients draw different curves, so the columns are linearly independent, also of the constant without include_intercept.", "quantifier": "all degrees, inner knots in any number, order and multiplicity, bounds, splines, coefficients and data to transform (uniqueness: degrees up to 5, the ones scipy evaluates)", "why_tests_cant": "Quantifies over all splines, all knots and all data; a test evaluates one basis at some points and cannot show that nothing in a whole space of curves is missing.", "anchors": ["patsy/splines.py:BS", "patsy/splines.py:_eval_bspline_basis"]}
{"id": "C108", "title": "te() draws exactly the surfaces made of its margins that meet the constraint, each in one way", "statement": "For any coefficients the columns of te() add up, on every row of any data, to one surface: a weighted sum of all products of one column from each argument, with the same weights for all data, that meets the constraint. Without constraints the coefficients are the weights. Conversely every such surface that meets the constraint is obtained. Different coefficients give different surfaces provided the rows of each argument tell apart its own coefficients, as those of bs() (inner knots between the bounds and not more than degree + 1 in one place), cr() and cc() do. With constraints='center' the constraint is that the surface sums to zero over the training data, however it was split into pieces.", "quantifier": "any number of arguments with any numbers of columns, all coefficients, weights, linearly independent constraints, training data in any pieces, and all new data", "why_tests_cant": "Quantifies over all coefficients, all surfaces and all data.", "anchors": ["patsy/mgcv_cubic_splines.py:TE", "patsy/mgcv_cubic_splines.py:_get_te_dmatrix", "patsy/mgcv_cubic_splines.py:_row_tensor_product", "patsy/mgcv_cubic_splines.py:_absorb_constraints"]}
{"id": "C109", "title": "The units of a variable do not matter to bs(), cr(), cc() and standardize()", "statement": "If every number in the units of a variable is converted by x -> c*x + d with c > 0 (training data, new data, and any knots and bounds given), bs(x, ...) gives the same matrix or fails in the same way, cr(x, ...) and cc(x, ...) give the same matrix with any constraint, standardize(x) gives the same values, and center(x) gives c times the values. With knots chosen by df only the data has to be converted.", "quantifier": "all c > 0 and d, all arguments of bs(), all arguments of cr() with at least three knots and of cc() with at least four, all training data in any pieces, all new data", "why_tests_cant": "Quantifies over all data, arguments and conversions.", "anchors": ["patsy/splines.py:BS", "patsy/splines.py:_eval_bspline_basis", "patsy/mgcv_cubic_splines.py:CubicRegressionSpline", "patsy/mgcv_cubic_splines.py:_get_all_sorted_knots", "patsy/state.py:Standardize", "patsy/state.py:Center"]}
{"id": "C110", "title": "The curves of bs() are local and stay between their coefficients", "statement": "Each column of bs() is zero except between its own knot and the knot degree + 1 places further on, so a coefficient matters only there. With include_intercept=True the value of the curve at any point lies between any bounds of those coefficients that matter at the point.", "quantifier": "all arguments and training data for which the bounds differ, all new data, all coefficients; the second part where no inner knot is at the upper bound or the point is not the upper bound", "why_tests_cant": "Quantifies over all knots, degrees, data and coefficients.", "anchors": ["patsy/splines.py:BS", "patsy/splines.py:_eval_bspline_basis"]}
{"id": "C111", "title": "More knots for bs(), or a higher degree with each knot repeated, only add curves", "statement": "If every inner knot of one bs() is an inner knot of another with the same bounds, at least as often, and as many times more often as the degree of the second is higher, then every curve of the first, with any coefficients, is a curve of the second on all data: the two models are nested. A second bs() without include_intercept needs the intercept of the formula for this.", "quantifier": "all arguments and training data of the two, all new data both accept, all coefficients; inner knots strictly between the bounds in the first and below the upper bound in the second", "why_tests_cant": "Quantifies over all knots, degrees, data and coefficients.", "anchors": ["patsy/splines.py:BS", "patsy/splines.py:_eval_bspline_basis"]}
{"id": "C112", "title": "More knots for cr() and cc() only add curves", "statement": "If every knot of one cr() or cc(), its bounds included, is a knot of another (for cc() with the same bounds), and the second has no constraint or both are centered over the same training data, then for any coefficients of the first there are coefficients of the second that give the same curve on all data: the two models are nested.", "quantifier": "all arguments and training data of the two with at least three knots (four for cc()) in the first, all new data, all coefficients", "why_tests_cant": "Quantifies over all knots, data and coefficients, for all curves.", "anchors": ["patsy/mgcv_cubic_splines.py:CR", "patsy/mgcv_cubic_splines.py:CC"]}
