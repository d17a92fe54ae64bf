{"id": "C01", "title": "is_equiv never lets an error escape", "statement": "For any two arguments, each a string or None, is_equiv returns a bool. No exception raised by the answer parsers or by the symbolic backend (parse errors, assertion failures, timeouts) reaches the caller.", "quantifier": "all pairs of optional Unicode strings; all behaviours of the symbolic backend, including raising at any call; all set iteration orders; all call depths", "why_tests_cant": "Tests sample finitely many strings and only the backend failures they happen to provoke.", "anchors": ["math_evaluation/core/evaluations.py:is_equiv", "math_evaluation/core/evaluations.py:is_latex_equiv", "math_evaluation/core/latex_normalize.py:string_normalize"]}
{"id": "C02", "title": "identical answers are equivalent", "statement": "If two answers are equal after removing surrounding whitespace, is_equiv returns True, and it does so without consulting the symbolic backend.", "quantifier": "all strings and all surrounding whitespace; all backend states", "why_tests_cant": "Requires every string, including malformed LaTeX, to be accepted as equal to itself.", "anchors": ["math_evaluation/core/evaluations.py:is_equiv"]}
{"id": "C03", "title": "missing answers", "statement": "is_equiv(None, None) is True; if exactly one side is None the result is False.", "quantifier": "all strings on the other side; all backend states", "why_tests_cant": "The other argument ranges over every string.", "anchors": ["math_evaluation/core/evaluations.py:is_equiv"]}
{"id": "C04", "title": "equal normal forms are equivalent", "statement": "If string_normalize maps both answers to the same string then is_equiv returns True.", "quantifier": "all pairs of strings with string normal forms; all backend states", "why_tests_cant": "Universally quantified over inputs and over the normalizer's output.", "anchors": ["math_evaluation/core/evaluations.py:is_equiv", "math_evaluation/core/latex_normalize.py:string_normalize"]}
{"id": "C05", "title": "an empty prediction is never accepted for a non-empty answer", "statement": "If the prediction normalizes to the empty string and the ground truth does not (and the raw strings differ), is_equiv returns False.", "quantifier": "all such pairs; all backend behaviours", "why_tests_cant": "A backend that answers True to everything would still have to be overruled; tests use one backend.", "anchors": ["math_evaluation/core/evaluations.py:is_latex_equiv"]}
{"id": "C06", "title": "answers with several readings: any reading may match", "statement": "When an answer has several readings (degrees, percent, pm times, based numerals), is_equiv returns True exactly when some reading of the ground truth is equivalent to some reading of the prediction, independently of the order in which Python iterates the sets, provided no pair comparison raises.", "quantifier": "all pairs of readings, all iteration orders, all deterministic backends", "why_tests_cant": "Hash randomisation changes the iteration order between runs; a test observes one order.", "anchors": ["math_evaluation/core/evaluations.py:is_equiv", "math_evaluation/core/latex_normalize.py:string_normalize"]}
{"id": "C07", "title": "ordered sequences compare element by element", "statement": "Two answers that split as the same kind of ordered sequence (both [..] or both (..)) with the same number n >= 2 of elements are accepted by the sequence rule exactly when the i-th elements are equivalent for every i.", "quantifier": "all sequences of any length; all element verdicts and backend states", "why_tests_cant": "Length and element verdicts are unbounded.", "anchors": ["math_evaluation/core/evaluations.py:is_equiv_possible_tuple", "math_evaluation/core/latex_normalize.py:split_tuple"]}
{"id": "C08", "title": "unordered answers: acceptance implies a one-to-one matching", "statement": "If two unordered answers (comma lists) are accepted by the sequence rule, then there is a one-to-one matching of the ground-truth elements to prediction elements in which every matched pair is equivalent; unless the prediction has an element equal to \\in, the matching covers the prediction too.", "quantifier": "all element lists, all iteration orders, all element verdicts", "why_tests_cant": "Depends on every iteration order and every equivalence pattern between elements.", "anchors": ["math_evaluation/core/evaluations.py:is_equiv_possible_tuple"]}
{"id": "C09", "title": "unordered answers: the greedy matching is complete and order independent for transitive verdicts", "statement": "If element equivalence is an equivalence relation, two unordered answers of the same size are accepted exactly when a one-to-one matching exists, whatever the set iteration order. Without transitivity (the tolerance comparison is not transitive) this fails: there are element verdicts for which two runs differing only in iteration order give different answers.", "quantifier": "all element lists and sizes, all iteration orders, all equivalence relations between elements", "why_tests_cant": "Needs every permutation of every set and every relation.", "anchors": ["math_evaluation/core/evaluations.py:is_equiv_possible_tuple"]}
{"id": "C10", "title": "bracket kind and arity are significant", "statement": "If two answers whose normal forms contain no matrix split into sequences of different kinds (list, tuple, set), or of different lengths while the prediction has no element equal to \\in, the sequence rule rejects the pair and is_equiv does not fall back on the symbolic backend for it; only the interval rule, tried first when the ground truth has brackets, can still accept it.", "quantifier": "all pairs of answers that split; all backends", "why_tests_cant": "Quantifies over all sequences and over backends that would say True.", "anchors": ["math_evaluation/core/evaluations.py:is_equiv_possible_tuple", "math_evaluation/core/evaluations.py:is_latex_equiv"]}
{"id": "C11", "title": "finding: an \\in element disables the arity check", "statement": "If the prediction has an element equal to \\in, ordered sequences of different lengths are compared only on their common prefix: a prediction with extra elements is accepted as soon as its prefix matches.", "quantifier": "all ordered sequences with a matching prefix and an \\in element", "why_tests_cant": "The violation is an unbounded family of inputs, none of which is in the test-suite.", "anchors": ["math_evaluation/core/evaluations.py:is_equiv_possible_tuple"]}
{"id": "C12", "title": "matrices compare entry by entry and shapes must agree", "statement": "When the matrix rule applies and both answers split into rows, it accepts exactly when the number of rows agree, the rows have the same length and all corresponding entries are equivalent.", "quantifier": "all matrices of any dimension; all entry verdicts", "why_tests_cant": "Dimensions and entries are unbounded.", "anchors": ["math_evaluation/core/evaluations.py:is_equiv_possible_matrix", "math_evaluation/core/latex_normalize.py:split_matrix"]}
{"id": "C13", "title": "is_equiv terminates", "statement": "For every pair of strings the recursion of is_equiv through tuples and matrices ends: at most 400 times the total length of the two strings calls are nested, whatever would happen in a deeper call is never reached, a larger stack changes nothing, and the recursion equation of the source has exactly one solution. The engine's printout of an integer literal is assumed to be the text itself, a number, or an expression with one E if the text contains e.", "quantifier": "all pairs of strings, all backends and states", "why_tests_cant": "A test that hangs or hits the recursion limit is only found if its input is guessed.", "anchors": ["math_evaluation/core/evaluations.py:is_equiv", "math_evaluation/core/evaluations.py:is_equiv_possible_tuple", "math_evaluation/core/latex_normalize.py:string_normalize"]}
{"id": "C14", "title": "interrupts during a comparison are swallowed", "statement": "Any exception raised while the symbolic backend compares two answers, including KeyboardInterrupt and SystemExit, is turned into a False verdict by are_equal_under_sympy; the caller of is_equiv never sees it.", "quantifier": "all exceptions (Exception or BaseException), every point of the comparison at which they occur", "why_tests_cant": "The crash point ranges over every backend call.", "anchors": ["math_evaluation/core/latex_parser.py:are_equal_under_sympy", "math_evaluation/core/latex_normalize.py:_str_to_interval"]}
{"id": "C15", "title": "split_tuple rejects exactly the unbalanced strings", "statement": "split_tuple raises AssertionError exactly when the number of opening brackets ( [ { differs from the number of closing brackets after thousands separators are stripped, and raises nothing else; it does not check nesting, so )( is accepted.", "quantifier": "all strings, both values of expected_type", "why_tests_cant": "All strings.", "anchors": ["math_evaluation/core/latex_normalize.py:split_tuple"]}
{"id": "C16", "title": "splitting a joined sequence gives the elements back", "statement": "For any list of at least two elements that are bracket-balanced (nested properly if outer brackets are added), free of top-level commas, whose last element is not empty and whose joined text has no digit groups that look like thousands separators, split_tuple of the comma-joined list returns them in order, trimmed: as a list inside [ ], a tuple inside ( ), a set inside { } or bare.", "quantifier": "all element lists of any length, all three bracket kinds", "why_tests_cant": "Round-trip over unbounded lists and nesting.", "anchors": ["math_evaluation/core/latex_normalize.py:split_tuple"]}
{"id": "C17", "title": "outer brackets are dropped only when they match each other", "statement": "split_tuple removes the first and last characters only if they are a matching pair of the same kind enclosing the whole string; what is left is cut exactly at its commas outside brackets, and returned unchanged apart from thousands separators if that gives fewer than two pieces.", "quantifier": "all strings", "why_tests_cant": "All strings.", "anchors": ["math_evaluation/core/latex_normalize.py:split_tuple"]}
{"id": "C18", "title": "thousands separators", "statement": "Writing any natural number with a comma between three-digit groups, between any texts without digits, and stripping properly formatted commas gives back its plain decimal digits; with a space after the comma the comma goes and the space stays; strings without such a group are unchanged. Finding: a pair such as (1,234) is merged into the single number 1234.", "quantifier": "all natural numbers of any size; all strings without a group", "why_tests_cant": "Unbounded numbers and digit groupings.", "anchors": ["math_evaluation/core/latex_normalize.py:_strip_properly_formatted_commas"]}
{"id": "C19", "title": "matrix splitting is a round-trip", "statement": "For any m x n table of cells (m,n >= 1, cells free of &, \\\\ and matrix delimiters) split_matrix of its LaTeX matrix environment returns the table: a list of rows for m,n >= 2, a flat list for a single row or column, the cell itself for 1 x 1.", "quantifier": "all dimensions and cell contents", "why_tests_cant": "Unbounded dimensions.", "anchors": ["math_evaluation/core/latex_normalize.py:split_matrix"]}
{"id": "C20", "title": "integer literals are in normal form", "statement": "string_normalize leaves the decimal form of every integer of absolute value at most 2^53 unchanged.", "quantifier": "all integers n with |n| <= 2^53", "why_tests_cant": "2^54+1 inputs.", "anchors": ["math_evaluation/core/latex_normalize.py:string_normalize", "math_evaluation/core/latex_normalize.py:further_string_normalize"]}
{"id": "C21", "title": "finding: large integers are conflated through floats", "statement": "Beyond 2^53 the normalizer rounds integer literals to a float, so is_equiv accepts distinct integers (9007199254740993 and 9007199254740992) as equal without consulting the symbolic backend.", "quantifier": "existential witness plus the exact boundary of the previous property, all backends", "why_tests_cant": "Tests use small integers.", "anchors": ["math_evaluation/core/latex_normalize.py:further_string_normalize", "math_evaluation/core/latex_normalize.py:_is_int"]}
{"id": "C22", "title": "numerals in other bases", "statement": "For every base b from 2 to 9 (written _b or _{b}) and 10 or more (written _{b}) and every natural number n whose base-b digits are all below 10, normalizing the base-b numeral yields exactly two readings: the digit string itself and the decimal form of n. Digits are not validated against the base.", "quantifier": "all n, all bases, both spellings", "why_tests_cant": "Unbounded numerals.", "anchors": ["math_evaluation/core/latex_normalize.py:_str_to_decimal", "math_evaluation/core/latex_normalize.py:_string_normalize"]}
{"id": "C23", "title": "percentages have two readings", "statement": "If removing the percent signs (escaped or not) from an answer leaves a float literal x, the readings are exactly the printed floats x/100 and x; the first is within one rounding of the hundredth of the second.", "quantifier": "all strings containing a percent sign", "why_tests_cant": "All literals.", "anchors": ["math_evaluation/core/latex_normalize.py:_string_normalize"]}
{"id": "C24", "title": "mixed numbers", "statement": "For natural numbers a, b, c (c > 0) the normal form of the mixed number 'a b/c' or 'a\\frac{b}{c}' evaluates to a + b/c. Finding: for a negative mixed number -a b/c the normal form evaluates to -a + b/c, which is not the negated mixed number unless b = 0.", "quantifier": "all natural a, b, c", "why_tests_cant": "Infinite family of numbers.", "anchors": ["math_evaluation/core/latex_normalize.py:_inject_implicit_mixed_number"]}
{"id": "C25", "title": "float literals in scientific notation keep seven digits", "statement": "An integer-valued literal containing e is normalized to d.dddddd*10^{e} holding only 7 significant digits, so literals that agree to 7 digits are conflated: there are distinct such literals accepted as equal.", "quantifier": "all backends; existential witness", "why_tests_cant": "Tests do not compare nearby literals.", "anchors": ["math_evaluation/core/latex_normalize.py:float_to_latex_scientific"]}
{"id": "C26", "title": "clock times", "statement": "hh:mm and hh:mm:ss with optional am/pm normalize to [h, m] or [h, m, s] (just h when the rest is zero); with pm there are two readings, h mod 12 and h mod 12 + 12. Finding: consequently a pm time is equivalent to the am time with the same digits.", "quantifier": "all hours, minutes, seconds of the accepted shape", "why_tests_cant": "All times and spellings.", "anchors": ["math_evaluation/core/latex_normalize.py:_str_to_time_list"]}
{"id": "C27", "title": "units are dropped", "statement": "For every integer literal n with at least three digits or unit other than am/pm, and every unit u of the unit tables, n\\text{u}, n\\text{ us} and (for multi-letter units) 'n u' normalize to n.", "quantifier": "all integers n with |n| <= 2^53, all units in the tables", "why_tests_cant": "All integers times all units.", "anchors": ["math_evaluation/core/latex_normalize.py:_string_normalize", "math_evaluation/core/constants.py:UNIT_LIST"]}
{"id": "C28", "title": "shape of normal forms", "statement": "Whenever string_normalize returns a string computed by the pipeline (it did not fall back on the raw input), that string contains no space, no dollar sign, no percent sign, no upper-case ASCII letter and no BEL, BS, FF, TAB or CR character.", "quantifier": "all input strings (given that integer re-printing introduces none of them)", "why_tests_cant": "All strings.", "anchors": ["math_evaluation/core/latex_normalize.py:_string_normalize", "math_evaluation/core/latex_normalize.py:further_string_normalize"]}
{"id": "C29", "title": "string_normalize never raises and terminates", "statement": "string_normalize returns a string or a set of one or two strings for every string and None for None. It falls back on the raw (possibly unwrapped) input only for set-builder text whose condition part is empty.", "quantifier": "all strings", "why_tests_cant": "All strings.", "anchors": ["math_evaluation/core/latex_normalize.py:string_normalize", "math_evaluation/core/latex_normalize.py:_string_normalize"]}
{"id": "C30", "title": "finding: normalization is not idempotent", "statement": "There is an answer whose normal form is not a fixed point of string_normalize: wrapping in $...$ hides \\text{...} from the unwrapping step.", "quantifier": "existential witness", "why_tests_cant": "A test would need to guess the input.", "anchors": ["math_evaluation/core/latex_normalize.py:_string_normalize"]}
{"id": "C31", "title": "enclosing \\text and set-builder wrappers are transparent", "statement": "string_normalize(\\text{s}) and (\\mbox{s}) equal string_normalize(s) for every s that is non-empty and does not start with whitespace; string_normalize(\\{x | s\\}) equals string_normalize(s) for non-empty s without |.", "quantifier": "all wrapped strings s (not subject to matrix back-slash rewriting)", "why_tests_cant": "All strings.", "anchors": ["math_evaluation/core/latex_normalize.py:_string_normalize"]}
{"id": "C32", "title": "are_equal_under_sympy is total and boolean", "statement": "are_equal_under_sympy returns True or False for every pair of strings whatever the parsers and the symbolic backend do.", "quantifier": "all strings, all backend behaviours incl. exceptions, timeouts, non-boolean results", "why_tests_cant": "All backend behaviours.", "anchors": ["math_evaluation/core/latex_parser.py:are_equal_under_sympy", "math_evaluation/core/latex_parser.py:are_equal_with_simplify"]}
{"id": "C33", "title": "which pair of parses decides", "statement": "are_equal_under_sympy returns True exactly when, scanning the up to 3 x 3 pairs of parses in row-major order, some pair compares truthy before any pair raises. Finding: an exception in an early pair hides a later matching pair.", "quantifier": "all parse results and comparison outcomes", "why_tests_cant": "All combinations of parse outcomes and failures.", "anchors": ["math_evaluation/core/latex_parser.py:are_equal_with_simplify", "math_evaluation/core/latex_parser.py:_sympy_parse"]}
{"id": "C34", "title": "symbolic vectors compare pointwise", "statement": "Two symbolic vectors are equal exactly when they have the same length and all components compare equal; a vector never equals a set.", "quantifier": "all lengths and components (comparisons that do not raise)", "why_tests_cant": "Unbounded.", "anchors": ["math_evaluation/core/latex_parser.py:_are_equal_latex_sympy"]}
{"id": "C35", "title": "symbolic sets compare by covering, not by matching", "statement": "Two symbolic sets are accepted exactly when they have the same size and every ground-truth element equals some prediction element. Finding: the prediction may contain unmatched elements, so the relation is not symmetric.", "quantifier": "all sets and element verdicts, all iteration orders", "why_tests_cant": "Unbounded sets, all orders.", "anchors": ["math_evaluation/core/latex_parser.py:_are_equal_latex_sympy"]}
{"id": "C36", "title": "inequalities", "statement": "A strict inequality never equals a non-strict one; inequalities of the same strictness are compared by comparing (smaller side - larger side), so flipping an inequality around does not change the verdict.", "quantifier": "all inequalities, all backends", "why_tests_cant": "All expressions.", "anchors": ["math_evaluation/core/latex_parser.py:_are_equal_latex_sympy", "math_evaluation/core/latex_parser.py:_ineq_to_expr"]}
{"id": "C37", "title": "finding: not-equal relations are never accepted symbolically", "statement": "Comparing any two relations at least one of which is a != b, or of mixed strictness, raises inside the comparison, for every a, b: such a pair is never accepted.", "quantifier": "all relations of that kind, all backends", "why_tests_cant": "The failing call is unconditional, tests contain no != answer.", "anchors": ["math_evaluation/core/latex_parser.py:_are_equal_latex_sympy", "math_evaluation/core/latex_parser.py:_uneq_to_set"]}
{"id": "C38", "title": "equations compare up to sign; function definitions by right-hand side", "statement": "Two equations are equal exactly when the differences lhs - rhs compare equal or compare equal after negating the first; if either side is a function definition, the defined names are ignored and only right-hand sides are compared.", "quantifier": "all equations, all backends", "why_tests_cant": "All expressions.", "anchors": ["math_evaluation/core/latex_parser.py:_are_equal_latex_sympy", "math_evaluation/core/latex_parser.py:_get_sympy_type"]}
{"id": "C39", "title": "numeric tolerance", "statement": "For exact numbers, a difference d is accepted against ground truth g exactly when d = 0, or g is an integer object and |d| < 1e-3, or g is not an integer object and |g| >= 1 and |d| < 5e-3 or 0 < |g| < 1 and |d/g| < 1e-3. In particular the verdict is not symmetric in ground truth and prediction and not transitive.", "quantifier": "all rational g and d", "why_tests_cant": "Real-valued boundary conditions.", "anchors": ["math_evaluation/core/latex_parser.py:_diff_equal"]}
{"id": "C40", "title": "random testing has no false negatives", "statement": "If two expressions with the same free symbols evaluate to identical numbers under every assignment then the sampling test accepts for every outcome of the random generator; it draws at most 10 assignments and rejects at once if the free symbols differ.", "quantifier": "all random generator outcomes (histories), all expressions", "why_tests_cant": "The verdict depends on random draws.", "anchors": ["math_evaluation/core/latex_parser.py:_numerical_equal"]}
{"id": "C41", "title": "row and column vectors are interchangeable", "statement": "A flat list of n entries compares equal to an n x 1 or 1 x n matrix exactly when the entries compare equal in order; lists whose shape fits neither way are rejected without an error.", "quantifier": "all n and entries", "why_tests_cant": "Unbounded sizes.", "anchors": ["math_evaluation/core/latex_parser.py:_list_to_mat", "math_evaluation/core/latex_parser.py:_are_equal_latex_sympy"]}
{"id": "C42", "title": "is_equiv_type without a recognised type hint is is_equiv", "statement": "If the type hint contains none of Complex, Set, Vector, Function, is_equiv_type behaves exactly like is_equiv. With any hint, if is_equiv accepts and no check raises, is_equiv_type accepts.", "quantifier": "all hints, all strings, all backends", "why_tests_cant": "All hints and strings.", "anchors": ["math_evaluation/core/type_evaluations.py:is_equiv_type"]}
{"id": "C43", "title": "finding: Set and Vector hints accept everything", "statement": "If the type hint contains Vector or Set (and not Complex), then is_equiv_type returns True for all answers whose normal forms are bracket-balanced strings, however different they are, because the check returns a non-empty tuple.", "quantifier": "all such answers, all backends", "why_tests_cant": "Universal over answers.", "anchors": ["math_evaluation/core/type_evaluations.py:is_equiv_type", "math_evaluation/core/type_evaluations.py:is_equiv_vector", "math_evaluation/core/type_evaluations.py:is_equiv_set"]}
{"id": "C44", "title": "finding: is_equiv_type is not total", "statement": "is_equiv_type raises TypeError for the default type hint None on every input, and AttributeError for Vector, Set, Complex hints whenever an answer has several readings.", "quantifier": "all answers", "why_tests_cant": "Universal over answers.", "anchors": ["math_evaluation/core/type_evaluations.py:is_equiv_type"]}
{"id": "C45", "title": "answer-type query is bounded and returns the first usable reply", "statement": "get_llm_type calls the model at most max_try times; it returns the type extracted from the first reply that contains one, having made exactly that many calls, and None when no reply does; errors of the model never escape.", "quantifier": "all sequences of replies and failures, all max_try", "why_tests_cant": "All histories of replies.", "anchors": ["math_evaluation/llms/llm_models.py:get_llm_type"]}
{"id": "C46", "title": "the answer is always shown to the model between two dollar signs", "statement": "The prompt built by get_llm_type is the fixed template with the question and the answer inserted verbatim, where the answer has been wrapped so that it starts and ends with $ and has exactly two $; wrapping is idempotent and already wrapped answers are untouched.", "quantifier": "all questions and answers", "why_tests_cant": "All strings, including ones with braces or dollar signs.", "anchors": ["math_evaluation/llms/llm_models.py:get_llm_type", "math_evaluation/llms/prompts.py:prompt_template"]}
{"id": "C47", "title": "extracting a boxed answer", "statement": "extract_boxed returns x for every output of the form p\\boxed{x}t with non-empty p, no \\boxed{ in x or t and no } in t, and None when there is no box. Findings: it returns None when the box is at the very start, includes trailing text up to the last }, and drops the last character of an unclosed box.", "quantifier": "all p, x, t", "why_tests_cant": "All strings.", "anchors": ["example_tora_eval.py:extract_boxed"]}
{"id": "C48", "title": "alternative ground truths", "statement": "is_equiv_MATH with a list of ground truths returns True exactly when is_equiv accepts one of them, trying them in order and stopping at the first success; the empty list is rejected.", "quantifier": "all lists and verdicts", "why_tests_cant": "Unbounded lists.", "anchors": ["demo.py:is_equiv_MATH"]}
{"id": "C49", "title": "accuracy script", "statement": "The reported number is the number of outputs whose extracted box is present and accepted against the annotation of the same question, divided by the number of outputs; it lies between 0 and 1; when two annotations share a question the later one is used.", "quantifier": "all data files", "why_tests_cant": "All datasets.", "anchors": ["example_tora_eval.py"]}
{"id": "C50", "title": "latex2sympy variable values do not leak between calls", "statement": "The values substituted for \\variable{..} in a call of latex2sympy are those passed to that call: the result does not depend on the values passed to earlier calls, \\variable{a} alone converts to the value passed for a, and as long as no parsed text contains a derivative fraction the values are still in place after the call. Finding: a derivative fraction clears them, so a variable converted after it, in the same call, is left symbolic.", "quantifier": "all histories of calls", "why_tests_cant": "History dependent.", "anchors": ["latex2sympy/latex2sympy2.py:latex2sympy", "latex2sympy/latex2sympy2.py:convert_frac"]}
{"id": "C51", "title": "latex2sympy results depend on earlier matrix declarations", "statement": "Between two histories of calls ending with the same declared matrix symbols, the results of a call, when both return, are equal. What a call returns in a fresh process it returns after every history that declares nothing. Declarations do change results. Finding: the converse fails: flags set by derivative fractions survive the call, and a text that raises in a fresh process can return after one.", "quantifier": "all histories of calls", "why_tests_cant": "History dependent.", "anchors": ["latex2sympy/latex2sympy2.py:convert_relation", "latex2sympy/latex2sympy2.py:convert_atom"]}
{"id": "C52", "title": "conversion preserves the value of arithmetic parse trees", "statement": "For every parse tree built from numbers (with commas or percent), symbols, constants, variables, + - * / unary signs, juxtaposition, fractions, powers, roots, absolute values, floor, ceiling, factorials, groups, trigonometric functions with their powers and inverses, logarithms and exp, the conversion returns an expression whose value, under every valuation, is the value of the parse tree under the usual reading.", "quantifier": "all parse trees of any depth, all valuations", "why_tests_cant": "Unbounded trees.", "anchors": ["latex2sympy/latex2sympy2.py:convert_add", "latex2sympy/latex2sympy2.py:convert_mp", "latex2sympy/latex2sympy2.py:convert_unary", "latex2sympy/latex2sympy2.py:add_flat", "latex2sympy/latex2sympy2.py:mul_flat"]}
{"id": "C53", "title": "finding: negated matrices and elementary transformations are rejected", "statement": "A text whose parse contains, anywhere it is evaluated, a unary minus applied to a matrix, something minus a product with a matrix, or a matrix with an elementary transformation is rejected with an exception, in every state.", "quantifier": "all such parse trees", "why_tests_cant": "Universal over trees.", "anchors": ["latex2sympy/latex2sympy2.py:convert_unary", "latex2sympy/latex2sympy2.py:mat_mul_flat", "latex2sympy/latex2sympy2.py:convert_elementary_transform"]}
{"id": "C54", "title": "interval unions and intersections", "statement": "For a union of intersections of intervals with numeric end points, the set compared by is_equiv is the union over the \\cup parts of the intersection of their \\cap parts, as long as no proper prefix of an intersection is empty. Finding: if an intermediate intersection is empty it is forgotten and replaced by the next interval.", "quantifier": "all expressions of any length, all end points", "why_tests_cant": "Unbounded expressions.", "anchors": ["math_evaluation/core/latex_normalize.py:_str_to_interval"]}
{"id": "C55", "title": "function hints compare right-hand sides", "statement": "With the hint Function (and none of Complex, Set, Vector), is_equiv_type accepts exactly when is_equiv accepts the two answers or accepts what remains after dropping everything up to the first = of each normal form; the left-hand side is dropped only if it is not empty and parses.", "quantifier": "all answers with string normal forms; all deterministic verdicts and parsers", "why_tests_cant": "the claim covers every answer and every behaviour of the parser on left-hand sides, including failures", "anchors": ["math_evaluation/core/type_evaluations.py:56-93", "math_evaluation/core/type_evaluations.py:142-172"]}
{"id": "C56", "title": "finding: digit groups are merged", "statement": "Whenever the decimal literal of an integer z with |z| <= 2^53 is cut in two non-empty groups of digits separated by one or more spaces, the result normalizes to z; hence any two such groupings are judged equivalent ('1 23' and '12 3').", "quantifier": "all integers |z| <= 2^53, all cut points, all numbers of spaces, all backends", "why_tests_cant": "unbounded family of inputs, every backend", "anchors": ["math_evaluation/core/latex_normalize.py:_further_normalize"]}
{"id": "C57", "title": "finding: a letter before \\infty is dropped", "statement": "The membership pattern [a-zA-Z]+\\s*\\\\in also fires inside \\infty: for all ASCII letters c and d, c\\infty and d\\infty are judged equivalent, whatever the backend.", "quantifier": "all pairs of ASCII letters, all backends and states", "why_tests_cant": "holds for every backend", "anchors": ["math_evaluation/core/latex_normalize.py:328"]}
{"id": "C58", "title": "finding: units are removed inside words", "statement": "Unit removal is not delimited by word boundaries: there are words whose normal form has lost letters, and distinct answers judged equivalent for that reason, whatever the backend.", "quantifier": "existential witness, all backends", "why_tests_cant": "holds for every backend", "anchors": ["math_evaluation/core/latex_normalize.py:355-364"]}
{"id": "C59", "title": "finding: the strict tolerance for integers is dead code", "statement": "Two exact numbers compared symbolically are accepted exactly when equal, or g = 0 and |v| < 1e-3, or |g| >= 1 and |g - v| < 5e-3, or 0 < |g| < 1 and |(g - v)/g| < 1e-3: the ground truth is turned into a float before the tolerance is chosen, so every non-zero integer gets the loose bound 5e-3.", "quantifier": "all rational numbers, all backends that compute exactly", "why_tests_cant": "all pairs of numbers", "anchors": ["math_evaluation/core/latex_parser.py:259-283", "math_evaluation/core/latex_parser.py:409-450"]}
{"id": "C60", "title": "symbolic matrices compare entry by entry", "statement": "Two symbolic matrices are accepted exactly when they have the same shape and every pair of corresponding entries is accepted.", "quantifier": "all shapes and entries (comparisons that do not raise)", "why_tests_cant": "all shapes", "anchors": ["math_evaluation/core/latex_parser.py:349-362"]}
{"id": "C61", "title": "complex numbers compare by parts", "statement": "Two complex expressions are accepted exactly when the real parts are accepted and the imaginary parts are accepted.", "quantifier": "all expressions, all backends (comparisons that do not raise)", "why_tests_cant": "all backends", "anchors": ["math_evaluation/core/latex_parser.py:382-392"]}
{"id": "C62", "title": "a round bracket inside an end point opens the interval", "statement": "If an end point of a written interval contains '(', the interval read excludes its lower end, even if it was written with '['. (Finding: the bracket test looks at the whole text.)", "quantifier": "all intervals, all faithful backends", "why_tests_cant": "all texts", "anchors": ["math_evaluation/core/latex_normalize.py:126-158"]}
{"id": "C63", "title": "an upper end just below a positive integer is moved down", "statement": "If the upper end is z - d for a positive integer z and 0 < d <= 1e-7, the interval read ends at z - 1. (Finding: the end point is taken for an integer with tolerance but converted by truncation.)", "quantifier": "all z, d, lower ends, faithful backends", "why_tests_cant": "all values", "anchors": ["math_evaluation/core/latex_normalize.py:126-158"]}
{"id": "C64", "title": "the interval rule decides equality of the written sets", "statement": "For two texts denoting unions of intersections of intervals, the interval rule of is_equiv is conclusive and answers whether the two sets are equal, if the comparison of sets does; and it answers True only for equal sets if the comparison does so only for equal sets.", "quantifier": "all texts of any length, all faithful backends", "why_tests_cant": "unbounded expressions", "anchors": ["math_evaluation/core/evaluations.py:82-97", "math_evaluation/core/latex_normalize.py:126-158"]}
{"id": "C65", "title": "finding: a zero exponent on a function is ignored", "statement": "If f x converts to v and the exponent to a falsy number (zero), then f^{e} x converts to v, not to 1; likewise for max, min, gcd and lcm.", "quantifier": "all functions, arguments, exponents, states", "why_tests_cant": "Universal over texts and states.", "anchors": ["latex2sympy/latex2sympy2.py:convert_func"]}
{"id": "C66", "title": "finding: scripts of the letter I are dropped", "statement": "The letter I with any subscript and any exponent converts to the imaginary unit itself: I^{2} is I, not -1.", "quantifier": "all subscripts and exponents, states, values", "why_tests_cant": "Universal over texts and states.", "anchors": ["latex2sympy/latex2sympy2.py:convert_atom"]}
{"id": "C67", "title": "finding: the derivative of zero is read as a fraction", "statement": "If the text under the differential converts to something falsy (zero), the derivative fraction is converted as the ordinary quotient of the numerator and denominator texts, with d and dx as symbols.", "quantifier": "all derivative fractions, states", "why_tests_cant": "Universal over texts and states.", "anchors": ["latex2sympy/latex2sympy2.py:convert_frac"]}
{"id": "C68", "title": "finding: arguments of max, min, gcd, lcm are cut at every comma", "statement": "The arguments of the multi-argument functions are the pieces of the text between the parentheses cut at every comma; a piece that does not parse (from a nested call or a tuple) rejects the whole text, and without parentheses the text is rejected.", "quantifier": "all argument texts of any length, states", "why_tests_cant": "Universal over texts and states.", "anchors": ["latex2sympy/latex2sympy2.py:convert_func"]}
{"id": "C69", "title": "finding: plain Python numbers as variable values are rejected", "statement": "If the value passed for a variable is a plain Python number, and no parsed text has a derivative fraction, every text that evaluates the variable is rejected, in every state.", "quantifier": "all texts, positions of the variable, states", "why_tests_cant": "Universal over texts and states.", "anchors": ["latex2sympy/latex2sympy2.py:convert_atom"]}
{"id": "C70", "title": "finding: tuples and dicts in products", "statement": "A juxtaposition whose first factor converts to a tuple or dict converts to it and drops all other factors, unconverted; one with a tuple or dict as second factor after a number raises.", "quantifier": "all products of any length, states", "why_tests_cant": "Universal over texts and states.", "anchors": ["latex2sympy/latex2sympy2.py:convert_postfix_list"]}
{"id": "C71", "title": "finding: the fraction command printed by latex2latex depends on earlier calls", "statement": "There is a text without a fraction command for which latex2latex prints different texts depending on the calls made before.", "quantifier": "exists", "why_tests_cant": "History dependent.", "anchors": ["latex2sympy/latex2sympy2.py:latex", "latex2sympy/latex2sympy2.py:latex2sympy"]}
{"id": "C72", "title": "Plain algebraic text is its own normal form, and the engine alone decides it", "statement": "A text over digits, operators, brackets, commas and letters that occur in no complete unit name or word known to the normaliser, with at least one character of no numeral, is returned unchanged by string_normalize. For two different such texts without brackets and commas is_equiv is exactly one call of the symbolic comparison on the two texts, with its verdict and its state.", "quantifier": "all texts over the alphabet, all backends and states", "why_tests_cant": "Some forty rewriting steps must each be shown to leave every such text alone.", "anchors": ["math_evaluation/core/latex_normalize.py:string_normalize", "math_evaluation/core/evaluations.py:is_equiv", "math_evaluation/core/evaluations.py:is_latex_equiv"]}
{"id": "C73", "title": "Deeply nested equal answers are rejected when the stack is too small", "statement": "For pairs nested k deep whose innermost elements the engine calls equal, is_equiv answers True when more than k calls fit on the stack and False otherwise: the RecursionError is swallowed and reported as inequality.", "quantifier": "all nesting depths, all stack sizes, all backends that call x and w equal", "why_tests_cant": "Every fixed test has a fixed depth.", "anchors": ["math_evaluation/core/evaluations.py:is_equiv", "math_evaluation/core/evaluations.py:is_equiv_possible_tuple"]}
{"id": "C74", "title": "The lexer cuts text into longest matches", "statement": "If the lexer accepts a text, the text is a sequence of tokens and of dropped pieces (blanks, tabs, line ends, \\$), and each is the longest text of any lexer rule at its place, of the earliest such rule. This determines the cut. If it rejects a text, at some place no rule matches a non-empty text.", "quantifier": "all texts", "why_tests_cant": "Some 200 rules compete at every position; the set of texts is infinite.", "anchors": ["latex2sympy/PS.g4:7-350"]}
{"id": "C75", "title": "Braces balance in accepted LaTeX", "statement": "In every token sequence that the grammar accepts there are as many opening as closing braces, and no prefix has more closing than opening ones. The model leaves the question open only if a subscript or an elementary transformation occurs.", "quantifier": "all token sequences", "why_tests_cant": "The grammar is recursive; every rule has to keep the balance.", "anchors": ["latex2sympy/PS.g4:351-640"]}
{"id": "C76", "title": "Written arithmetic is read with the usual precedence", "statement": "For every arithmetic expression over numerals, decimals, percentages, symbols, pi, the binary operators, minus, scaling, factorial, powers, exp, fractions, binomials, roots, absolute value, floor, ceiling, functions, products without a sign and superfluous parentheses, its LaTeX text, with and without spaces, with the parentheses that the usual precedence needs (and around a factor that would otherwise run together with the next one), is accepted by the grammar, and the parse tree reads as the expression: left association, products before sums, powers before products.", "quantifier": "all expressions of any size, all arithmetics", "why_tests_cant": "The grammar is ambiguous; correctness rests on which alternative is taken first in every context.", "anchors": ["latex2sympy/PS.g4:376-640"]}
{"id": "C77", "title": "latex2sympy gives written arithmetic its value", "statement": "The preparation regexes leave the LaTeX text of an arithmetic expression unchanged, and latex2sympy of it returns a value worth the expression, if SymPy's constructors compute what they are named for and the generated parser follows the grammar.", "quantifier": "all expressions of any size, all faithful backends, all states without variances", "why_tests_cant": "End to end over preparation, lexer, parser and converter for unboundedly large expressions.", "anchors": ["latex2sympy/latex2sympy2.py:latex2sympy", "latex2sympy/PS.g4:7-640"]}
{"id": "C78", "title": "The letter d swallows what follows (finding)", "statement": "d followed by any letter is read as one differential, a single symbol; c\\cdot d is a product of c and d but d\\cdot c is a product of the symbol d\\cdot and c.", "quantifier": "all letters; one pair of texts", "why_tests_cant": "The lexer rule for differentials is longer than the letter rule for every continuation.", "anchors": ["latex2sympy/PS.g4:160"]}
{"id": "C79", "title": "The letter E is no expression (finding)", "statement": "A single Latin letter is accepted by the grammar exactly if it is not E.", "quantifier": "all Latin letters", "why_tests_cant": "Tests of variables rarely use E.", "anchors": ["latex2sympy/PS.g4:161-165"]}
{"id": "C80", "title": "x(y) is an application, x(y+0) a product (finding)", "statement": "For all letters x and y except d, e, E, I, T: x(y) is read as the function x applied to y, x(y+0) as x times y+0.", "quantifier": "all pairs of letters", "why_tests_cant": "Depends on the order of alternatives for every pair of letters.", "anchors": ["latex2sympy/PS.g4:593-630"]}
{"id": "C81", "title": "A function name takes the following product (finding)", "statement": "For every function name f and all letters x, y: \\f x\\cdot y is read as f(x y), \\f(x)\\cdot y as f(x) y, and \\f x+y as f(x)+y.", "quantifier": "all function names and pairs of letters", "why_tests_cant": "A choice inside the grammar that every function inherits.", "anchors": ["latex2sympy/PS.g4:593-604"]}
{"id": "C82", "title": "Sums, products, limits, integrals, derivatives and evaluations have their usual value", "statement": "If the parse tree of a text is read in the usual way (sum and product over an index between two bounds, one-sided limits, definite integrals and antiderivatives, d/dx before a product, and the value at an upper minus the value at a lower bound given by equations), with bound variables, then latex2sympy returns a scalar with that value, for every calculus and every SymPy that is faithful to it.", "quantifier": "all trees built from these forms, all assignments, all faithful back ends", "why_tests_cant": "Nested binders of any depth over any calculus.", "anchors": ["latex2sympy/latex2sympy2.py:456-547", "latex2sympy/latex2sympy2.py:746-790", "latex2sympy/latex2sympy2.py:983-1066"]}
{"id": "C83", "title": "Evaluation at bounds that are numbers ignores them (finding)", "statement": "For every expression e of value a and all numerals p and q, the value of e|^{p}_{q} is a minus a.", "quantifier": "all expressions, numerals and faithful back ends", "why_tests_cant": "Holds for every expression and every pair of numerals.", "anchors": ["latex2sympy/latex2sympy2.py:489-501", "latex2sympy/latex2sympy2.py:516-529"]}
{"id": "C84", "title": "The lower bound must be written last (finding)", "statement": "For all letters x, y, z except d, e, E, I, T: x|_{y}^{z} has no parse while x|^{z}_{y} is the evaluation of x between y and z.", "quantifier": "all triples of letters", "why_tests_cant": "All triples of letters.", "anchors": ["latex2sympy/PS.g4:420-435"]}
{"id": "C85", "title": "The style of fractions after a call", "statement": "After a call without nested calls the recorded fraction command is \\tfrac if the text has one, else \\dfrac if it has one, else \\frac if it has one, else the previous one. With nested calls this fails: \\max(\\dfrac{1}{2},1) leaves \\frac.", "quantifier": "all texts, states and back ends", "why_tests_cant": "History dependent, all texts.", "anchors": ["latex2sympy/latex2sympy2.py:46-54", "latex2sympy/latex2sympy2.py:900-960"]}
{"id": "C86", "title": "The candidate readings of a text", "statement": "The candidates of a text are the reading of latex2sympy, or failing that the one of SymPy's parse_latex, and the reading of SymPy's parse_expr of the text with ** for ^; a Python tuple of more than two components becomes a list, a pair stays a tuple; the last reading is dropped exactly when it equals the first one and the first one is true as a Python value. There are no other candidates.", "quantifier": "all texts and all back ends whose parsers each return or raise", "why_tests_cant": "All texts and all outcomes of three parsers.", "anchors": ["math_evaluation/core/latex_parser.py:22-74"]}
{"id": "C87", "title": "A pair read by Python's parser is never equal to anything (finding)", "statement": "Comparing a Python tuple with any value, on either side, always raises. Hence two texts that only parse_expr reads, as pairs, are never equal, even if they are the same text, while triples are compared as lists.", "quantifier": "all tuples, values, depths, states and back ends", "why_tests_cant": "Induction on the recursion for every other value.", "anchors": ["math_evaluation/core/latex_parser.py:57-60", "math_evaluation/core/latex_parser.py:108-140", "math_evaluation/core/latex_parser.py:400-412"]}
{"id": "C88", "title": "Two symbolic expressions are equal if one of the stages says so", "statement": "For two expressions with symbols, neither a number, and neither having i as its only symbol, the verdict is the disjunction of four: the expansions are equal, the simplified difference is small, the sampling at integers agrees, the sampling at floats agrees; a raising stage counts as no.", "quantifier": "all expressions and back ends with state-independent outcomes", "why_tests_cant": "All combinations of outcomes, including exceptions, over all back ends.", "anchors": ["math_evaluation/core/latex_parser.py:394-450"]}
{"id": "C89", "title": "The letter i alone is the imaginary unit", "statement": "If i is the only symbol of one of two expressions, it is replaced by the imaginary unit in the expressions where it is the only symbol, and the real parts and the imaginary parts of the two are compared; an expression with i and another symbol is left alone.", "quantifier": "all expressions and back ends with state-independent outcomes", "why_tests_cant": "All expressions.", "anchors": ["math_evaluation/core/latex_parser.py:170-178", "math_evaluation/core/latex_parser.py:382-398"]}
{"id": "C90", "title": "Definitions are compared by their right-hand sides", "statement": "An equation is a definition if its left-hand side or the inverse of it is a named function applied to arguments, or it is a symbol. If one of two equations is a definition the verdict is that of the two right-hand sides; a definition against another value is that of its right-hand side against the value; two equations that are no definitions are compared by the differences of their sides up to sign.", "quantifier": "all equations, depths and back ends with state-independent outcomes", "why_tests_cant": "All equations and all back ends.", "anchors": ["math_evaluation/core/latex_parser.py:108-140", "math_evaluation/core/latex_parser.py:324-330", "math_evaluation/core/latex_parser.py:400-407"]}
{"id": "C91", "title": "Written arithmetic is in normal form up to spaces", "statement": "For every arithmetic expression over numerals, decimals, lower-case letters, Greek letters and pi, built with the binary operators except the colon, signs, coefficients, powers, fractions, binomials, roots, absolute values, floors, ceilings and functions, that is not itself a number, has no coefficient directly before a fraction, and no letter that begins a unit directly after a command: string_normalize of its LaTeX text, written with a space after each command or without, is the text without spaces; and removing the spaces of one text gives the other.", "quantifier": "all expressions of the class (unbounded size), both ways of writing them", "why_tests_cant": "The normaliser applies over forty regular-expression rewrites (units, currencies, degrees, mixed numbers, percents, times, bases, intervals); that none of them ever fires on a well-formed expression of any size is a statement about an infinite language, proved here by an automaton.", "anchors": ["math_evaluation/core/latex_normalize.py:string_normalize", "math_evaluation/core/latex_normalize.py:further_string_normalize"]}
{"id": "C92", "title": "Two written expressions are decided by the symbolic engine alone", "statement": "For two expressions of the class of C91, in either writing, is_equiv answers True if their texts without spaces are the same, and otherwise exactly what the symbolic comparison of these two texts answers; no tuple, interval, matrix or other reading ever takes part.", "quantifier": "all pairs of expressions of the class, every symbolic engine, every state", "why_tests_cant": "The dispatch looks at commas, brackets, words and parsed intervals; that none of the branches triggers is a statement about all texts of the class.", "anchors": ["math_evaluation/core/evaluations.py:is_equiv", "math_evaluation/core/evaluations.py:is_latex_equiv"]}
{"id": "C93", "title": "End-to-end verdict on numbers", "statement": "Whenever two answers (written expressions of C91, integers of absolute value at most 2^53, or decimals further than 1e-7 from every integer) denote rational numbers g and v, and SymPy is an exact rational back end whose own parser rejects the texts or reads the same numbers, is_equiv with the repository's own latex2sympy, grammar, candidate readings and comparison returns True exactly when g = v, or g = 0 and |v| < 1e-3, or |g| >= 1 and |g - v| < 5e-3, or 0 < |g| < 1 and |(g - v)/g| < 1e-3.", "quantifier": "all pairs of expressions of the class, all rational values, every exact back end, every state without declared variables", "why_tests_cant": "The statement composes normalisation, lexing, parsing, conversion, evaluation and comparison for unboundedly many expressions and back ends; tests sample points.", "anchors": ["math_evaluation/core/evaluations.py:is_equiv", "math_evaluation/core/latex_parser.py:are_equal_under_sympy", "math_evaluation/core/latex_parser.py:_sympy_parse", "latex2sympy/latex2sympy2.py:latex2sympy", "latex2sympy/PS.g4"]}
{"id": "C94", "title": "Decimal literals away from the integers keep their text", "statement": "float(s) of a decimal literal of value x < 10^300 differs from x by at most x*2^-53 + 2^-1075; and string_normalize leaves every literal, signed or not, unchanged when its distance to every integer exceeds 1e-7 by more than x*2^-50.", "quantifier": "all decimal literals, any number of digits", "why_tests_cant": "The bound needs the rounding analysis of correctly rounded decimal-to-binary conversion over all mantissas and exponents, subnormals included.", "anchors": ["math_evaluation/core/latex_normalize.py:_is_int", "math_evaluation/core/latex_normalize.py:further_string_normalize"]}
{"id": "C95", "title": "finding: decimals within 1e-7 of an integer become that integer", "statement": "A decimal literal of value x with |x - z| + x*2^-50 <= 1e-7 for a natural number z is normalised to the integer z with its sign, is accepted by is_equiv for that integer, and any two such literals are accepted for each other: 0.00000009 is 0, and equals 0.00000001; -0.00000009 is 0; 2.99999995 is 3.", "quantifier": "all decimal literals near an integer", "why_tests_cant": "The set of conflated literals is infinite and its exact border depends on floating-point rounding.", "anchors": ["math_evaluation/core/latex_normalize.py:_is_int", "math_evaluation/core/latex_normalize.py:further_string_normalize"]}
{"id": "C96", "title": "End-to-end acceptance of identities", "statement": "Let two written expressions be read as objects with the same free symbols, at least one of them other than i, and agree at every assignment of numbers random.randint(1,10) can draw. Whatever SymPy's expand and simplify do (answer, raise, miss the identity), as long as the difference is not taken for a non-zero number, and whatever Python's own reading of the texts is, is_equiv with the repository's own normalisation, grammar, conversion and comparison returns True, for every outcome of the random draws. A back end that does not cancel symbols gives the objects exactly the symbols of the expression.", "quantifier": "all pairs of written expressions, all random draws, every back end with these properties, every state without declared variables", "why_tests_cant": "The claim is over all identities, all random streams and all behaviours of the simplifier.", "anchors": ["math_evaluation/core/evaluations.py:is_equiv", "math_evaluation/core/latex_parser.py:are_equal_under_sympy", "math_evaluation/core/latex_parser.py:_are_equal_latex_sympy", "math_evaluation/core/latex_parser.py:_numerical_equal", "latex2sympy/latex2sympy2.py:latex2sympy", "latex2sympy/PS.g4"]}
{"id": "C97", "title": "finding: expressions that agree at 1..10 are accepted although they differ", "statement": "Agreement at the drawn numbers is enough: |x| and x, which differ at -2, are accepted for each other end to end, for every draw.", "quantifier": "refutation by a witness, for every draw", "why_tests_cant": "The verdict is universal over the random draws; a test sees one stream.", "anchors": ["math_evaluation/core/evaluations.py:is_equiv", "math_evaluation/core/latex_parser.py:are_equal_under_sympy", "math_evaluation/core/latex_parser.py:_are_equal_latex_sympy", "math_evaluation/core/latex_parser.py:_numerical_equal", "latex2sympy/latex2sympy2.py:latex2sympy", "latex2sympy/PS.g4"]}
{"id": "C98", "title": "End-to-end rejection of expressions in different symbols", "statement": "Let two written expressions be read as objects with different sets of free symbols, each with one other than i, whose difference is not constant. If SymPy proves no false equation (expansion, or a difference simplified to a number) and Python's own reading is absent or the same expression, is_equiv returns False, whatever is drawn.", "quantifier": "all pairs of written expressions, all random draws, every sound back end", "why_tests_cant": "Unboundedly many expressions and random streams, and all sound back ends.", "anchors": ["math_evaluation/core/evaluations.py:is_equiv", "math_evaluation/core/latex_parser.py:are_equal_under_sympy", "math_evaluation/core/latex_parser.py:_are_equal_latex_sympy", "math_evaluation/core/latex_parser.py:_numerical_equal", "latex2sympy/latex2sympy2.py:latex2sympy", "latex2sympy/PS.g4"]}
{"id": "C99", "title": "finding: expressions that differ in the case of letters are accepted for each other", "statement": "Normalisation replaces every capital letter by its small one: any written expression with letters of either case (other than D, and not a number) is read as the expression in small letters. Hence two written expressions whose texts agree up to case are accepted for each other, whatever SymPy does; R-r and r-r, which differ in value, are.", "quantifier": "all written expressions in letters of either case, every back end and state; refutation by a witness", "why_tests_cant": "Unboundedly many expressions; that no unit, word or number pattern interferes is a claim about every text.", "anchors": ["math_evaluation/core/evaluations.py:is_equiv", "math_evaluation/core/latex_normalize.py:string_normalize", "latex2sympy/latex2sympy2.py:latex2sympy"]}
{"id": "C100", "title": "finding: removing spaces merges a command with the next letter", "statement": "Normalisation deletes the space that ends a command. sin(hx), written \\sin hx, and \\sinh x, which the grammar reads as different functions, are accepted for each other in every world. x \\le q and x \\leq q are read alike before normalisation, but the normal form of the first, x\\leq, no longer parses.", "quantifier": "refutation by witnesses, for every back end and state", "why_tests_cant": "The verdict is universal over back ends; the readings come from the model of the grammar.", "anchors": ["math_evaluation/core/evaluations.py:is_equiv", "math_evaluation/core/latex_normalize.py:string_normalize", "latex2sympy/latex2sympy2.py:latex2sympy", "latex2sympy/PS.g4"]}
{"id": "C101", "title": "sequences of numbers are decided item by item, from text to verdict", "statement": "A comma-separated sequence of written arithmetic (bare, in round or in square brackets, with or without a space after the commas) normalises to itself without spaces and splits into exactly its items, unless a digit is followed by a comma and three digits. With a faithful latex2sympy and an exact numeric back end, two bracketed sequences of at least three numbers are accepted exactly when the brackets are of the same kind, the lengths agree and the values agree to tolerance position by position; a bracketed pair is moreover accepted when the interval comparison accepts it. A bare sequence never equals a bracketed one. Two bare sequences whose values are equal or clearly apart are accepted only if they have the same set of values, and are accepted then if each value is spelled one way on each side. Finding: otherwise the spelling decides: 2,3,3 is accepted for 2,2,3 and rejected for 2,\\frac{4}{2},3.", "quantifier": "for all expressions, lengths, back ends meeting the stated contract, iteration orders of sets and states", "why_tests_cant": "Unboundedly many items and item expressions, every iteration order of Python sets, every numeric back end meeting the contract.", "anchors": ["math_evaluation/core/evaluations.py:is_equiv", "math_evaluation/core/evaluations.py:is_equiv_possible_tuple", "math_evaluation/core/evaluations.py:is_equiv_possible_intervals", "math_evaluation/core/latex_normalize.py:string_normalize", "math_evaluation/core/latex_normalize.py:_str_to_interval", "math_evaluation/core/latex_parser.py:are_equal_with_simplify", "latex2sympy/latex2sympy2.py:latex2sympy"]}
{"id": "C102", "title": "written sums, products and limits, from text to value", "statement": "Let b be a sum or product over a symbol between two written expressions, or a limit at a written expression or from one side at a number, and e a written expression (in parentheses if it is a sum). With a faithful SymPy, latex2sympy reads the text of b followed by e as the sum, product or limit of e as a function of the symbol: the binder takes the whole product that follows, the bounds are the ones written, and the bound variable is rebound. Finding: an undirected limit at a number is the limit from above, the same as with ^{+}.", "quantifier": "all bounds, bodies, symbols, back ends denoting an arbitrary calculus, states without declared variables", "why_tests_cant": "Unboundedly many expressions and every calculus; that no other reading of the text wins is a claim about the whole grammar.", "anchors": ["latex2sympy/PS.g4", "latex2sympy/latex2sympy2.py:latex2sympy", "latex2sympy/latex2sympy2.py:handle_sum_or_prod", "latex2sympy/latex2sympy2.py:handle_limit"]}
{"id": "C103", "title": "written chains of relations are nested to the left", "statement": "A chain of written expressions joined by any of the fifteen relation signs is read as one relation of the whole chain so far with the next expression: 0<x<1 becomes (0<x)<1, not a conjunction. Each side has the value of its expression, each sign its relation, and an exception of SymPy for a prefix is the exception of the chain.", "quantifier": "all chains of every length, all expressions, signs, back ends, states without declared variables", "why_tests_cant": "Unboundedly many chains and expressions.", "anchors": ["latex2sympy/PS.g4", "latex2sympy/latex2sympy2.py:convert_relation", "latex2sympy/latex2sympy2.py:latex2sympy"]}
{"id": "C104", "title": "finding: a factorial before an equals sign is read as an inequality", "statement": "For every written expression e that needs no parentheses before the factorial sign and every e', the text of e!=e' is read as e not equal to e', never as an equation for the factorial of e.", "quantifier": "all pairs of expressions, all faithful back ends, states without declared variables", "why_tests_cant": "A claim about every expression; one example would not show that no equation is read correctly.", "anchors": ["latex2sympy/PS.g4", "latex2sympy/latex2sympy2.py:convert_relation"]}
{"id": "C105", "title": "finding: repeated exponents are read from the left", "statement": "A base with any number of exponents in braces is read as repeated powers from the left: 2^{3}^{2} is worth 64, not 512.", "quantifier": "all bases, all lists of exponents, all faithful back ends, states without declared variables", "why_tests_cant": "Unboundedly many exponents and expressions.", "anchors": ["latex2sympy/PS.g4", "latex2sympy/latex2sympy2.py:convert_exp", "latex2sympy/latex2sympy2.py:convert_atom"]}
{"id": "C106", "title": "thousands separators, and finding: a longer group is a product", "statement": "Digits followed by any number of groups of a comma and three digits are read as the one number without the commas. If more digits follow the last group, the text is read as the product of that number with the remaining digits: 1,2345 is worth 6170.", "quantifier": "all digit sequences and all numbers of groups, all faithful back ends, states without declared variables", "why_tests_cant": "Unboundedly many numbers.", "anchors": ["latex2sympy/PS.g4", "latex2sympy/latex2sympy2.py:convert_atom"]}
{"id": "C107", "title": "which letters are taken for the imaginary unit", "statement": "For every text with no capital I, the rewriting of the imaginary unit replaces exactly the letters i that stand between characters that are not word characters (or the ends of the text), and those right after a digit, whatever follows them; every other character is kept. With a capital I anywhere, every capital I is replaced and no small i. Findings: the index of a sum is replaced; the product of a symbol and i is not; in 2in the i is replaced.", "quantifier": "all texts of every length over all code points", "why_tests_cant": "Six lookaround alternatives and arbitrary Unicode neighbours on both sides; a test fixes the neighbours.", "anchors": ["math_evaluation/core/latex_normalize.py:_str_to_complex", "math_evaluation/core/type_evaluations.py:is_equiv_complex"]}
{"id": "C108", "title": "the verdict on written matrices of numbers", "statement": "Any rectangular array of written numbers between the begin and end marks of an amsmath matrix environment (matrix, pmatrix, bmatrix, Bmatrix, vmatrix, Vmatrix; opening and closing environments may differ), with or without spaces around the separators, is normalised to the same array without spaces, is cut back into exactly its entries, and two such texts are accepted if and only if the two arrays, a column being laid down as a row, have the same dimensions and corresponding entries are close. Findings: a row and a column of the same numbers are taken for the same matrix; a determinant (vmatrix) is taken for the matrix.", "quantifier": "all array dimensions, all written entries of every size and nesting, all back ends exact on numbers, all states without declared variables", "why_tests_cant": "Unboundedly many dimensions, entries and spellings; the verdict runs through normalisation, two failing stages, the cutting and a recursive comparison per entry.", "anchors": ["math_evaluation/core/latex_normalize.py:str_matrix_normalize", "math_evaluation/core/latex_normalize.py:split_matrix", "math_evaluation/core/evaluations.py:is_equiv_possible_matrix", "math_evaluation/core/evaluations.py:is_latex_equiv"]}
{"id": "C109", "title": "a matrix against a sequence", "statement": "A written matrix of numbers and a written sequence of numbers (tuple, list or bare items), in either order, are accepted if and only if the matrix is a single row or column whose entries are close to the items, position by position. Finding: bare items, which are compared in any order with other bare items, are compared in order with a matrix, so acceptance is not transitive.", "quantifier": "all dimensions, lengths, brackets and orders of the two arguments, all back ends exact on numbers whose interval reader leaves the state alone", "why_tests_cant": "Unboundedly many pairs of texts.", "anchors": ["math_evaluation/core/latex_normalize.py:split_matrix", "math_evaluation/core/latex_normalize.py:split_tuple", "math_evaluation/core/evaluations.py:is_equiv_possible_matrix", "math_evaluation/core/evaluations.py:is_equiv_possible_tuple"]}
{"id": "C110", "title": "the words of the lexer", "statement": "The first token of any text is a word of the grammar's vocabulary (extracted mechanically from the grammar file) or one of the unbounded tokens (blank space, differentials, named variables); and when a vocabulary word begins the text and no longer one does, that word is the first token with exactly its token kind.", "quantifier": "all texts, all words of the vocabulary", "why_tests_cant": "All texts and all words; a dropped or mistyped word of one rule only shows on texts that use it.", "anchors": ["latex2sympy/PS.g4:lexer rules"]}
{"id": "C111", "title": "names of functions only inside operatorname", "statement": "In any token sequence that the grammar parses completely, a token that is the bare name of a function (tr, det, rank, gcd, lcm, floor, ...) is preceded by operatorname and an opening brace and followed by a closing brace. Finding: two letters that happen to spell such a name, as in the product tr, make the text unparseable while the letters in another order are a product.", "quantifier": "all token sequences", "why_tests_cant": "All token sequences of every length and nesting.", "anchors": ["latex2sympy/PS.g4:func_operator_names_single_arg", "latex2sympy/PS.g4:func_operator_names_multi_arg"]}
{"id": "C112", "title": "functions of one argument by their names", "statement": "For every function of one argument, written as a command or through operatorname, applied to any well-formed written expression in parentheses, latex2sympy calls exactly the SymPy function the table assigns to that name on an object worth the value of the written argument, and returns its result; an exception of the function is the exception of latex2sympy. The table covers every word of the vocabulary of these token kinds except log and ln. Finding: a function whose result is a Python list (nullspace, columns, rows, eigenvectors, orthogonalisation) always fails, since the list is taken for a derivative operator with nothing to apply to.", "quantifier": "all functions of the table, all written arguments of every size and nesting, all back ends faithful on arithmetic, all states without declared variables", "why_tests_cant": "Unboundedly many arguments for dozens of names.", "anchors": ["latex2sympy/latex2sympy2.py:convert_func", "latex2sympy/latex2sympy2.py:convert_postfix_list", "latex2sympy/PS.g4:func_single_arg"]}
{"id": "C113", "title": "functions of several arguments by their names", "statement": "For every function of several arguments (gcd, lcm, max, min, zeros, ones, diag, hstack, vstack, orthogonalize, ...), written as a command or through operatorname, on any non-empty comma-separated list of numerals and symbols, latex2sympy calls exactly the function the table assigns to that name on objects worth the arguments, in order and in number, and returns its result. Numerals like 12,345 inside such a list are two arguments, although the lexer reads one number. The table covers every word of the vocabulary of these token kinds.", "quantifier": "all functions of the table, all lists of every length of numerals of every size and symbols, all back ends faithful on arithmetic, all states without declared variables", "why_tests_cant": "Unboundedly many lists; the thousands separator ambiguity depends on digit counts.", "anchors": ["latex2sympy/latex2sympy2.py:convert_func", "latex2sympy/PS.g4:func_multi_arg"]}
{"id": "C114", "title": "floats printed and read back", "statement": "The text Python gives a float (the shortest decimal found with at most seventeen digits, in plain or exponent notation) is read by float() as exactly that float, for every binary64 number, zero, infinity and nan; in particular for every float the normaliser reads from a text and for its hundredth. Two floats with the same text are the same float. Between 1/6000 and 10^15 the text is a plain decimal that differs from the float by at most half a unit in the last place.", "quantifier": "all binary64 numbers of both signs, all texts that float() reads", "why_tests_cant": "2^64 floats; that seventeen digits suffice is an arithmetic fact about all of them.", "anchors": ["latex_normalize.py:string_normalize"]}
{"id": "C115", "title": "the verdict on answers with several readings", "statement": "When two texts have finitely many readings, each the text of a written expression with a rational value, is_equiv answers and accepts exactly when some reading of the first is close to some reading of the second. Percentages (the hundredth and the number itself, both as rounded decimals), numerals in another base (the digits and the value) and afternoon hours (the hour modulo twelve, with and without twelve more) are such texts. Finding: a percentage is accepted for a hundred times itself and conversely, and a numeral in any base for the same digits in base ten.", "quantifier": "all texts with such readings, all percentages between 0.02 and 10^14 of any number of digits, all bases and numerals, all hours and spellings, all faithful back ends", "why_tests_cant": "Unboundedly many texts on both sides; the readings go through float arithmetic and float printing.", "anchors": ["math_evaluation.py:is_equiv", "math_evaluation.py:is_latex_equiv", "latex_normalize.py:string_normalize"]}
{"id": "C116", "title": "accented and subscripted symbols", "statement": "A letter with a subscript (a braced expression, digits, or a letter) and an expression under an accent of the grammar are read as one symbol: the name is the letter's, an underscore and the subscript without spaces (braced unless it is a single character), or the accented text without spaces with 'bar', 'vec', 'tilde' after it, or the accent itself kept around it. Two such symbols get the same name exactly when they differ only in spacing, in braces around the subscript, or in synonymous accents. No accent of the grammar is missing from the tables. Finding: x_12 is read as x_{12}.", "quantifier": "all letters and subscripts, all expressions under all accents, all back ends", "why_tests_cant": "Unboundedly many subscripts; that no two symbols clash is a statement about all pairs.", "anchors": ["latex2sympy/latex2sympy2.py:convert_atom", "latex2sympy/latex2sympy2.py:latex2sympy"]}
{"id": "C117", "title": "Two letters next to each other are a product, unless they make a word", "statement": "For any two letters (except d, e, E, I, T): written with a space between them they are read as the product of the two symbols; written without the space they are read the same, except t and r, which make the word tr and are no expression. Consequently the normaliser, which deletes spaces, does not keep readable texts readable.", "quantifier": "all pairs of letters; a witness for the second part", "why_tests_cant": "The lexer's longest-match rule and keywords decide; a test has to hit the one pair that is a word.", "anchors": ["latex2sympy/PS.g4:155-480", "latex_normalize.py:string_normalize"]}
{"id": "C118", "title": "A parenthesis with a subscript in braces is a permutation", "statement": "A text in which permutations (a)_{b}, with a and b written with letters, digits, + - * / backslash and space only, stand at any places, and which becomes the text of an arithmetic expression when each of them is replaced by \\frac{(a)!}{((a)-(b))!}: the preparation turns it into that text, and latex2sympy gives it the value of that expression. In particular (a)_{b} alone is worth a! divided by (a-b)!.", "quantifier": "all expressions, any number of permutations, all faithful back ends and states without variances", "why_tests_cant": "A regular expression with two lazy groups rewrites unboundedly long texts; a wrong character class or group number shows only on particular operands.", "anchors": ["latex2sympy/latex2sympy2.py:latex2sympy"]}
{"id": "C119", "title": "How results are printed", "statement": "latex2latex prints the result of latex2sympy as SymPy writes it, except: every fraction command (frac, dfrac, tfrac) becomes the fraction command in force, which after any history of calls is one of these three; log becomes ln; left and right are dropped; a matrix in square brackets becomes a bmatrix; a space before a closing parenthesis is dropped. Every other command, environment and character is kept, provided no other command begins with the name of a corrected one. Finding: a longer command that begins with a corrected one (such as rightarrow) is cut.", "quantifier": "all texts made of commands, escapes, environments and characters; all back ends; all histories of calls", "why_tests_cant": "The corrections are text replacements applied in sequence; whether one of them damages the output of another shows only on particular texts.", "anchors": ["latex2sympy/latex2sympy2.py:latex", "latex2sympy/latex2sympy2.py:latex2latex"]}
{"id": "C120", "title": "An interval with an end that is no number", "statement": "A written interval one of whose ends is not read as a number becomes SymPy's interval of the two ends with the brackets as written, whatever the ends are: their order is not asked for (SymPy could not decide it and would raise). A number at the other end is evaluated and made an integer when it is within the tolerance of one.", "quantifier": "all written intervals, all back ends, all states", "why_tests_cant": "The order check is guarded by two is_number tests; dropping one shows only with symbolic ends.", "anchors": ["latex_normalize.py:_str_to_interval"]}
{"id": "C121", "title": "No acceptance without evidence", "statement": "If the comparison of two texts under SymPy says True, then one reading of each text exists for which SymPy itself has answered the questions that justify it: componentwise for lists, sets of equal size, matrices, complex numbers (real and imaginary parts), equations (difference of the sides, up to sign) and inequalities of the same strictness; by right-hand sides if one is a function equation; and for scalars: equal expansions, or a simplified difference that is zero or below the threshold (five times it if the truth is at least 1 and no integer, relative to the truth below 1), or agreement of evaluations at ten points drawn with one generator, the symbols being the same. No exception and no missing answer is ever counted as agreement.", "quantifier": "all pairs of texts, all back ends in which None cannot be subtracted and differences are no equations, all states and depths", "why_tests_cant": "A universally quantified soundness statement over exceptions at every call.", "anchors": ["latex_parser.py:are_equal_under_sympy", "latex_parser.py:_are_equal_latex_sympy", "latex_parser.py:_diff_equal", "latex_parser.py:_numerical_equal"]}
{"id": "C122", "title": "is_equiv accepts nothing without a reason", "statement": "If is_equiv says True then both answers are missing, or the stripped texts are the same, or they have the same single normal form, or a reading of the one and a non-empty reading of the other agree: as intervals that compare equal (with a bracket in the first), under the symbolic engine, as list or tuple entry by entry, as set by pairing every element with an element of its own, as matrix row by row and entry by entry, or without superfluous outer parentheses. Collections have the same kind, and the same size unless the membership command is an entry of the second. Entries agree for a reason of the same sort; no exception is ever a reason.", "quantifier": "all answers, all oracles, all states and depths", "why_tests_cant": "A soundness statement over all paths of the program, including exceptions.", "anchors": ["evaluations.py:is_equiv", "evaluations.py:is_latex_equiv", "evaluations.py:is_equiv_possible_tuple", "evaluations.py:is_equiv_possible_matrix", "evaluations.py:is_equiv_possible_intervals"]}
{"id": "C123", "title": "complex numbers, from text to the engine", "statement": "is_equiv_complex on two written complex numbers (an optional sign, a real part that is an integer or a decimal, a sign, an optional numeral and the unit, or the imaginary part alone; the unit written i, I or \\sqrt{-1}) asks the symbolic engine exactly once, about the same numbers with the unit written I, and returns its answer; with the hint \"Complex\" a refusal is followed by the ordinary comparison of the texts. When the normal form of the first contains no round or square bracket and one of the two does not balance, they are refused without asking the engine.", "quantifier": "all complex numbers of that form, of any length, all spellings of the unit, all back ends, states and recursion depths; for the refusal all texts with those normal forms", "why_tests_cant": "The chain of substitution, normalisation and substitution back has to be right for every numeral; tests use a few numbers and a real SymPy.", "anchors": ["math_evaluation/core/type_evaluations.py:is_equiv_complex", "math_evaluation/core/type_evaluations.py:is_equiv_type", "math_evaluation/core/latex_normalize.py:_str_to_complex"]}
{"id": "C124", "title": "finding: words in \\text are dropped between digits", "statement": "An integer with \\text{...} after it or between its digits normalises to the integer, whatever letters and spaces stand in the braces (unless they contain and, or, million, billion, trillion, or are cases or array; or are a time of day after at most two digits); so \"3\\text{ to }4\" is accepted for 34.", "quantifier": "all integers up to 2^53 in absolute value, all places in their digits, all words of ASCII letters and spaces with the listed exceptions, all back ends", "why_tests_cant": "The set of words is infinite; tests only try the usual units.", "anchors": ["math_evaluation/core/latex_normalize.py:_string_normalize", "math_evaluation/core/evaluations.py:is_equiv"]}
{"id": "C125", "title": "written evaluation bars, from text to value", "statement": "An expression in parentheses followed by any number of bars |^{x=f} is read by latex2sympy as the expression with the substitutions of the bars from left to right: each bar replaces its symbol everywhere in what stands before it, including the values of the earlier bars.", "quantifier": "all expressions, symbols, values and numbers of bars, all back ends denoting an arbitrary calculus, states without declared variables", "why_tests_cant": "Unboundedly many expressions and bars; that no other reading of the text wins is a claim about the whole grammar.", "anchors": ["latex2sympy/PS.g4", "latex2sympy/latex2sympy2.py:latex2sympy", "latex2sympy/latex2sympy2.py:do_subs"]}
{"id": "C126", "title": "dollar signs around a formula, and the percent sign they disarm", "statement": "A formula of digits, operators, brackets and letters other than d, i, m, r, t, w and M has the same normal form between dollar signs as without them. Finding: the percent sign is examined before the dollar signs are dropped, so a percentage between dollar signs, $50\\%$ or $50%$, loses its sign and is read as the bare number 50 only: it is not accepted for 0.5, which the same answer without dollar signs is.", "quantifier": "all formulas over the stated characters; the loss of the percent sign for all texts of digits, operators and x, y, z; the verdict by a witness", "why_tests_cant": "Unboundedly many formulas; the finding needs the order of two steps of the normaliser.", "anchors": ["math_evaluation/core/latex_normalize.py:_string_normalize"]}
{"id": "C127", "title": "brackets sized with \\left and \\right", "statement": "A formula in which any round and square brackets are sized with \\left and \\right has the same normal form as with the bare brackets, whether or not the sizes are paired. Finding: with a space between the command and its bracket, \\left (1,2\\right ), the command is not recognised, because spaces are dropped later: it stays in the normal form, and the answer is rejected for (1,2).", "quantifier": "all formulas of digits, operators, commas, bars, x, y, z and brackets, each bracket sized or not; the finding by a witness", "why_tests_cant": "Unboundedly many formulas and ways to size their brackets; the finding needs the order of the steps.", "anchors": ["math_evaluation/core/latex_normalize.py:_string_normalize"]}
{"id": "C128", "title": "membership written before a set is dropped", "statement": "A letter followed by \\in, with any spaces before and after the command, in front of a formula normalises like the formula alone. So x \\in S is accepted for S, and for y \\in S whatever the letters.", "quantifier": "all ASCII letters, numbers of spaces, and non-empty formulas of digits, operators, brackets, commas, bars, x, y and z; all back ends and states", "why_tests_cant": "Unboundedly many formulas and spacings; acceptance for every back end.", "anchors": ["math_evaluation/core/latex_normalize.py:_string_normalize", "math_evaluation/core/evaluations.py:is_equiv"]}
{"id": "C129", "title": "degrees have two readings", "statement": "A whole number followed by a degree sign, written ^\\circ or ^{\\circ} with or without spaces, has exactly two readings: the bare number and the number times pi over 180. So it is accepted exactly for the answers that the comparison accepts for one of the two; in particular 30^\\circ for the number 30.", "quantifier": "all integers up to 2^53 in size, four spellings of the sign, all back ends on which the comparisons of the readings have an answer, all other answers", "why_tests_cant": "Unboundedly many numbers and other answers; the readings go through float parsing and the whole normaliser.", "anchors": ["math_evaluation/core/latex_normalize.py:_string_normalize", "math_evaluation/core/evaluations.py:is_equiv"]}
{"id": "C130", "title": "million, billion and trillion are powers of ten", "statement": "A whole number followed by million, billion or trillion, with or without one space, normalises to the number times 10^6, 10^9 or 10^12, so the spellings are accepted for one another and for the written product without asking the symbolic engine. Finding: in the plural the letter s stays behind the exponent (5 millions is read as 5*10^6s).", "quantifier": "For all integers z of any size, the three words with and without a space, all symbolic back ends and fuels n+1.", "why_tests_cant": "Tests try a few small numbers; the claim covers numbers of any length, where the removal of units, times, digit groups and the float test all must leave the text alone.", "anchors": ["math_evaluation/core/latex_normalize.py:_string_normalize", "math_evaluation/core/latex_normalize.py:further_string_normalize", "math_evaluation/core/evaluations.py:is_equiv"]}
{"id": "C131", "title": "numbers joined by and/or are a sequence; finding: three digits after the word make one number", "statement": "Two whole numbers joined by and / or (with or without a comma before the word) normalise to the two numbers with a comma between them, so all these spellings are accepted for one another, and against any other answer the verdict is that on the pair with a comma. Finding: when at most three digits stand before the word and exactly three after it, the comma becomes a thousands separator, and for instance 2 or 300 is accepted for 2300.", "quantifier": "For all signed digit strings A and B, the four separators, all symbolic back ends and fuels n+1; the finding for all such digit strings and every back end that reads A,B as the number (C106 proves that latex2sympy does).", "why_tests_cant": "Tests use short numbers; the conflation appears only for certain lengths.", "anchors": ["math_evaluation/core/latex_normalize.py:_string_normalize", "math_evaluation/core/latex_normalize.py:further_string_normalize", "math_evaluation/core/evaluations.py:is_equiv"]}
{"id": "C132", "title": "spacing commands and braced commas are transparent", "statement": "A formula over digits, operators, brackets, commas and the letters x, y, z in which the spacing commands backslash-colon, backslash-comma, backslash-semicolon and backslash-exclamation stand anywhere, and commas may be written in braces, has the normal form of the formula without them, and all such spellings are accepted for one another without asking the symbolic engine. Finding: the control space and the quad command are not removed; their backslash stays in the normal form, and the item is no LaTeX for latex2sympy.", "quantifier": "For all lists of characters, spacing commands and braced commas, of any length; all symbolic back ends and fuels n+1.", "why_tests_cant": "Tests put one spacing command in one place; the four deletions run one after the other and must not create or hide one another's patterns.", "anchors": ["math_evaluation/core/latex_normalize.py:_string_normalize", "math_evaluation/core/evaluations.py:is_equiv"]}
{"id": "C133", "title": "the unused guard before evaluation, characterised", "statement": "should_allow_eval (which nothing in the repository calls) says yes exactly when at most two different letters remain after deleting the words sqrt and frac, and no caret is followed by an opening brace, an opening parenthesis, two digits, or a digit and another caret. Finding: letters of other commands count as unknowns, so a multiple of pi in one unknown is refused.", "quantifier": "For all texts.", "why_tests_cant": "The function is dead code, so no test of the package reaches it; the two patterns overlap, and the claim says what they exclude together.", "anchors": ["math_evaluation/core/latex_parser.py:should_allow_eval", "math_evaluation/core/latex_parser.py:count_unknown_letters_in_expr"]}
{"id": "C134", "title": "And/or in a text command separate two numbers", "statement": "Two whole numbers joined by \\text{and} or \\text{or}, with any number of spaces before the command, inside its braces and after it, and with an optional leading comma, normalise to the two numbers with a comma; they are accepted against every other way of writing the separator, and against anything else the verdict is that on the pair with a comma. The same word in \\mbox is not read as a separator (finding).", "quantifier": "all pairs of whole numbers of any length and sign, all four space counts, both words, with or without comma, all back ends", "why_tests_cant": "The space counts and the numbers are unbounded and the two directions of the verdict quantify over every reference answer and back end; the greedy star before the command competes with the optional comma.", "anchors": ["math_evaluation/core/latex_normalize.py:_string_normalize", "math_evaluation/core/evaluations.py:is_equiv"]}
{"id": "C135", "title": "The separators of a list of numbers do not matter", "statement": "A list of any length of whole numbers, each separated from the next by a comma and any number of spaces, by and, by or, or by one of these words after a comma, normalises to the numbers joined by commas when no comma is a thousands separator; two such lists with the same numbers are always accepted against each other, and against any other answer they get the same verdict. Groups of exactly three digits after at most three, whatever separates them, are accepted as the single integer they spell (finding).", "quantifier": "all lists of two or more whole numbers of any length and sign, all choices of separators, all back ends", "why_tests_cant": "Length of the list, length of the numbers and number of spaces are unbounded, and every combination of separators is covered; the substitution must leave a comma alone that no word follows, at every position.", "anchors": ["math_evaluation/core/latex_normalize.py:_string_normalize", "math_evaluation/core/latex_normalize.py:further_string_normalize", "math_evaluation/core/evaluations.py:is_equiv"]}
{"id": "C136", "title": "one pair of outer braces is dropped; finding: also when the two do not match each other", "statement": "A text over digits, operators, brackets of every kind, relations, spaces and the letters x, y, z, a, b, c that has no outer braces of its own normalises the same with a pair of braces around it, is accepted against it, and gets the same verdict against any other answer. Finding: {x}+{y} loses its first and last brace, and {1},{2} is rejected against 1,2 by a back end that knows both numbers.", "quantifier": "all texts of any length over the alphabet, all back ends", "why_tests_cant": "The text between the braces is arbitrary, balanced or not, and the verdict quantifies over every other answer and back end.", "anchors": ["math_evaluation/core/latex_normalize.py:further_string_normalize", "math_evaluation/core/latex_normalize.py:_string_normalize", "math_evaluation/core/evaluations.py:is_equiv"]}
{"id": "C137", "title": "The separators of a list of solutions do not matter", "statement": "A list of any length of equations variable = whole number, each separated from the next by a comma and any number of spaces, by and, by or, or by one of these words after a comma, normalises to the equations joined by commas, with no exception for thousands separators; two such lists with the same equations are always accepted against each other, and against any other answer they get the same verdict. The variable is one of x, y, z, k, n, t, p, q.", "quantifier": "all lists of two or more equations, whole numbers of any length and sign, all choices of separators, all back ends", "why_tests_cant": "Length of the list, length of the numbers and number of spaces are unbounded, and every combination of separators is covered; unit removal and the other rewritings must leave the variables alone at every position.", "anchors": ["math_evaluation/core/latex_normalize.py:_string_normalize", "math_evaluation/core/latex_normalize.py:further_string_normalize", "math_evaluation/core/evaluations.py:is_equiv"]}
