# Formal model of math_evaluation (Rocq / Coq 8.16.1)

## Source
/repo at the pinned commit, read as text. Nothing in /repo is built, imported or
called. (One slip during preparation: a script evaluated the data file
`core/constants.py` to list the unit tables; its output was discarded and the
tables were re-extracted by text search.) Python *standard library* primitives
(`re`, `float`, `repr`, `str.format`) were run on random inputs to check
that the library models below agree with CPython.

## Trusted base
* Coq's kernel (and its `vm_compute`). No axiom of our own and no library axiom:
  under every theorem of the `Props_*.v` files `Print Assumptions` prints
  "Closed under the global context". There is no exception.
* The transcription of the Python text into the definitions; each definition
  cites file and lines.
* The library models:
  `PyStr.v` (str methods; Unicode 14 tables from CPython's `unicodedata`),
  `Regex.v` (backtracking `re`, list-of-successes in priority order),
  `Float64.v` (binary64, exact rational arithmetic then one rounding).

## Modelling conventions
* `str` = list of code points. Python exceptions are values; `except Exception`
  and bare `except:` are distinguished (KeyboardInterrupt/SystemExit are not
  `Exception`s).
* External things are *parameters*, universally quantified in every theorem, never
  axioms: SymPy and its parsers, `str(latex2sympy(x))` for integer literals
  (`int_str`), iteration order of sets, `random`, timeouts, the LLM.
  They run in a state monad `M A := St -> res A * St`, so they may be
  stateful, non-deterministic (through the state) and may raise anything.
* Recursion on Python's call stack = fuel; running out of fuel is
  `RecursionError`, an `Exception` like in CPython.

## What is modelled
| repo file | Coq file | how |
|---|---|---|
| core/constants.py unit lists | Constants.v | verbatim |
| core/latex_normalize.py normalisation | Normalize.v | complete, executable |
| core/latex_normalize.py split_tuple, split_matrix | Split.v | complete, executable |
| core/latex_normalize.py _str_to_interval | Interval.v | control flow; end points through oracle; exact interval semantics |
| core/evaluations.py | Eval.v | complete, over oracles |
| core/latex_parser.py | Parser.v | complete, over a SymPy oracle record |
| core/type_evaluations.py | TypeEval.v | complete |
| llms/llm_models.py get_llm_type, prompts.py | LLM.v | retry loop, prompt |
| demo.py is_equiv_MATH, example_tora_eval.py | Tora.v | complete |
| latex2sympy/latex2sympy2.py | L2S.v | complete converter over parse trees (every `convert_*` function), text preparation, `latex2sympy`/`latex2latex`/`set_variances` with their global state; SymPy calls are an oracle record |
| latex2sympy/PS.g4 lexer rules | Lexer.v | every rule; longest match, then first rule |
| latex2sympy/PS.g4 parser rules | Grammar.v | every rule, as the first complete parse of a backtracking parser; `Unknown` for elementary transformations and comma-separated subscripts of functions and integrals |

About Grammar.v: ANTLR's generated parser (gen/PSParser.py) and its ALL(*) prediction are
not modelled as a program. The model takes the first parse, in the order of the
alternatives, that consumes all tokens. The grammar has no EOF, so where there
is no complete parse (`NoParse`) ANTLR may accept a prefix or report an error; nothing is claimed
about the tree then. Theorems about `latex2sympy` quantify over an arbitrary parser
`o_parse`; only C77 and what builds on it (C93, C96-C106, C108, C109, C112, C113, C115, C116, C118) assume that it agrees with Grammar.v where that answers `Found`.

Not modelled: SymPy itself (oracle), printing
(`print`, `verbose`), network code of the LLM clients, the unused function
`add_parentheses_after_keyword` (latex_normalize.py:568-710), CPython's
4300-digit limit of int/str conversion, word-final sigma in `str.lower`.

## Layout
* Model: the files of the table above plus `UnicodeTables PyStr Regex Float64 Monad`.
* Theory: `*Theory*.v`, `Norm*.v`, `Automaton FloatText LatexForm Answer Pipeline FloatError DecNorm AnswerNum Pair Identity CaseFold SeqAuto SeqForm Sequence SeqNum MatAuto MatForm MatNum Written WrittenParse WrittenMore WrittenValue Imaginary VocabTheory Named NamedMany FloatRound FloatRepr Readings PctReads Symbols Permute Reprint Evidence IntervalSym Justified Complex NormText WrittenAt`, `Parser*.v`, `L2S*.v`, `LexTheory`, `Grammar*.v`, `Arith*.v`, `CalcFindings`, `Weight`, `Terminate`,
  `Deep`, `ClockEquiv`, `IntervalEval`; small specifications in `Spec.v` and at the
  head of each theory file.
* `Vocabulary.v`: every word of the lexer with its token kind, generated from PS.g4 by `tools/vocabulary.py`;
  the specification of C110, independent of Lexer.v.
* `Demo*.v`: concrete oracles (table-driven worlds, exact rational SymPy, exact
  intervals, an expression-building SymPy). They only serve the Examples, which show that
  the hypotheses can be met, and the witnesses of the findings.
* `Props_*.v`: the theorems of properties.jsonl, each closed by `exact`, with
  Examples and `Print Assumptions`.

## Hypotheses on oracles
Most theorems quantify over oracles without any hypothesis. Where one is needed it is a
named predicate, visible in the theorem, and met by a `Demo*.v` oracle:
* `prints_numbers` (C13): `str(latex2sympy(x))` of an integer literal is a numeral
  made of characters that normalisation leaves alone, not longer than a fixed bound.
* `exact` (C39, C59): SymPy numbers behave like rationals under `-`, `/`, `abs`, `<`.
* `faithful` (C52): the SymPy constructors denote the arithmetic operation of their name.
* C77: `faithful`, and `o_parse` returns the tree found by Grammar.v.
* `faithful_calc` (C82, C83): `faithful` for every assignment, and the binder constructors denote the operators of an abstract calculus.
* C93: `faithful`, `exact`, `answers` (truth and equality of numbers can be asked), `python_agrees` (SymPy's own
  `parse_expr` rejects the text or reads the same number), and that what denotes a rational number is a number to SymPy.
  `joined` (Pipeline.v) plugs the model of latex2sympy2.py into the `Sympy` record of Parser.v, so the only
  oracle left is SymPy. The state is one without variables declared through `set_variances` (`unset`).
* C96-C98: `faithful` under every assignment; `symbolic` (Identity.v): free symbols, evaluation at drawn numbers and the
  difference of equal numbers are what they should be, and `expand`/`simplify` may say anything or raise as long as the
  difference of equal functions is not taken for a non-zero number; C98 adds `sound` (no false equation is proved).
  `has_symbols`: which symbols the object read by latex2sympy has; proved from the expression for a back end that
  does not cancel symbols (C96_symbols), a hypothesis otherwise.
* `matrices` (C53): the oracle tells matrices from other values.

## Properties (see properties.jsonl for the statements)
Planned proof technique per property:
* C01 C03 C05 C10 C14: case analysis of the model with arbitrary oracles and states.
* C02 C04: the symbolic state is returned untouched.
* C06: double loop = existential quantification, induction on both lists, permutation invariance.
* C07 C08 C09 C11: induction over the zip / greedy loops; spec = Forall2, partial matchings, permutations.
* C12: induction over rows and columns.
* C13: a character weight that normalisation does not increase and splitting strictly decreases; fuel monotonicity.
* C15 C16 C17 C19: induction over the scanners, specs by bracket counting.
* C18: induction on groups of three digits, regex theory.
* C20 C21 C24 C27: regex theory ("no match if a needed character is missing", "first characters") and exact float reading.
* C22: Horner induction. C23 C26: regex characterisation. C25 C30: witnesses by vm_compute.
* C28: character-set tracking through every rewriting step.
* C29 C31: strict decrease; wrapper regex characterisation.
* C32 C33 C34 C35 C36 C37 C38 C40 C41: induction / case analysis over arbitrary SymPy oracle.
* C39: exact rational SymPy instance.
* C42 C43 C44: case analysis with arbitrary oracles.
* C45 C46: induction on attempts; list reasoning. C47 C48 C49: list induction.
* C50 C51: invariants over call histories. C52: induction on parse trees, denotational semantics. C53: case analysis.
* C54: induction over unions/intersections with a membership semantics.
* C55: case analysis. C56 C57 C58: regex theory for the general shape, witness by vm_compute.
* C59 C60 C61: arbitrary SymPy oracle, induction over entries.
* C62 C63 C64: interval semantics over the rationals.
* C65-C71: arbitrary SymPy oracle, case analysis of the converter; witnesses with `ESympy`.
* C72: alphabet argument: every pattern of the normaliser needs a character outside the alphabet.
* C74: regex completeness, induction over the scan. C75: soundness of every parser combinator by induction on fuel.
* C76 C77: printer/parser inverse by induction on expressions, with the set of tokens that may follow each level. Products without a sign: the left factor is put in parentheses if it is a name before a parenthesis (that would be an application), a Greek letter (its token takes the space), or if its last letter and the next letter begin a word of the lexer. The answer-level properties (C91 on) cover expressions without such products and without superfluous parentheses (`plain`, `printable`).
* C78 C79 C80 C81: computation on token shapes for all names.
* C73: induction on nesting depth against stack size.
* C86 C88 C89 C90: case analysis over outcomes of the oracle. C87: induction on the recursion depth.
* C82: induction on parse trees with binders. C83 C84 C85: the converter on one tree shape; token shapes; an invariant of every operation.

* C91: a finite automaton accepts the writing; each rewriting rule's patterns die on it (`Automaton.v`: a pattern that
  needs a factor no accepted word has cannot match); decided by vm_compute once per rule, hence for words of every length.
* C92: balance and comma arguments on the text. C93: composition of C91, C76/C77, C86 and C39.
* C99 C100: C91 for letters of either case (the automaton reads both); findings closed by C04 for every back end.
* C101: C91 with an automaton that also reads commas; C93 with the state threaded (every operation of the comparison keeps
  latex2sympy's globals empty); greedy matching by exchange (C07); sets of values by a bijection argument.
* C96 C97 C98: composition of C91, C77 (one object for all assignments), C86 and the stages of C88; random draws as state.
* C102-C106: C76/C77 extended: the tokens that may follow an expression now include relation signs, arrows and commas; chains and
  repeated exponents by induction on their length; one tree for all assignments (determinism of the parser) under binders.
* C107: the six lookaround alternatives on every pair of neighbours; induction over the text.
* C108 C109: C91 with an automaton that also reads the environment and its separators; the cutting of C25/C26; C101's threading.
* C110: the languages of the rules' patterns; `Vocabulary.v` is the spec. C111: an invariant of every parser combinator (a name is only consumed between guards).
* C112 C113: C76/C77 for the head and parentheses; per function name the converter by computation; induction over the list of arguments. Completeness of the tables over the vocabulary.
* C117: computation over all pairs of letters. C118: all matches of the pattern characterised; induction over the pieces of the text; then C77.
* C114: a decimal closer than half a unit rounds to the double (quarter below a power of two); seventeen digits are that close; the text parses back to digits and exponent. C115: any() over pairs of readings, each pair as in C93; near decimals for the float texts via C114.
* C116: soundness of the grammar for the braces (GrammarTheory) gives the tokens of the subscript, whose text is the expression without spaces; names told apart by injectivity of the writing.
* C119: induction over the pieces of a text, one replacement after the other; the fraction command in force is an invariant of histories.
* C122: as C121, for evaluations.py.
* C120: computation for every back end. C121: inversion of every step of the comparison, induction over the depth; the evidence is an inductive relation.
* C126: alphabets for which every pattern of the normaliser needs a character outside; the order of the steps at latex_normalize.py:292-305.
* C127: a literal pattern is replaced as by str.replace; one induction over the formula per command.
* C128: the first match of the membership pattern, and leading spaces are immaterial to `further`.
* C129: C27's prefix lemmas for the number, C91 for the normal form of the radians.
* C130: C27's prefix lemmas for the number; the star keeps the rest of the steps away.
* C131: the first match of the separator pattern with backtracking over the space; C18 for the finding.
* C132: C127's replacement lemmas over a list of glyphs, one deletion at a time.
* C133: matches of the two patterns as equivalences (`AllowEval.v`); dead code, modelled for completeness.
* C134: first match of the separator pattern on any text separator, then the reading of C131 with any gap (`NormOrText.v`).
* C135: induction over the list of numbers; a comma that no word follows is not matched (`NormList.v`).
* C136: an inert alphabet that contains the braces (`NormBrace.v`).
* C137: the induction of C135 over equations (`NormEqs.v`).
* C125: C102's method; bars by induction on their number. Bars with a subscript only from the tree on (C82).
* C123: the unit replaced, then C91's normal form of the expression with \sqrt{-1}, replaced back. C124: the units' clean-up (C28) with a suffix \text{...} carried through every step.
* C94 C95: error analysis of `round_ratio` over the rationals.

## Testing the theorems
`seeded/LOG.jsonl`: each line is a deliberately wrong version of a model definition, the
claim it breaks, and the theorems that stopped proving.
