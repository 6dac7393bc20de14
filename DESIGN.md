# Formal model of willhyper/two_dist_set in Rocq (Coq 8.16.1)

## 1. What the code does

`srg` enumerates adjacency matrices of strongly regular graphs SRG(v,k,l,u) row by row.
`solver._seed` fixes two rows. `solver.advance` turns a partial matrix into a linear system
(`Question.from_matrix`), `solver.solve_question` solves that system with a stack of sub-problems
(merge equal columns, eliminate, tighten bounds, read off single-entry rows, fork), and each solution
becomes a new row. `sorter` orders and relabels matrices, `utils` has parameter arithmetic, `database`
stores known results.

## 2. Trusted base

* Coq's kernel, including its `vm_compute` conversion. `vm_compute` is used for concrete cases
  (witnesses, examples, database checks, re-running the solver). `coqchk` re-checks all of it without
  the virtual machine.
* `Print Assumptions` after each theorem of `Properties.v` says `Closed under the global context`:
  no theorem depends on an axiom.
* `coqchk` lists seven axioms of the standard library for the library as a whole:
  `Coq.ssr.ssrunder.Under_rel.{Under_rel, Under_relE, Under_rel_from_rel, Over_rel, over_rel, over_rel_done,
  under_rel_done}`. They come with a standard library file that `lia` loads; no theorem here uses them (see the previous point).
* That the model describes the code. Section 4 says how each source file is modelled and section 5 what is
  left out.
* `tools/gen_database.py`, which transcribes the files `srg/database/problem_*.py` into `Database.v`
  (it strips `array(...)`/`dtype`, reads the lists with `ast.literal_eval` and packs rows into integers;
  it never imports or runs the files).
* No axiom, functor, plugin, switched-off check or admitted proof of our own.

## 3. Files (rocq/theories)

| file | content |
|---|---|
| `Np` | Python/numpy vocabulary: `res`, int8/int64 wrap, slices, loops |
| `ModelGauss` | model of gauss_elim, bounds, fork, partition, unique |
| `Model` | model of srg.py, solver.py, `__main__` |
| `ModelWidth` | copy of the search that raises `Overflow` where an int8 or int64 result does not fit (for C34 only) |
| `ModelExact` | copy of the search in unbounded integers (for C79 only) |
| `ModelOpt` | copy of the search and of `main_program` without the `assert`s, as under `python -O` (for C80 only) |
| `ModelSelf` | self tests of the modules, `gauss_elim.sort` (for C84) |
| `ModelDebug` | `_invariant_check`, the `debug` decorator, and the search with the decorator on its steps (for C52) |
| `ModelSort` | model of sorter.py and the sorted output of `__main__` |
| `ModelUtil` | model of utils.py, pprint `compose`, database names |
| `ModelFloat` | `eig` and `determinant` with Python ints and doubles (for C67-C69) |
| `ModelTests` | the tests of tests/test_database.py as programs (for C45, C70, C71) |
| `ModelSuite` | tests/test_solver.py and tests/test_sort.py as programs (for C76) |
| `ModelDraw` | `draw` of srg/database (for C77) |
| `ModelExp` | model of exp.py |
| `ModelPrint` | the text written by `python -m srg` |
| `ModelScreen` | the same with escape sequences, and the text before an exception (for C88) |
| `ModelRepr` | text of questions, answers and integer arrays, of `debug` and of two self tests (for C89); spec in `ReprSpec`, proofs in `ReprProps` |
| `ModelHeap`, `HeapSpec`, `HeapProps` | objects and arrays with addresses (for C92-C95) |
| `ModelHeapq`, `HeapqSpec`, `HeapqProps` | heapq on the array, and the elimination on top of it (for C96) |
| `ModelGen`, `GenProps`, `ForkGen` | generators with `next` (for C97, C98) |
| `ModelNumpy2`, `Numpy2Props`, `Numpy2More` | the search under NumPy 2 (for C99); how many columns a refined question has (C102) |
| `Stack` | how many questions wait on the stack (C101) |
| `ModelPart`, `PartGen` | `partition.enum` and `fork.enum` with `next` (for C100) |
| `ModelDb`, `Database` | model of `srg.database`; contents of the problem files |
| `Spec`, `QSpec`, `SortSpec`, `AlgSpec`, `FloatSpec`, `PrintSpec`, `StepSpec`, `TestSpec`, `NumeralSpec`, `DebugSpec`, `ClassSpec`, `TurnSpec` | the specification: graphs, strong regularity, isomorphism, systems, well-formed questions and their solutions, encodings, argsort contracts, determinants and spectra, doubles and faithful rounding, reading a printed text, its exact layout, numerals, representatives of isomorphism classes, turns of a loop |
| `Lib`, `BitFacts`, `Cone`, `ElimFacts`, `QFacts`, `StepFacts`, `ForkFacts`, `GroupFacts`, `LevelFacts`, `Graph`, `SolveFacts`, `AnyFacts`, `WidthFacts` | proofs about the solver, bottom up |
| `ElimProps`, `SolverProps`, `QuestionProps`, `PartProps`, `ReduceProps`, `SortFacts`, `MaxFacts`, `MaxFix`, `MaxIdem`, `SortProps`, `UtilProps`, `Conference`, `DbProps`, `WidthProps`, `LinAlg`, `Det`, `Spectrum`, `DetRing`, `CharPoly`, `FloatFacts`, `FloatProps`, `FloatDet`, `TestProps`, `MaxAssert`, `DebugProps`, `Levels`, `Greatest`, `ExpProps`, `PrintProps`, `Settled`, `StepProps`, `Sharp`, `Numeral`, `Layout`, `DebugChar`, `SuiteProps`, `DrawProps`, `Orderly`, `Classes`, `Exact`, `Opt`, `Outside`, `Filter`, `SelfProps`, `AnyArgs`, `EveryLine`, `Total`, `TotalProps`, `WideElim`, `WideProps`, `Turns`, `ScreenProps`, `ElimMore`, `NoStop`, `OddArgs` | proofs of the property theorems |
| `Check`, `Witness`, `QWitness`, `SortWitness` | boolean versions of specification predicates; concrete cases |
| `ClassData`, `PruneData` | relabellings between shipped matrices; hints for the pruned search of `Orderly`. Both are only candidates that Coq checks |
| `Properties` | the property theorems, each closed by `exact`, followed by `Print Assumptions` and an `Example` that its hypotheses can be met |

## 4. How the code is modelled

General decisions:

* numpy vectors are `list Z`; matrices are a record (column count, list of rows) so that `R x 0` arrays exist.
* Exceptions are values: `Ok`, `NoSolution` (srg.py:12), `Raise e`. `NoSolution` is separate because
  `solve_question` and `advance` catch only that one.
* In `Model.v` in-place mutation becomes returning the new question. `ModelHeap.v` models the objects and
  the arrays that are written in place with addresses, and C92 proves that the two agree as long as `_b`,
  `_bounds` and `_v` of the question asked are three arrays (they are for every `Question` made by
  `from_matrix`, `copy` or `fork_enum`). `A` and `_loc` are never written, so they stay values there.
* int8 and int64 wrap-around is written into the model at the numpy operations whose value could exceed
  the width (`i8`, `i64`). Array operations on int8 arrays stay int8; `sum()` is int64; an operation between a
  numpy scalar and a Python int follows NumPy 1.x (the result is int64, e.g. `m + 1` in fork.py:22). `ModelNumpy2` has the
  rule of NumPy 2, and C99 proves that the results are the same up to 383 vertices.
* In `ModelGauss` `heapq` heaps are represented by the sorted list of their contents. `ModelHeapq` writes out
  `heappop`, `heapreplace` and `merge` on the array (from memory of CPython's `Lib/heapq.py`) and C96 proves that
  the elimination is the same. `sorted`/`list.sort` are a stable insertion sort. Python's tuple order is written out.
* The set returned by `one_element_row_locs` is a list without duplicates; that its iteration order does
  not matter is a theorem (C16), not an assumption.
* Loops whose trip count is not syntactically bounded (`while`) use fuel `2^n`; running out of it is
  `Raise OutOfFuel`, which the no-crash theorems exclude.
* In `Model` generators are the list of the values they yield; an exception raised inside is the result of the whole
  list. All users in the program consume generators completely (`sorted`, `reduce`), so a prefix yielded
  before an exception is not observable there. `ModelGen` models `solve`, `solve_question` and `fork_enum` with `next`, and
  C97 and C98 relate the two; `ModelPart` and C100 do so for `partition.enum` and `fork.enum`.
* The text of a printed matrix is numpy's `repr` with default print options (line width 75, summary above 1000
  entries, three items at each edge), written out in `ModelPrint` for 0/1 int8 arrays. It is numpy's layout as of
  1.14 to 2.1, from memory of `numpy/core/arrayprint.py`; numpy was not available here to compare with.
* numpy's `<<` on int64 gives 0 when the shift is 64 or more (numpy >= 1.17). This matters only beyond 64 rows or columns, that is for 67 vertices and more (C73).
* `int(s)` is modelled for ASCII strings (blanks, sign, digits, single underscores); Python's limit of 4300 digits is left out.
* `np.argsort` in `sorter` is a parameter. The theorems assume only its documented contract (the result is a
  permutation that sorts), or additionally stability for short vectors where this is said (numpy's
  default sort is an insertion sort for at most 16 elements, hence `stable_upto`).

Per source file:

| source | modelled | not modelled |
|---|---|---|
| `srg/srg.py` | `Answer` (constructor, `default`, `copy`, `binarize`, quota, location), `Question` (constructor, setters with their assertions, `from_matrix`, `copy`, `_invariant_check`), `SRG`, `vklu`, `__repr__` and `__str__` (`ModelRepr`) | numpy print options other than the defaults |
| `srg/solver.py` | all steps, `solve_question`, `advance`, `solve`, `_seed`, `assert_srg` and `_assert`s | timing and printing |
| `srg/gauss_elim.py` | `_encode`, `_decode`, `_dec2bin`, `_gauss_elim`, `elim`, `sort` (not called anywhere), the self test | |
| `srg/bounds.py`, `srg/fork.py`, `srg/partition.py`, `srg/unique.py` | everything the modules export, the values of the self tests under `if __name__`, the text for `unique` | the text of the self tests of `bounds` and `partition` (sets, numpy scalars: differs between numpy versions) |
| `srg/sorter.py` | everything | entry width (0/1 entries cannot overflow there) |
| `srg/utils.py` | `complement`, `complement_vklu`, `determinant` and `eig` (exactly in `ModelUtil` for `conf != 0`, in double precision in `ModelFloat`), `debug` wrapper (its text in `ModelRepr`) | infinities, subnormal numbers, numpy's warnings, `np.sqrt` of integers beyond int64 |
| `srg/pprint.py` | `compose`, `green`, `blue`, `red` and `clear` with click's escape sequences (`ModelScreen`, `ModelRepr`) | `yellow` (unused); click on Windows |
| `srg/__main__.py` | the list it prints, the four arguments, the text, also before an exception | the error stream |
| `srg/database` | names, listing, lookup, imports of `__main__`, contents of the problem files; `draw` up to the edges and the file names | the order in which pkgutil lists modules; networkx, matplotlib |
| `exp.py` | everything | |
| `tests/` | tests/test_sort.py and tests/test_solver.py (`ModelSuite`); the three functions of tests/test_database.py (`ModelTests`) | pytest; `np.linalg.eig` and `np.prod` of floats are parameters |

`utils.eig` computes with floats. `ModelUtil.eig` uses exact rationals for the divisions and truncates as `int` does; C67 proves
that double precision gives the same for parameters up to 2^20. In `ModelFloat` the operations of the floating point unit are
parameters. The theorems assume only that results are faithfully rounded (IEEE 754 rounding to nearest, as in numpy, is; `FloatFacts`
contains such a rounding and square root), so no axiom about floats is needed.

Evidence that the model follows the code, besides reading: with no adjustable part it reproduces all shipped
database lists with v < 20 and (25,8,3,2), matrix by matrix and in the same order (C40), and the examples of
tests/test_sort.py (C47). The repository's code was never run. For exploration (finding witnesses) a
scratch re-implementation in plain Python was used; nothing proved depends on it.

## 5. Findings about the code

The `_refuted` theorems have a concrete witness each.

* C03: `python -m srg 22 9 4 3` prints matrices that are not strongly regular (one has a row with seven ones).
  `gauss_elim` drops equations `0 = c` with `c > 0`, so unsolvable systems go unnoticed. No graph with
  these parameters exists at all (C49), so printed matrices are no evidence that one does.
* C07: same cause inside `solve_question`, reached from the seed (5,3,1,3).
* C11: same cause inside `elim`.
* C09, C30: wrap-around of `u` or `l` beyond 127; row 1 of the seed is short when u > k.
* C17: `fork_enum` can raise AssertionError when a bound exceeds the quota.
* C18: `reduce_col` loses solutions when a bucket with a known value lies inside a group.
* C20: `Answer` accepts the locations (0,2,1); only the last comparison of its check is effective.
* C25: with an unstable argsort `maximize` can return a smaller matrix.
* C26: `maximize` raises TypeError when vertex 0 is adjacent to all others.
* C34: for (15,13,0,156) the int8 array of quotas wraps. For (66,64,62,64), a graph (the complement of 33 edges)
  within the bound v <= 66, a column key of 64 entries becomes negative. Whether the product of solver.py:132 can
  wrap in a question that is rejected anyway (solver.py:135-140) is open; `ModelWidth` checks it only where it is used.
  None of this changes the result up to 66 vertices and u <= 127 (C79).
* C35: `eig` truncates non-integral multiplicities, e.g. (22,9,4,3).
* C36: `srg/database/__main__.py` imports a module `util` that does not exist (and calls
  `util.assert_arg`, which no module defines).
* C41: the shipped list for (29,14,6,7) is empty although the Paley graph on 29 vertices exists. The lists for (25,12,5,6) (Paley
  graph on 25 vertices) and (26,10,3,4) also lack a graph. All other shipped lists are complete.
* C43: the shipped list for (28,12,6,4) is not in the program's order.
* C44: the two matrices shipped for (10,6,3,4) are isomorphic. Ten files contain isomorphic matrices; C78 has the counts.
* C58: the two comparisons of exp.py are both False: `maximize` does not find the printed labelling of the Petersen graph.
* C60: from 32 vertices on the program prints numpy's summary (`...`); for (36,15,6,6) different matrices get
  the same text, and the rest of an answer cannot be recovered from the output.

* C69: `determinant` is wrong for the Paley graph on 37 vertices and most larger conference graphs: it rounds a product of doubles.
  The smaller ones (up to 29 vertices) come out right.
* C70: `test_srg_matrix_identity` does not look at the diagonal; a polarity matrix of the Fano plane, which has loops, passes.
* C73: `python -m srg 68 66 64 66` prints no graph although the complement of 34 disjoint edges is one: keys of more than 64 entries collide. Up to 67 vertices nothing is lost.
  With unbounded integers the same search finds it (C79).
* C99: under NumPy 2 `solve_question` loses solutions of a question whose smallest bound is 127 (`m + 1` wraps in fork.py:22). Not reached up to 383 vertices.
* C80: under `python -O` the fourth argument is not used by the search: `python -O -m srg 5 2 0 7` prints the pentagon under the
  heading for (5,2,0,7). The check of utils.py:32 is an `assert`.
* C81: the identity of utils.py:32 is the only check of the arguments. `python -m srg 5 0 -2 0` prints a matrix with a loop,
  `4 2 -1 4` the 4-cycle and `5 5 3 -5` the complete graph, since Python clips slices or counts them from the end.
* C76: `test_matrix_property` tests neither regularity nor the last vertex (a star passes); `test_solve` uses `zip` and so cannot notice
  missing or additional graphs, and passes for an empty list.
* C71: `test_determinant` multiplies in int64 and so rejects correct graphs with a large determinant (7 x 7 rook's graph). No
  shipped matrix is affected.

## 6. Properties

Status in MANIFEST.json. `partial` there means: the statement of properties.jsonl is false or not fully
proved; theorems `_refuted` show why it is false, theorems `_partial` prove what remains.

| id | model | idea of the proof |
|---|---|---|
| C01 | whole solver | relabel the graph to its lexicographically largest matrix; each row prefix of it survives every step (C08, C09) |
| C02 | whole solver | invariant on partial matrices by induction on levels; needs no bound on v |
| C03 | whole solver | witness by running the model; upper bounds on inner products by the cone argument; a regular result is strongly regular |
| C04 | whole solver | forks fix different values, buckets are injective, different parents give different rows |
| C05 | whole solver | invariant of questions: the all-ones row is a non-negative combination of the rows ("cone"), which bounds everything; explicit measures for all loops |
| C06 | whole solver | invariant on column order; buckets put ones first |
| C07 | solve_question | witness; `A x <= b` from the cone |
| C08 | solve_question | each step keeps the canonical solutions |
| C09 | from_matrix | algebra on inner products; ranges |
| C10-C13 | gauss_elim | loop invariants on the heap, measure, normal form, binary digits |
| C14-C16 | bounds, only_1 | list induction; steps commute |
| C17 | fork | case split on the value of the minimal unknown |
| C18 | reduce_col | witness; the sizes of the groups of columns give sizes of groups of buckets, deletion keeps the first of each group, solutions are group sums and split back greedily |
| C19, C20 | Answer | list induction |
| C21 | partition | induction on bounds |
| C22 | unique | induction on runs; keys of columns injective up to 64 rows |
| C23 | sorter.sort | lexicographic order; stable sort |
| C24-C27, C46, C47 | sorter | argsort as an arbitrary sorting permutation; refinement of intervals |
| C28, C31, C45 | utils, tests | counting over `seq 0 v` |
| C29, C30 | assert_srg, _seed | counting edges between neighbours and non-neighbours |
| C32, C42 | database names | decimal printing and parsing |
| C33, C40 | database | run the model (`vm_compute`), then C01 |
| C34 | `ModelWidth`, whole search | each checked step equals the unchecked one: entries and quotas are bounded by the cone invariant, keys by their length |
| C35 | utils.eig | integer algebra |
| C36 | database main | evaluation |
| C37 | compose | induction |
| C38 | main | C04 and C23 |
| C39, C43, C44 | database | verified checker run on the packed rows |
| C49, C50 | utils.eig, determinant | `(A-rI)(A-sI) = uJ` makes `A-kI`, `A-rI`, `A-sI` multiples of idempotents; a quasi-idempotent matrix over an integral domain factors through a space of its rank, its trace is the multiple of the rank; the three factors give a basis of eigenvectors; determinants multiply (Leibniz formula) |
| C51 | main | evaluation; C01 |
| C52 | `ModelDebug`, whole search | sizes, signs and the number of unknowns are kept by every step that returns; no bound on v needed |
| C53, C54 | solve | reachability along rows; C40 |
| C55, C56 | solve, sorted output | each prefix of a canonical matrix survives (C08); the greatest labelling is canonical; order of the output (C38) |
| C57 | maximize | the run on the result repeats the same intervals, every sort in it finds its row sorted |
| C58 | exp, maximize | witness; C24, C55 |
| C59 | complement | C01, C28, C33 |
| C60 | main_text | the line breaking adds no digits; witness: two members of a switching class with equal outer rows |
| C61 | refine | a round that changes nothing made each step a fixpoint; what a fixpoint of each step looks like |
| C62 | solve_question | the loop over the stack against an inductive definition of the search |
| C63-C65 | single steps | unfolding; the lemmas on substituting columns used for C16 |
| C66 | utils.eig | the eigenvector basis of C49 over an integral domain that contains the two roots (Z, or Z with one of them adjoined) |
| C67, C68 | `ModelFloat` | rational bounds on rounding errors; results that must be integers are representable; fractions with small denominators stay away from integers |
| C69 | `ModelFloat` | C66 at 0; the rounded product is a double, the exact value is not; interval computation for u <= 7 |
| C70 | `ModelTests` | an equation modulo 256 between numbers less than 256 apart; the equation of the complement forces the row sums |
| C71 | `ModelTests` | C67, C69; a product modulo 2^64 is exact iff it fits |
| C72 | sorter | relabelling preserves asymmetry, so the first assertion fails |
| C73 | whole solver | run the model; the graph is checked on packed rows. At 67 vertices the only keys that lose an entry belong to two columns which agree in it, unless k = 65, where the runs are computed and no graph exists (parity) |
| C79 | `ModelExact`, whole search | where the checked copy does not raise it equals the exact one (C34); the runs with wrapping keys at 66 vertices are computed |
| C80 | `ModelOpt` | each function equals its copy without assertions or raises AssertionError; C05 excludes the latter |
| C81, C82 | `_seed`, whole search | the clipped seed is a partial matrix in canonical order whenever its first row is not zero; the last row of an answer satisfies its equations exactly. If the first row is zero, every later row is zero or the search stops at once |
| C83 | main_output | C55, C70, C01 |
| C87 | loops of `_elim` and `solve_question` | the measures of C10, C61 and C85, with the number of ones in place of the sum of the keys |
| C88 | `ModelScreen` | induction on strings; C85 |
| C89 | `ModelRepr` | a reader for numbers as a state machine; the printed pieces leave it in its initial state |
| C90 | `ElimMore`, `NoStop` | keys do not see zeros in front; every step keeps "each column has a one", which rules out StopIteration up to 63 columns |
| C91 | `OddArgs` | a printed graph is canonical, so its first two rows are the seed of its own parameters; a seed with two equally long rows is an ordinary seed; with an empty first row every later row is zero |
| C92 | `ModelHeap`, `HeapProps` | each in-place step simulates its functional counterpart and writes only to the arrays of its object or to new ones; the arrays of the objects on the stack stay pairwise disjoint |
| C93 | `HeapProps` | the loop ends only at a question that one more turn leaves equal, so refining is idempotent; with C92 the second call starts from the refined question. Counterexample when the refinement raises `NoSolution` halfway |
| C94 | `HeapSpec`, `HeapProps` | each step raises `NoSolution` either before its first write or in the decorator after its last one; the turns before are those of `refine` |
| C95 | `ModelHeap`, `HeapProps` | `from_matrix` makes an object with new arrays, so C92 applies to every question asked and the arrays it writes are never older than the call |
| C96 | `ModelHeapq`, `HeapqSpec`, `HeapqProps` | `_siftup` moves a hole down and `_siftdown` moves it up; with a hole all other parent/child pairs stay ordered and the items stay the same. Sorted lists with the same items are equal, so the pops and `heapq.merge` give the lists of `ModelGauss` |
| C97 | `ModelGen`, `GenProps` | all matrices of one round of `solve` have the same number of rows, so they are all done or none is; for `solve_question` the turns of the loop are cut at the turns that yield, with the count of turns kept below the fuel |
| C98 | `ModelGen`, `ForkGen` | the values are increasing, so those above the quota come last and the first one kept raises; quota + 1 is among the values exactly when the bound exceeds the quota, and is kept exactly when no equation rules it out |
| C99 | `ModelNumpy2`, `Numpy2Props`, `Numpy2More` | no step increases the sum of the bounds, which is the number of unknowns at the start (at most 380). A question that is forked has at least three columns (C102), so a smallest bound of 127 would need a sum of 381 |
| C100 | `ModelPart`, `PartGen` | a paused generator is its position in every active frame of the recursion; by induction on the bounds the first frame yields what its inner generators yield, in the order of the list of C21 |
| C101 | `Stack` | invariant: for every question on the stack, the number of questions below it plus the sum of its bounds is at most the sum of the bounds at the start. A fork of a bound m pushes at most m + 1 questions whose bounds add up to m less |
| C102 | `Numpy2More` | the last turn of the refinement changes nothing. One column: a row [1] would be filled in, and without such a row the elimination raises StopIteration. Two columns: they are different, so some row has a single one and would be filled in |
| C85 | whole search | a weak invariant (0/1 rows of the right length, bounds in 0..127, b nonnegative) that every step keeps for any number of rows and columns. No step adds columns, and elimination of its own result changes nothing, so refine ends. The product of (bound + 2) over the columns falls in every fork, summed over the stack |
| C86 | gauss_elim, search | elimination commutes with order-preserving renumbering of the rows; a key loses its first bits and is negative when bit 63 is set; runs computed |
| C84 | `ModelSelf` | evaluation; a permutation of the equations |
| C74 | main_program | induction on strings; C60, C02; the line breaking of a row of equal-width items has a closed form |
| C75 | `ModelDebug` | unfolding; the sizes of the buckets telescope |
| C76 | `ModelTests`, `ModelSuite` | a sum over three parts of a row; in a regular graph the counts of the last vertex follow from the others; C40, C47, C54 |
| C77 | `ModelDraw` | list induction; names as in C32 |
| C41, C78 | database | explicit relabellings; the numbers of common neighbours as an invariant; (21,10,5,4) via the complement, (27,10,1,5) and (28,12,6,4) by the model's search without prefixes that a relabelling makes greater (C55 shows that none of the greatest labellings is lost) |
| C41, C48 | database | Paley graph; Lagrange-style descent of van Lint and Seidel: 4m+1 is a sum of two rational squares |

Changes to quantifiers made while working: C04 and C06 say 3 <= v <= 67 (the first version said "all admissible
parameters"; beyond 67 vertices int64 keys of 65 columns or rows collide in a way that changes the result, C73).
