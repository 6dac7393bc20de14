{"id": "C01", "title": "solve is a complete enumeration up to isomorphism", "statement": "For admissible parameters with v <= 67, every graph that is strongly regular with parameters (v,k,l,u) and has at least one edge is isomorphic to at least one of the matrices yielded by solve(SRG(_seed(v,k,l,u))).", "quantifier": "all admissible (v,k,l,u) with 3 <= v <= 67 and all strongly regular graphs on v vertices (any labelling)", "why_tests_cant": "The set of graphs is super-exponential; the repository only compares the sorted output against a hand-kept list for v < 20, and zip() truncates that comparison.", "anchors": ["srg/solver.py:solve", "srg/solver.py:advance", "srg/solver.py:solve_question", "srg/solver.py:_seed", "README.md"]}
{"id": "C02", "title": "solve yields only well-formed adjacency matrices", "statement": "Every matrix yielded by solve(SRG(_seed(v,k,l,u))) is v x v, has entries 0/1 only, is symmetric, has zero diagonal, and its first two rows are exactly the seed.", "quantifier": "all admissible parameters, all yielded matrices", "why_tests_cant": "Must hold for every branch of the search, including branches no shipped parameter set visits.", "anchors": ["srg/solver.py:solve", "srg/srg.py:SRG.append_and_return_new", "srg/srg.py:Answer.binarize"]}
{"id": "C03", "title": "solve yields only strongly regular graphs", "statement": "Every matrix yielded by solve(SRG(_seed(v,k,l,u))) is the adjacency matrix of a strongly regular graph with parameters (v,k,l,u): every row has k ones, two adjacent rows share l ones, two non-adjacent distinct rows share u ones.", "quantifier": "all admissible parameters, all yielded matrices", "why_tests_cant": "The search is only sampled by tests, and there is no final validation in the code: a constraint lost while solving one row is never re-checked.", "anchors": ["srg/solver.py:solve", "srg/solver.py:solve_question", "srg/gauss_elim.py:_remove_zerokeys"]}
{"id": "C04", "title": "solve never yields the same matrix twice", "statement": "The matrices yielded by one run of solve(SRG(_seed(v,k,l,u))) are pairwise different.", "quantifier": "all admissible (v,k,l,u) with 3 <= v <= 67, all pairs of yielded matrices", "why_tests_cant": "Duplicates could come from any fork of any row problem.", "anchors": ["srg/solver.py:solve", "srg/solver.py:fork_enum"]}
{"id": "C05", "title": "solve terminates without an internal error", "statement": "For admissible parameters with v <= 67, exhausting solve(SRG(_seed(v,k,l,u))) terminates and raises no exception (no AssertionError, IndexError, StopIteration/RuntimeError, TypeError); NoSolution never escapes.", "quantifier": "all admissible (v,k,l,u) with 3 <= v <= 67, the complete run", "why_tests_cant": "Termination of the fixpoint loop, of Gaussian elimination and of the stack, and the truth of about twenty internal assertions, depend on every reachable intermediate state.", "anchors": ["srg/solver.py:solve", "srg/solver.py:solve_question", "srg/solver.py:raiseExceptionIfNotSolvableAfterwards", "srg/srg.py:Question", "srg/gauss_elim.py:_elim", "srg/gauss_elim.py:_decode"]}
{"id": "C06", "title": "yielded matrices are in canonical column order", "statement": "In every matrix yielded by solve, for every row r >= 2 and any two later columns that agree on all rows before r, the ones of row r come before the zeros; equivalently the later columns, read from the top down to row r, are in non-increasing lexicographic order.", "quantifier": "all admissible (v,k,l,u) with 3 <= v <= 67, all yielded matrices, all rows and column pairs", "why_tests_cant": "It is a universally quantified statement over rows, columns and search branches; the merging of equal columns (reduce_col) is only correct because of it.", "anchors": ["srg/solver.py:reduce_col", "srg/srg.py:Answer.binarize", "srg/solver.py:_seed"]}
{"id": "C07", "title": "solve_question yields only solutions of its equations", "statement": "Every vector yielded by solve_question(Question.from_matrix(m)) satisfies all the equations A x = b of that question.", "quantifier": "all partial matrices m reached from a seed, all yielded vectors", "why_tests_cant": "The reduction steps must preserve every equation for every coefficient pattern.", "anchors": ["srg/solver.py:solve_question", "srg/gauss_elim.py:elim", "srg/solver.py:zero_in_b"]}
{"id": "C08", "title": "solve_question finds every canonical solution", "statement": "If a 0/1 vector x satisfies A x = b for the question built from a partial matrix with ordered columns, and x has its ones first within every group of equal columns of A, then solve_question yields x.", "quantifier": "all well-formed questions with 0/1 coefficients whose equal columns are adjacent, all 0/1 solution vectors", "why_tests_cant": "No pruning rule (bounds, quota, negative b, elimination, zero bounds) may discard a solution for any coefficient matrix.", "anchors": ["srg/solver.py:solve_question", "srg/solver.py:reduce_col", "srg/solver.py:eliminate", "srg/solver.py:zero_in_b", "srg/solver.py:only_1_element_in_row", "srg/solver.py:fork_enum"]}
{"id": "C09", "title": "from_matrix states exactly the strong-regularity constraints", "statement": "For a symmetric partial matrix m with R rows, a tail x solves the system A x = b of Question.from_matrix(m) iff appending the row (m[:,R], 0, x) gives a row with k ones meeting each earlier row i in l ones if m[i,R]=1 and u ones otherwise; if from_matrix raises NoSolution then no 0/1 tail does. Here v, k, l, u are those of vklu(m): the number of columns, the ones of the first row, the scalar product of the first two rows as an int8, and k(k-l-1)/(v-k-1) rounded down, or 0 if v = k+1; a matrix with fewer than two rows raises IndexError.", "quantifier": "all partial matrices with 2 <= R < v rows and all tails x", "why_tests_cant": "Equivalence over all tails and matrices.", "anchors": ["srg/srg.py:Question.from_matrix", "srg/srg.py:vklu"]}
{"id": "C10", "title": "Gaussian elimination never loses a solution", "statement": "For every 0/1 matrix A with a non-zero first column and non-negative b, every x with A x = b also satisfies A' x = b' where (A', b') = gauss_elim.elim(A, b).", "quantifier": "all 0/1 matrices with at most 63 columns, all right-hand sides, all integer vectors x", "why_tests_cant": "Universal over matrices and solutions.", "anchors": ["srg/gauss_elim.py:elim", "srg/gauss_elim.py:_elim", "srg/gauss_elim.py:_gauss_elim"]}
{"id": "C11", "title": "Gaussian elimination adds no solution", "statement": "Every non-negative x with A' x = b' for (A', b') = gauss_elim.elim(A, b) satisfies A x = b, i.e. the reduced system is equivalent to the original one.", "quantifier": "all 0/1 matrices, all right-hand sides, all non-negative x", "why_tests_cant": "Needs the whole solution set, and inconsistent systems in particular.", "anchors": ["srg/gauss_elim.py:elim", "srg/gauss_elim.py:_remove_zerokeys"]}
{"id": "C12", "title": "Gaussian elimination terminates in a normal form", "statement": "elim terminates on every 0/1 system; its result has the same number of columns (if the first column is non-zero), entries 0/1, no zero row, non-negative right-hand side, rows sorted by their binary value, no row that can still be subtracted from a later one, and elim applied again returns it unchanged.", "quantifier": "all 0/1 matrices with a non-zero first column and 1..63 columns, all non-negative b", "why_tests_cant": "Termination and idempotence of a restart loop over all inputs.", "anchors": ["srg/gauss_elim.py:_elim", "srg/gauss_elim.py:_gauss_elim", "srg/gauss_elim.py:_decode"]}
{"id": "C13", "title": "row encoding and decoding are inverse", "statement": "_decode(_encode(A, b)) gives back (A, b) for every 0/1 matrix without zero rows whose first column is non-zero, with at most 63 columns; row keys of different rows are different.", "quantifier": "all 0/1 matrices of width 1..63", "why_tests_cant": "Round trip over all matrices.", "anchors": ["srg/gauss_elim.py:_encode", "srg/gauss_elim.py:_decode", "srg/gauss_elim.py:_dec2bin"]}
{"id": "C14", "title": "bound tightening is exact and loses nothing", "statement": "bounds.lower_upper_bound(A,b,bounds) sets every bound to the minimum of its old value and the b of the rows with a non-zero entry in that column; it never increases a bound, is idempotent, and every non-negative solution of A x = b below the old bounds is below the new ones.", "quantifier": "all non-negative integer matrices, right-hand sides, bounds and solutions", "why_tests_cant": "Universal over systems and solutions.", "anchors": ["srg/bounds.py:lower_upper_bound", "srg/bounds.py:zero_bound_loc"]}
{"id": "C15", "title": "one_element_row_locs picks one witness row per column", "statement": "one_element_row_locs(A) contains (r,c) only if c is the only non-zero column of row r; every column that is the only non-zero of some row occurs exactly once, with the last such row.", "quantifier": "all matrices", "why_tests_cant": "Universal over matrices; relies on dict overwrite order.", "anchors": ["srg/bounds.py:one_element_row_locs"]}
{"id": "C16", "title": "only_1_element_in_row does not depend on set iteration order", "statement": "The resulting question (or NoSolution) of only_1_element_in_row is the same whatever order the Python set returned by one_element_row_locs is iterated in, and every solution of the question is kept.", "quantifier": "all well-formed questions, all permutations of the set", "why_tests_cant": "Hash iteration order is fixed by the interpreter; tests see one order only.", "anchors": ["srg/solver.py:only_1_element_in_row", "srg/bounds.py:one_element_row_locs"]}
{"id": "C17", "title": "forking is an exhaustive and disjoint case split", "statement": "The questions produced by fork_enum(Q) partition the solutions of Q: each solution (with its unknown of minimal bound set to some value) is a solution of exactly one of them, and each produced question fixes that unknown to a different value; fork.enum(quota,bounds,loc) yields exactly the values q with 0 <= q <= bounds[loc] and quota - q <= sum of the other bounds, in increasing order.", "quantifier": "all well-formed questions, all solutions", "why_tests_cant": "Exhaustiveness over all solutions of all questions.", "anchors": ["srg/solver.py:fork_enum", "srg/fork.py:enum", "srg/fork.py:_pop_col"]}
{"id": "C18", "title": "reduce_col merges equal columns without changing the solutions", "statement": "For a question whose equal columns are adjacent, reduce_col keeps one column per group, the new bound is the sum of the group's bounds and equals the room reserved for the group in the answer; a vector solves the reduced question iff it is the vector of group sums of a solution of the original one.", "quantifier": "all questions with adjacent equal columns; all solutions", "why_tests_cant": "Quantifies over all column patterns; the adjacency side condition is never checked by the code.", "anchors": ["srg/solver.py:reduce_col", "srg/unique.py:_encode"]}
{"id": "C19", "title": "binarize expands bucket counts faithfully", "statement": "Answer.binarize returns a 0/1 vector of length len whose i-th bucket (from location i to location i+1) has exactly value[i] ones, all before its zeros; distinct value vectors give distinct results.", "quantifier": "all complete answers with strictly increasing locations and values within quota", "why_tests_cant": "Universal over bucket layouts.", "anchors": ["srg/srg.py:Answer.binarize", "srg/srg.py:Answer.quota"]}
{"id": "C20", "title": "Answer rejects unsorted locations", "statement": "The Answer constructor raises AssertionError whenever the locations are not strictly increasing (its message says 'location is not sorted').", "quantifier": "all location vectors", "why_tests_cant": "Needs all inputs; the check in the code is only on zero differences.", "anchors": ["srg/srg.py:Answer.__init__"]}
{"id": "C21", "title": "partition.enum enumerates all bounded compositions once, in order", "statement": "partition.enum(s,bounds) yields exactly the tuples t with 0 <= t[i] <= bounds[i] and sum s, each once, in increasing lexicographic order.", "quantifier": "all s >= 0 and all non-empty bound lists", "why_tests_cant": "Unbounded list lengths and values.", "anchors": ["srg/partition.py:enum"]}
{"id": "C22", "title": "unique.reduce / unique.expand round trip", "statement": "For every 0/1 matrix with at least one column and 1..64 rows, expand(reduce(A)) = A: reduce collapses runs of equal adjacent columns and expand restores them.", "quantifier": "all 0/1 matrices with 1..64 rows", "why_tests_cant": "Universal over matrices.", "anchors": ["srg/unique.py:reduce", "srg/unique.py:expand", "srg/unique.py:_encode"]}
{"id": "C23", "title": "sorter.sort orders matrices by their upper triangle", "statement": "sorter.sort returns a permutation of its input, ordered lexicographically by the upper triangle read row by row, stable on ties; on symmetric zero-diagonal matrices of one size the comparison is 0 only for equal matrices and is a total order.", "quantifier": "all lists of matrices of the same size", "why_tests_cant": "Order axioms quantify over triples of matrices.", "anchors": ["srg/sorter.py:sort", "srg/sorter.py:_cmp_srg_matrix", "srg/sorter.py:_encode"]}
{"id": "C24", "title": "sorter.maximize returns an isomorphic matrix", "statement": "For a symmetric matrix on which it does not raise, sorter.maximize returns the matrix relabelled by a permutation that fixes vertex 0; its internal symmetry assertion never fails and it terminates.", "quantifier": "all symmetric square matrices, any tie-breaking of numpy's argsort", "why_tests_cant": "numpy's default argsort is not stable: all tie-breaking choices must be covered.", "anchors": ["srg/sorter.py:maximize", "srg/sorter.py:AdjMat.sort", "srg/sorter.py:AdjMat._div_sort", "srg/sorter.py:AdjMat._sort"]}
{"id": "C25", "title": "sorter.maximize never makes the encoding smaller", "statement": "The upper-triangle encoding of sorter.maximize(A) is lexicographically at least that of A (docstring: swap columns if encode(A) can be larger).", "quantifier": "all symmetric 0/1 matrices on which it does not raise, any argsort", "why_tests_cant": "Universal over matrices and tie-breaking.", "anchors": ["srg/sorter.py:maximize", "srg/sorter.py:AdjMat._sort"]}
{"id": "C26", "title": "sorter.maximize accepts every adjacency matrix", "statement": "sorter.maximize raises no exception on any adjacency matrix of a graph.", "quantifier": "all symmetric 0/1 zero-diagonal matrices", "why_tests_cant": "Exceptional inputs have to be characterised exactly.", "anchors": ["srg/sorter.py:AdjMat.sort", "srg/sorter.py:AdjMat._div_sort"]}
{"id": "C27", "title": "sorter.swap relabels two vertices", "statement": "swap(M,i,j) is M with vertices i and j exchanged; swapping twice restores M; swap_and_verify never fails on symmetric zero-trace matrices.", "quantifier": "all square matrices, all in-range i, j", "why_tests_cant": "Universal over matrices and indices.", "anchors": ["srg/sorter.py:swap", "srg/sorter.py:swap_and_verify"]}
{"id": "C28", "title": "complement of a strongly regular graph", "statement": "utils.complement maps the adjacency matrix of an SRG(v,k,l,u) to the adjacency matrix of a graph that is strongly regular with parameters utils.complement_vklu(v,k,l,u), complementing twice restores the matrix, and complement_vklu is an involution.", "quantifier": "all SRG adjacency matrices, all parameter tuples", "why_tests_cant": "Universal over graphs; tests only cover the shipped matrices.", "anchors": ["srg/utils.py:complement", "srg/utils.py:complement_vklu", "srg/utils.py:_invert"]}
{"id": "C29", "title": "assert_srg never rejects realizable parameters", "statement": "If some strongly regular graph with parameters (v,k,l,u) exists, assert_srg(v,k,l,u) passes.", "quantifier": "all graphs and parameters", "why_tests_cant": "Counting identity over all graphs.", "anchors": ["srg/utils.py:assert_srg", "srg/__main__.py"]}
{"id": "C30", "title": "_seed encodes its parameters", "statement": "For admissible parameters, _seed(v,k,l,u) has row 0 adjacent to vertices 1..k, row 1 with k ones sharing l ones with row 0, and vklu(_seed(v,k,l,u)) = (v,k,l,u) whenever k < v-1.", "quantifier": "all admissible parameters", "why_tests_cant": "Universal over parameters (slices clip silently).", "anchors": ["srg/solver.py:_seed", "srg/srg.py:vklu"]}
{"id": "C31", "title": "strong regularity is equivalent to the matrix identity", "statement": "A 0/1 symmetric zero-diagonal matrix with A A - (l-u) A = (k-u) I + u J (the identity the database tests check) is exactly the adjacency matrix of an SRG(v,k,l,u).", "quantifier": "all matrices and parameters", "why_tests_cant": "Equivalence over all matrices.", "anchors": ["tests/test_database.py:test_srg_matrix_identity", "tests/test_database.py:test_matrix_property"]}
{"id": "C32", "title": "database problem names round trip", "statement": "extract_vklu(f'problem_{v}_{k}_{l}_{u}') = [v,k,l,u] and different parameter tuples get different module names.", "quantifier": "all integer parameters", "why_tests_cant": "Infinite domain of integers.", "anchors": ["srg/database/__init__.py:extract_vklu", "srg/database/__init__.py:get_solutions"]}
{"id": "C33", "title": "the database lists are complete up to isomorphism", "statement": "For shipped problems small enough to re-run the solver, every strongly regular graph with those parameters is isomorphic to one of the matrices in the database file (in particular 'no solution' entries are true).", "quantifier": "all graphs with the parameters of the shipped problems", "why_tests_cant": "Ranges over all graphs on v vertices.", "anchors": ["srg/database/__init__.py:get_solutions", "srg/database/problem_10_3_0_1.py", "srg/database/problem_21_10_4_5.py", "tests/test_solver.py:test_solve"]}
{"id": "C34", "title": "integer width is never exceeded for v <= 66", "statement": "For admissible parameters with v <= 66 no int8 or int64 numpy operation performed by solve wraps around; beyond that width the row/column encodings can collide or turn negative.", "quantifier": "all admissible parameters with v <= 66, all reachable states", "why_tests_cant": "All reachable states and values; overflow is silent in numpy.", "anchors": ["srg/gauss_elim.py:_encode", "srg/unique.py:_encode", "srg/gauss_elim.py:_decode", "srg/srg.py:Question.from_matrix"]}
{"id": "C35", "title": "eigenvalues and multiplicities", "statement": "For parameters satisfying the SRG equation whose discriminant is a perfect square and that are not a conference graph, utils.eig returns k and the two roots of x^2-(l-u)x-(k-u)=0 with multiplicities that add up to v and make the trace zero.", "quantifier": "all such parameters", "why_tests_cant": "Universal over parameters.", "anchors": ["srg/utils.py:eig", "srg/utils.py:conference", "srg/utils.py:determinant"]}
{"id": "C36", "title": "the database command line can be imported", "statement": "python -m srg.database list reaches the code after its import statements: every name imported at module level exists in the package.", "quantifier": "all command lines of srg.database", "why_tests_cant": "No test imports srg.database.__main__.", "anchors": ["srg/database/__main__.py", "srg/utils.py"]}
{"id": "C37", "title": "pprint.compose composes from right to left", "statement": "compose(f1,...,fn)(x) = f1(f2(...fn(x)...)) for every n >= 1.", "quantifier": "all non-empty sequences of functions, all arguments", "why_tests_cant": "Universal over sequences of functions.", "anchors": ["srg/pprint.py:compose", "srg/pprint.py:_compose2"]}
{"id": "C38", "title": "the program prints the solver's matrices in strictly increasing order", "statement": "For admissible parameters the list printed by python -m srg is a permutation of the matrices yielded by solve, and the upper triangles of consecutive matrices are strictly increasing (so nothing is printed twice).", "quantifier": "all admissible parameters with 3 <= v <= 67", "why_tests_cant": "Universal over all parameters; tests only run a few.", "anchors": ["srg/__main__.py", "srg/sorter.py:sort", "srg/solver.py:solve"]}
{"id": "C39", "title": "every shipped matrix is a strongly regular graph", "statement": "Every matrix in the list returned by database.get_solutions(v,k,l,u) is the v x v adjacency matrix of a strongly regular graph with parameters (v,k,l,u).", "quantifier": "all shipped problem files, all their matrices, all pairs of rows", "why_tests_cant": "the test checks a matrix identity that does not imply 0/1 entries, symmetry or zero diagonal", "anchors": ["srg/database/problem_*.py", "tests/test_database.py:65"]}
{"id": "C40", "title": "the program reproduces the shipped lists", "statement": "For every shipped problem with v < 20, and for (25,8,3,2), the list printed by python -m srg v k l u is exactly the list in the database file: same matrices, same order, same length.", "quantifier": "all shipped problems with v < 20 and (25,8,3,2)", "why_tests_cant": "test_solve zips the two lists, so missing or surplus matrices go unnoticed", "anchors": ["tests/test_solver.py:20-27", "srg/__main__.py:12-25", "srg/database/__init__.py:38-42"]}
{"id": "C41", "title": "every shipped list is complete", "statement": "For every shipped problem, every strongly regular graph with those parameters is isomorphic to one of the matrices in its file.", "quantifier": "all shipped problems, all graphs", "why_tests_cant": "a test cannot quantify over all graphs", "anchors": ["srg/database/problem_29_14_6_7.py"]}
{"id": "C42", "title": "listed problems are exactly the retrievable ones", "statement": "list_problems() contains a name exactly if it is problem_v_k_l_u for parameters that extract_vklu recovers from it and for which get_solutions returns a list; no name is listed twice.", "quantifier": "all names, all integer parameters", "why_tests_cant": "tests only go through the listed names, not the parameters get_solutions accepts", "anchors": ["srg/database/__init__.py:29-42"]}
{"id": "C43", "title": "shipped lists are in increasing order", "statement": "The matrices of every database file are in strictly increasing order of their upper triangles, the order the program prints them in.", "quantifier": "all shipped problem files", "why_tests_cant": "no test looks at the order of the stored lists, although test_solver relies on it", "anchors": ["srg/database/problem_*.py", "srg/sorter.py:90-105"]}
{"id": "C44", "title": "shipped lists contain each graph once", "statement": "No two matrices of one database file are isomorphic.", "quantifier": "all shipped problem files", "why_tests_cant": "isomorphism quantifies over all relabellings", "anchors": ["srg/database/problem_*.py"]}
{"id": "C45", "title": "each row satisfies the equations of its predecessors", "statement": "In the adjacency matrix of a strongly regular graph, for every row r and every earlier row i, M[i,:r] @ M[:r,r] + M[i,r+1:] @ M[r,r+1:] is l if M[i,r] is 1 and u otherwise (the property checked by test_matrix_property and used by Question.from_matrix).", "quantifier": "all strongly regular graphs, all rows", "why_tests_cant": "the test only looks at the shipped matrices", "anchors": ["tests/test_database.py:22-45", "srg/srg.py"]}
{"id": "C46", "title": "yielded matrices are fixed points of maximize", "statement": "sorter.maximize returns every matrix yielded by solve unchanged, provided equal entries keep their order in np.argsort and k < v-1.", "quantifier": "all admissible parameters with v <= 67 and k < v-1, every argsort that is stable on at most v-1 entries", "why_tests_cant": "infinitely many parameter sets; links two modules no test combines", "anchors": ["srg/sorter.py:9-88", "srg/solver.py"]}
{"id": "C47", "title": "maximize depends on argsort only through its contract", "statement": "Any two argsort functions that sort stably give the same sorter.maximize; with any of them the two examples of tests/test_sort.py hold.", "quantifier": "all argsort functions stable on at most v-1 entries, all symmetric matrices", "why_tests_cant": "a test runs one argsort implementation", "anchors": ["srg/sorter.py:53-88", "tests/test_sort.py"]}
{"id": "C48", "title": "the empty list for (21,10,4,5) is right", "statement": "No strongly regular graph with parameters (21,10,4,5), (33,16,7,8) or (57,28,13,14) exists, although assert_srg accepts them; in general a graph with parameters (4m+1,2m,m-1,m) makes 4m+1 a sum of two rational squares.", "quantifier": "all graphs on 21, 33, 57 vertices; all m", "why_tests_cant": "nonexistence quantifies over all graphs", "anchors": ["srg/database/problem_21_10_4_5.py", "srg/utils.py"]}
{"id": "C49", "title": "eig returns the spectrum of every graph with the parameters", "statement": "For every strongly regular graph with 1 <= k < v-1 whose conference(v,k,l,u) is not 0, utils.eig(v,k,l,u) is the spectrum of its adjacency matrix: there is a basis of eigenvectors with the returned eigenvalues, each as often as its returned multiplicity. Hence parameters whose multiplicities do not add up to v belong to no graph.", "quantifier": "all strongly regular graphs with 1 <= k < v-1 and conf != 0", "why_tests_cant": "quantifies over all graphs; the tests compare a few determinants in floating point", "anchors": ["srg/utils.py:9-20"]}
{"id": "C50", "title": "determinant is the determinant of the adjacency matrix", "statement": "For every strongly regular graph with 1 <= k < v-1 and conference(v,k,l,u) != 0, utils.determinant(v,k,l,u) equals the determinant (Leibniz formula) of its adjacency matrix.", "quantifier": "all strongly regular graphs with 1 <= k < v-1 and conf != 0", "why_tests_cant": "tests compare with a rounded floating-point determinant for the shipped matrices only", "anchors": ["srg/utils.py:24-29", "tests/test_database.py"]}
{"id": "C51", "title": "the command line rejects impossible parameters", "statement": "python -m srg v k l u raises AssertionError whenever (v-k-1)u != k(k-l-1), and if it raises AssertionError for 3 <= v <= 67 and k >= 1 then no strongly regular graph with these parameters exists.", "quantifier": "all integers v, k, l, u; second part 3 <= v <= 67, k >= 1", "why_tests_cant": "infinitely many parameter sets; the second part quantifies over all graphs", "anchors": ["srg/__main__.py:15-24", "srg/utils.py:31-32"]}
{"id": "C52", "title": "switching on the debug decorators changes nothing", "statement": "With the five commented-out @debug lines of srg/solver.py active, python -m srg yields the same list or raises the same exception: the copy made before and _invariant_check made after each step never fail. The same holds for every single step on every well-formed question.", "quantifier": "all integers v, k, l, u; all well-formed questions", "why_tests_cant": "tests/test_solver.py calls _invariant_check for one question; the decorator is never on", "anchors": ["srg/utils.py:46-74", "srg/srg.py:234-244", "srg/solver.py:56-158", "tests/test_solver.py:41-57"]}
{"id": "C53", "title": "what solve yields, exactly", "statement": "A matrix is yielded by solve if and only if it is complete, starts with the two rows of _seed, and every further row is one of the vectors solve_question yields for the question of the rows above it.", "quantifier": "all integers v, k, l, u for which the run ends without an exception", "why_tests_cant": "needs the set of all search paths", "anchors": ["srg/solver.py:217-239"]}
{"id": "C54", "title": "test_solve_question passes, and for every shipped matrix", "statement": "For every shipped problem with v < 20, the list is not empty and solve_question of the seed yields, for every shipped matrix, the part of its row 2 right of the diagonal.", "quantifier": "all shipped problems with v < 20, all their matrices", "why_tests_cant": "the test stops at the first match", "anchors": ["tests/test_solver.py:28-39"]}
{"id": "C55", "title": "the strongly regular matrices yielded are the canonical ones", "statement": "For 3 <= v <= 67, k >= 1, u >= 0, a strongly regular adjacency matrix with the parameters is yielded by solve if and only if it is in canonical column order: columns right of row r that agree above row r have their ones in row r first.", "quantifier": "all v, k, l, u in the range, all strongly regular matrices", "why_tests_cant": "ranges over all labellings of all graphs", "anchors": ["srg/solver.py:217-239", "srg/solver.py:117-158"]}
{"id": "C56", "title": "the greatest labelling is printed, and printed last", "statement": "For every strongly regular graph with the parameters (3 <= v <= 67), the matrix of its lexicographically greatest labelling is printed, and no later printed matrix is isomorphic to the graph.", "quantifier": "all v, k, l, u in the range, all strongly regular graphs", "why_tests_cant": "ranges over all v! labellings", "anchors": ["srg/__main__.py:18-24", "srg/sorter.py:6-19"]}
{"id": "C57", "title": "maximize is idempotent", "statement": "With an argsort that is stable on vectors shorter than v, maximizing a result of maximize returns it unchanged. Without stability this fails.", "quantifier": "all adjacency matrices, all sorting functions", "why_tests_cant": "all matrices and all admissible argsorts", "anchors": ["srg/sorter.py:21-129"]}
{"id": "C58", "title": "maximize turns every labelling into a printed matrix", "statement": "For a strongly regular graph given in any labelling, maximize returns a matrix that python -m srg prints for its parameters; in particular the two comparisons of exp.py are True.", "quantifier": "all strongly regular graphs with 3 <= v <= 67, all labellings", "why_tests_cant": "exp.py drops the results of its two comparisons", "anchors": ["exp.py:10-23", "srg/sorter.py:89-129"]}
{"id": "C59", "title": "complementary problems", "statement": "If the search for (v,k,l,u) yields nothing there is no strongly regular graph with the complementary parameters either. For shipped problems with v < 20 whose complementary problem is shipped too, the complement of every shipped matrix is isomorphic to a matrix shipped for the complementary problem.", "quantifier": "all 3 <= v <= 67, k >= 1, all l, u; all shipped matrices with v < 20", "why_tests_cant": "non-existence over all graphs", "anchors": ["srg/utils.py:9-22", "srg/database"]}
{"id": "C60", "title": "the printed text shows the matrices", "statement": "Different matrices of an answer of python -m srg have different printed text, and every entry of every matrix can be read off the text.", "quantifier": "all admissible v, k, l, u with v <= 67", "why_tests_cant": "no test looks at the printed text", "anchors": ["srg/__main__.py:12-24", "srg/pprint.py:16-18"]}
{"id": "C61", "title": "the refinement loop stops only when nothing more can be read off", "statement": "When the inner loop of solve_question stops without NoSolution, another round would change nothing, and the question it leaves has pairwise different columns, no unknown with bound 0, no bound above the right-hand side of a row it occurs in, at least two unknowns in every row, no row that could be subtracted from another, and bounds that can reach the quota (if no unknown is left, all right-hand sides are 0).", "quantifier": "all well-formed questions that leave at most 63 columns", "why_tests_cant": "the loop compares consecutive questions for equality; no test inspects the question at the end of the loop", "anchors": ["srg/solver.py:189-204", "srg/gauss_elim.py", "srg/bounds.py"]}
{"id": "C62", "title": "solve_question searches depth first, the last fork first", "statement": "The list of answers of solve_question is the one obtained by refining the question, giving nothing on NoSolution, the binarized answer if no unknown is left, and otherwise searching the questions of fork_enum from the last to the first and concatenating their answers.", "quantifier": "all questions on which the search ends without another exception", "why_tests_cant": "order over an unbounded search tree", "anchors": ["srg/solver.py:189-216"]}
{"id": "C63", "title": "zero_in_b removes exactly the unknowns that must be zero", "statement": "zero_in_b lowers every bound to the smallest right-hand side of the rows the unknown occurs in, removes exactly the columns whose bound becomes 0 and sets these unknowns to 0; equations, quota and all other values stay; the solutions are the same; NoSolution is raised exactly when the check after the step refuses the result.", "quantifier": "all well-formed questions", "why_tests_cant": "all systems", "anchors": ["srg/solver.py:91-110", "srg/bounds.py:8-22"]}
{"id": "C64", "title": "the check after a step raises NoSolution exactly in three cases", "statement": "The check after each step raises NoSolution exactly if no column is left and a right-hand side is not 0, or the bounds sum to less than the quota, or a known value exceeds its bucket; otherwise the question passes unchanged.", "quantifier": "all well-formed questions", "why_tests_cant": "all questions", "anchors": ["srg/solver.py:29-50"]}
{"id": "C65", "title": "only_1_element_in_row fills in exactly the unknowns that stand alone in a row", "statement": "only_1_element_in_row gives every unknown that stands alone in a row the right-hand side of the last such row, removes its column, subtracts its contribution from every right-hand side and from the quota, and changes nothing else; NoSolution is raised exactly when one of these values exceeds its bound, their sum exceeds the quota, a right-hand side would become negative or the check after the step refuses the result.", "quantifier": "all well-formed questions", "why_tests_cant": "all systems", "anchors": ["srg/solver.py:112-155", "srg/bounds.py:25-46"]}
{"id": "C66", "title": "eig gives the characteristic polynomial", "statement": "For every strongly regular graph with 1 <= k < v-1 that is not a conference graph, det(xI - A) is the product of (x - e)^m over the pairs (e, m) returned by eig(v,k,l,u). For a conference graph l = u-1, k = 2u, v = 4u+1 and det(xI - A) = (x - 2u)(x^2 + x - u)^(2u), so the two other values eig must approximate are the roots of x^2 + x - u.", "quantifier": "all strongly regular graphs with 1 <= k < v-1, all integers x", "why_tests_cant": "the tests compare eig with a few known tuples; no test ties it to the matrix of a graph", "anchors": ["srg/utils.py:9-22"]}
{"id": "C67", "title": "eig in double precision is exact when the eigenvalues are integers", "statement": "With any double precision arithmetic whose operations are faithfully rounded, eig(v,k,l,u) of a strongly regular graph that is not a conference graph returns Python ints and they are the spectrum of the adjacency matrix; for arbitrary integer parameters of absolute value at most 2^20 with conference(v,k,l,u) != 0 the result (or exception) is that of exact arithmetic.", "quantifier": "all faithful roundings, all such graphs with v <= 2^20; all integer parameters up to 2^20", "why_tests_cant": "int(np.sqrt(d)) and int(x / y) could be off by one for some large arguments", "anchors": ["srg/utils.py:9-19"]}
{"id": "C68", "title": "eig of a conference graph approximates the eigenvalues", "statement": "For a conference graph on v < 2^53 vertices eig returns (k, 1), (r, m), (s, m) with floats r > 0 > s and 2m = v-1, where (2r+1)^2 and (2s+1)^2 differ from v by at most v*2^-49.", "quantifier": "all faithful roundings, all conference graphs with v < 2^53", "why_tests_cant": "all conference graphs, all roundings", "anchors": ["srg/utils.py:9-19"]}
{"id": "C69", "title": "determinant returns the determinant of the adjacency matrix", "statement": "determinant(v,k,l,u) in double precision arithmetic equals the determinant of the adjacency matrix of every strongly regular graph with these parameters.", "quantifier": "all strongly regular graphs with 1 <= k < v-1 and v <= 2^20, all faithful roundings", "why_tests_cant": "tests/test_database.py compares with numpy eigenvalues of the shipped matrices only; the error appears from 37 vertices on", "anchors": ["srg/utils.py:24-29", "tests/test_database.py:48-66"]}
{"id": "C70", "title": "test_srg_matrix_identity decides strong regularity", "statement": "For a list of 0/1 matrices with zero diagonal, test_srg_matrix_identity(v,k,l,u,list), computing in int8, passes exactly if every matrix is the adjacency matrix of a strongly regular graph with parameters (v,k,l,u); symmetry need not be known beforehand. Without the zero diagonal this fails. It passes on every shipped list, as does test_matrix_property.", "quantifier": "all v <= 127, 1 <= k < v-1, 0 <= l,u <= 127, all lists of 0/1 matrices", "why_tests_cant": "this is about the test itself: that no wrong matrix passes despite int8 wrap-around", "anchors": ["tests/test_database.py:20-45", "tests/test_database.py:69-81", "srg/utils.py:34-43"]}
{"id": "C71", "title": "test_determinant passes on every strongly regular graph", "statement": "If np.linalg.eig returns the eigenvalues within 1/2, test_determinant(v,k,l,u,list) passes for every list of strongly regular graphs with these parameters.", "quantifier": "all lists of strongly regular graphs with 1 <= k < v-1, v <= 2^20; all faithful roundings; all eigenvalue routines within 1/2", "why_tests_cant": "the shipped graphs are too small: the product of the eigenvalues overflows int64 only for larger ones", "anchors": ["tests/test_database.py:48-66", "srg/utils.py:24-29"]}
{"id": "C72", "title": "maximize and swap_and_verify reject exactly the matrices they should", "statement": "maximize(A) raises AssertionError exactly if the square matrix A is not symmetric, and swap_and_verify(A,i,j) raises AssertionError exactly if A is not symmetric or its trace is not zero.", "quantifier": "all square matrices of at least two rows, all argsorts, all i, j in range", "why_tests_cant": "tests only pass symmetric matrices", "anchors": ["srg/sorter.py:53-88", "srg/sorter.py:109-119"]}
{"id": "C73", "title": "The completeness of the search stops at exactly 67 vertices", "statement": "The bound v <= 67 in C01 is exact: for n >= 3, every strongly regular graph on 3 to n vertices is found up to isomorphism if and only if n <= 67. The witness beyond it: a strongly regular graph with parameters (68,66,64,66) exists, and the program, given these parameters, ends normally and prints no graph.", "quantifier": "a witness", "why_tests_cant": "the tests stop below 20 vertices; the cause is a 64-bit column key that loses its top bits", "anchors": ["srg/solver.py:56-78", "srg/unique.py:1-40", "srg/__main__.py:12-25"]}
{"id": "C74", "title": "Command line", "statement": "python -m srg a b c d accepts exactly the strings Python's int accepts (blanks, a sign, digits with single underscores). Any other number of arguments or a non-numeral ends in ValueError; parameters that violate (v-k-1)u = k(k-l-1) end in AssertionError; otherwise, if 3 <= v <= 67, the program writes, character by character, the four numbers, the heading and the answers in the layout of C60 (fewer vertices: C82; more: C85).", "quantifier": "all argument lists of ASCII strings; the text for all integers k, l, u with v <= 67", "why_tests_cant": "no test runs the command line", "anchors": ["srg/__main__.py:12-25", "srg/utils.py:31-32", "srg/pprint.py:14-19"]}
{"id": "C75", "title": "_invariant_check and debug accept exactly the consistent questions", "statement": "Question._invariant_check passes iff: right-hand sides and bounds are non-negative, there is one right-hand side per row, one bound per column, one column per undecided bucket, the buckets begin at 0, no bucket holds more than its size, and with no column left all right-hand sides are 0; otherwise it raises AssertionError. A function decorated with debug returns what the function returns if the resulting question is consistent and raises AssertionError otherwise; exceptions of the function pass through.", "quantifier": "all questions whose answer has one value per location; all functions", "why_tests_cant": "only one call of _invariant_check is tested", "anchors": ["srg/srg.py:234-244", "srg/utils.py:46-74"]}
{"id": "C76", "title": "What the test suite decides", "statement": "For graphs, test_matrix_property passes iff any two of the first v-1 vertices have l or u common neighbours, according to adjacency; for k-regular graphs and admissible parameters this is strong regularity, for others it is not (a star passes). test_solve passes iff the sorted output and the list agree as far as both go, in particular for an empty list. test_solve_question passes iff row 2 of some listed matrix is among the candidates. All tests of tests/test_solver.py and tests/test_sort.py pass on the shipped data.", "quantifier": "all lists of graphs with v <= 127; all lists of matrices; all argsort routines that are stable up to 12 elements", "why_tests_cant": "this is about the tests", "anchors": ["tests/test_database.py:20-45", "tests/test_solver.py:19-57", "tests/test_sort.py:7-70"]}
{"id": "C77", "title": "draw draws every stored graph once", "statement": "draw(v,k,l,u) makes one picture per stored matrix, with the vertices 0..v-1 and an edge exactly where the matrix has a one; the file names are different, also for different parameters, so no picture overwrites another. For parameters without a problem file it raises ImportError.", "quantifier": "all parameters", "why_tests_cant": "draw is not tested", "anchors": ["srg/database/__init__.py:45-69"]}
{"id": "C78", "title": "How many graphs each database file contains", "statement": "Every shipped problem file has the number of matrices and the number of isomorphism classes among them of the table ClassSpec.class_table (for instance 161 matrices in 4 classes for (28,12,6,4), 13 in 2 classes for (16,9,4,6)). Except for (25,12,5,6), (26,10,3,4) and (29,14,6,7), every strongly regular graph with the parameters is isomorphic to exactly one of the chosen representatives, so the number of classes is the number of such graphs.", "quantifier": "all shipped problem files; all graphs with their parameters", "why_tests_cant": "isomorphism quantifies over relabellings, completeness over all graphs", "anchors": ["srg/database/__init__.py:10-30", "srg/database/problem_28_12_6_4.py", "srg/database/problem_27_10_1_5.py"]}
{"id": "C79", "title": "Bounded machine integers do not change the results", "statement": "For every admissible (v,k,l,u) with v <= 66 and u <= 127 the search yields exactly the list of matrices, in the same order, that the same program would yield with unbounded integers in place of int8 and int64 - also for (66,64,62,64), where column keys do wrap (C34). For (68,66,64,66) the two differ: with unbounded integers the graph missed in C73 is found.", "quantifier": "all admissible (v,k,l,u) with v <= 66, u <= 127", "why_tests_cant": "there is no version of the program with unbounded integers to compare with, and the parameters are unbounded in number of runs", "anchors": ["srg/gauss_elim.py:71-145", "srg/unique.py:1-27", "srg/solver.py:1-238", "srg/__main__.py:1-25"]}
{"id": "C80", "title": "python -O changes only runs in which an assertion fails", "statement": "Run as `python -O -m srg`, which drops every assert, the program behaves the same for every argument list unless the normal run ends in AssertionError. The search then no longer depends on the fourth argument: for admissible (v,k,l,u') with v <= 67, `python -O -m srg v k l u` finds the matrices of (v,k,l,u') for every u, so parameters that contradict the identity (v-k-1)u = k(k-l-1) are answered with graphs of other parameters.", "quantifier": "all argument lists; all admissible (v,k,l,u') with v <= 67 and all integers u", "why_tests_cant": "tests run with assertions enabled, and the two modes would have to be compared on unboundedly many arguments", "anchors": ["srg/__main__.py:1-25", "srg/utils.py:31-32", "srg/solver.py:1-238", "srg/srg.py:14-262", "srg/gauss_elim.py:14-145"]}
{"id": "C81", "title": "No output for parameters that no graph can have", "statement": "For integers with 3 <= v <= 67 that satisfy (v-k-1)u = k(k-l-1) but not 1 <= k < v, 0 <= l < k, u >= 0, the program prints no matrix.", "quantifier": "all integers k, l, u and 3 <= v <= 67", "why_tests_cant": "the arguments are unbounded in three directions; slices with negative or too large bounds behave differently from the intended ones", "anchors": ["srg/__main__.py:13-25", "srg/utils.py:31-32", "srg/solver.py:16-26"]}
{"id": "C82", "title": "How a run ends, for every choice of the four arguments", "statement": "For every v <= 67 and arbitrary integers k, l, u: if (v-k-1)u = k(k-l-1) fails the run ends in AssertionError; otherwise it ends in ValueError for v < 0, IndexError for v = 0 and v = 1, AssertionError for v = 2, and without an exception for v >= 3. What is then yielded are distinct matrices that start with the two rows of _seed: adjacency matrices in canonical column order, except that for k = 0, k = -1 and k <= -v the matrix whose only nonzero entry is a loop at vertex 1 can appear. On the level of the command line: the program prints its text or ends in one of these three exceptions, for every list of arguments.", "quantifier": "all integers v <= 67, k, l, u; all lists of ASCII strings", "why_tests_cant": "unbounded arguments; also negative and oversized l and u, whose slices are clipped or count from the end", "anchors": ["srg/__main__.py:13-25", "srg/utils.py:31-32", "srg/solver.py:16-26", "srg/solver.py:217-238"]}
{"id": "C83", "title": "Printed matrices that pass the identity test are exactly the canonical strongly regular ones", "statement": "For admissible (v,k,l,u) with v <= 67, k < v-1 and u <= 127: among the printed matrices, those on which test_srg_matrix_identity passes are exactly the strongly regular matrices in canonical column order, each once, and every strongly regular graph with the parameters is isomorphic to one of them. So the test removes exactly the wrong answers of C03.", "quantifier": "all admissible (v,k,l,u) with v <= 67, k < v-1, u <= 127; all strongly regular graphs", "why_tests_cant": "a claim about all graphs and all parameters; the shipped tests look only at shipped matrices", "anchors": ["srg/__main__.py:13-25", "tests/test_database.py:69-81", "srg/solver.py:217-238"]}
{"id": "C84", "title": "Self tests and gauss_elim.sort", "statement": "The assertions in the self tests of gauss_elim, fork and unique, and in test1 of bounds, hold; the self test of partition prints exactly the vectors of five bits with sum 3, each once; those of bounds, unique and srg print the values stated. gauss_elim.sort (unused) permutes the equations so that the right-hand sides ascend; the solutions are the same.", "quantifier": "sort: all systems, every argsort that sorts; the self tests have no input", "why_tests_cant": "the self tests are not part of the test suite, and argsort leaves the order of equal entries open", "anchors": ["srg/gauss_elim.py:136-165", "srg/bounds.py:50-78", "srg/fork.py:27-43", "srg/partition.py:25-27", "srg/unique.py:47-61", "srg/srg.py:275-285"]}
{"id": "C85", "title": "Every run ends, whatever the four arguments", "statement": "For all integers v, k, l, u the search ends: with a list of matrices, or in AssertionError, or (only for v >= 68) in StopIteration, which Python reports as RuntimeError because it leaves a generator, or (only for v < 0) in ValueError, or (only for v = 0 and v = 1) in IndexError. No loop of the program runs forever, no other exception is raised, and NoSolutionException never leaves the search. The same for the program called with any list of arguments. Whatever the number of vertices, each matrix that is yielded is square of order v with entries 0 and 1 and starts with the two rows of _seed; it is symmetric with zero diagonal unless k = 0, k = -1 or k <= -v.", "quantifier": "all integers v, k, l, u; all lists of ASCII strings", "why_tests_cant": "unbounded arguments; a loop that does not end cannot be observed, and runs beyond 67 vertices can take years", "anchors": ["srg/__main__.py:13-25", "srg/solver.py:16-26", "srg/solver.py:121-238", "srg/gauss_elim.py:45-68"]}
{"id": "C86", "title": "Elimination on 64 columns or more", "statement": "gauss_elim.elim on a 0/1 matrix with C >= 64 columns ignores the first C-64 columns, drops every row with a one in column C-64, and returns what it returns for the last 63 columns of the other rows; so it returns at most 63 columns or raises StopIteration. solver.eliminate therefore raises on every question with 64 columns or more. The search on (k*k+1, k, 0, 1) ends without an exception for 2 <= k <= 8 and in AssertionError for k = 9, 10, 11, all of them admissible parameters; so the bound v <= 67 of C05 cannot be dropped.", "quantifier": "all 0/1 matrices with at least 64 columns and nonnegative right-hand sides; 2 <= k <= 11", "why_tests_cant": "no test uses more than 16 columns; the cause is the sign bit of a 64-bit key", "anchors": ["srg/gauss_elim.py:8-11", "srg/gauss_elim.py:71-95", "srg/gauss_elim.py:109-145", "srg/solver.py:28-52", "srg/solver.py:80-86"]}
{"id": "C87", "title": "How many turns the loops take", "statement": "The while loop of gauss_elim._elim ends after at most N(R+1)+R turns, where R is the number of rows and N the number of ones of the matrix (at most 63 columns). The inner loop of solve_question (reduce_col, eliminate, zero_in_b, only_1_element_in_row) ends after at most 3C+3 rounds, where C is the number of columns. Its outer loop takes at most 3^(v-R-1) turns in the question for row R of a matrix with v columns.", "quantifier": "all 0/1 matrices and nonnegative right-hand sides; all questions of the right shape; all partial matrices", "why_tests_cant": "a bound on the running time of all inputs; a test sees some inputs only", "anchors": ["srg/gauss_elim.py:45-68", "srg/solver.py:180-214"]}
{"id": "C88", "title": "What is on the screen, also before an exception", "statement": "python -m srg, whatever its arguments, writes one of three texts to a pipe or file: the complete text of C74 if it ends normally; only the line with the four numbers if the parameters are refused or the search raises; nothing if there are not four numerals (ValueError). On a terminal it first clears the screen and colours the heading and the answers green; without the escape sequences the text is the same, and so is the exception.", "quantifier": "all lists of ASCII strings", "why_tests_cant": "no test runs the program; all argument lists", "anchors": ["srg/__main__.py:12-25", "srg/pprint.py:16-22"]}
{"id": "C89", "title": "The text of a question shows everything in it", "statement": "str and repr of a Question whose arrays have at most 1000 entries contain, in reading order, the shape of A, every equation (b then the row of A), the quota, the bounds, the values, the locations and the length; so two different questions never print alike. This covers every well-formed question over at most 1000 positions; with 1001 buckets numpy abbreviates and two different answers do print alike. No line of a printed array is longer than 75 columns as long as no entry has more than 66 characters. utils.debug returns exactly what it would return without printing; it prints nothing when the step raises, one line when the question is unchanged, the question before and after otherwise, and both once more before the AssertionError is raised again; on a terminal the text differs only by escape sequences. The self tests of srg.srg and srg.unique print exactly the stated text.", "quantifier": "forall questions, answers, integer arrays, step functions and their names (without escape characters)", "why_tests_cant": "all questions and array lengths; injectivity of the text", "anchors": ["srg/srg.py:57-58", "srg/srg.py:109-135", "srg/srg.py:275-285", "srg/utils.py:46-74", "srg/pprint.py:16-20", "srg/unique.py:47-61"]}
{"id": "C90", "title": "Unknowns that occur in no equation", "statement": "gauss_elim.elim ignores columns of zeros in front: it returns what it returns for the matrix without them, with that many columns fewer. It raises StopIteration exactly when the matrix contains no one at all. solver.eliminate on a question whose first column is zero therefore never returns: it raises StopIteration if the whole matrix is zero and AssertionError otherwise. If every unknown of a question with at most 63 columns occurs in some equation, then Question(A, b, quota, bounds) followed by solver.solve_question ends with a list of answers or in AssertionError, whatever the right-hand sides, quota and bounds (up to 127) are; no other exception and no endless loop.", "quantifier": "all 0/1 matrices with at most 63 columns, all nonnegative right-hand sides, all quotas, all bounds up to 127", "why_tests_cant": "the tests only use questions made from matrices, where the last equation contains all unknowns", "anchors": ["srg/gauss_elim.py:71-95", "srg/gauss_elim.py:109-145", "srg/solver.py:28-52", "srg/solver.py:80-86", "srg/solver.py:189-214"]}
{"id": "C91", "title": "Arguments that are no graph parameters repeat an ordinary run", "statement": "Let r0, r1 be the two rows main() starts from. (a) For 3 <= v <= 67 and any k, l, u: if a printed matrix is a strongly regular graph with parameters (v,k',l',u'), k' >= 1, then those are ordinary parameters, they give the same first two rows and the whole output is the output for (v,k',l',u'). (b) For any v >= 3: if r1 has as many ones as r0, at least one, and (v-k'-1)u' = k'(k'-l'-1) for k' = sum r0 and l' = <r0,r1>, then the output, or the exception, is that of (v,k',l',u'). (c) For 3 <= v <= 67: if r0 has no one, the output is r0, r1 and v-2 zero rows when r1 has no one from column 2 on, and nothing otherwise.", "quantifier": "all integers k, l, u; all v >= 3 in (b), 3 <= v <= 67 in (a) and (c)", "why_tests_cant": "the arguments range over all integers, and slices with negative bounds make very different arguments start from the same two rows", "anchors": ["srg/__main__.py:13-25", "srg/utils.py:31-32", "srg/solver.py:16-26", "srg/srg.py:144-171"]}
{"id": "C92", "title": "Changing questions in place is harmless", "statement": "solve_question changes the Question objects on its stack and their arrays in place. The answers (or the exception) are those of a search that never changes anything: they depend only on the contents of the question at the call. Questions on the stack never share an array that is written. Objects and arrays the caller has elsewhere are not changed. The question passed in is left refined: after the call it is the question the first refinement ended with.", "quantifier": "every memory, every Question object in it whose b, bounds and answer values are three different arrays; for the answers without the fuel hypothesis, zero-one rows, non-negative b and bounds up to 127", "why_tests_cant": "Aliasing shows only for particular orders of copying and writing; a test sees the answers of one question at a time and no other object's arrays.", "anchors": ["srg/solver.py:58-214", "srg/srg.py:17-56", "srg/srg.py:177-232", "srg/bounds.py:8-17"]}
{"id": "C93", "title": "Asking the same Question object twice", "statement": "If the first refinement of a question raises nothing, iterating solve_question over the same object a second time gives the same list of answers, because refining a refined question changes nothing. If it raises NoSolution this fails: the object is left half refined and a second call can return an answer to a question that has none. For A = [[0,1,1],[1,0,1],[1,1,0]], b = (0,1,2), quota 1 and bounds 1 the first call returns no answer and the second returns (1,0,0).", "quantifier": "every Question object with three different arrays, zero-one rows, non-negative b, bounds up to 127 and as many unknowns as columns", "why_tests_cant": "No test asks the same object twice, and idempotence over all questions is not testable.", "anchors": ["srg/solver.py:189-214", "srg/srg.py:194-204"]}
{"id": "C94", "title": "What NoSolution leaves behind", "statement": "A step of the refinement that raises NoSolution itself has not changed the question (the comment at solver.py:134 promises this for only_1_element_in_row); one whose decorator raises has finished its change. So a question without solution is left as it was after some whole turns and some whole steps, never in the middle of a step, and solve_question over it is an empty iterator.", "quantifier": "every memory, every Question object whose b, bounds and answer values are three different arrays; for the whole call also zero-one rows, non-negative b and bounds up to 127", "why_tests_cant": "Tests look at answers only; the state of an object after an exception is never inspected.", "anchors": ["srg/solver.py:29-52", "srg/solver.py:134-143", "srg/solver.py:193-214"]}
{"id": "C95", "title": "The program as a whole changes nothing that existed before", "statement": "Run with mutable objects and one memory for the whole program, advance, solve and the program return what the search without any mutation returns, for all arguments, including which exception ends the run. No array and no object that existed before the call is changed. So solve(SRG(m)) can be called again and gives the same matrices.", "quantifier": "all memories, all matrices, all four integer arguments", "why_tests_cant": "A shared array shows only when a later question happens to read it; tests compare a few final lists.", "anchors": ["srg/solver.py:217-239", "srg/srg.py:144-171", "srg/srg.py:246-262", "srg/__main__.py:15-21"]}
{"id": "C96", "title": "The heap in the elimination works like a sorted list", "statement": "_gauss_elim and _elim keep their equations in a list that heapq reorders in place. With heappop, heapreplace and merge written out on that list, elim(A, b) returns for all A and b exactly what it returns when every heap is a sorted list, including which exception it raises. heappop on a heap that is not empty returns an item no other item is smaller than, keeps the other items, and leaves a heap; popping until nothing is left gives the items in order; merge of at most three sorted lists gives their items in order.", "quantifier": "all matrices and right-hand sides; all heaps over any strict order; all sorted lists of equations", "why_tests_cant": "After the first pop the list is not sorted any more; whether the order of its items ever shows depends on the equations.", "anchors": ["srg/gauss_elim.py:14-42", "srg/gauss_elim.py:45-68", "srg/gauss_elim.py:142-145"]}
{"id": "C97", "title": "The generators solve and solve_question value by value", "statement": "next() on solve(SRG(m)) gives the matrices of the list one after the other and then StopIteration, for every m for which the search ends in a list. When the search raises, the very first next() raises that exception and every later one StopIteration: solve never yields a matrix before an exception. When the first matrix is out, no incomplete matrix is left, so later calls of next() do no search. next() on solve_question(Q) likewise gives its vectors one after the other, then StopIteration; if the generator raises, it first yields some vectors, then raises, then is finished.", "quantifier": "all matrices m, all questions Q, any number of calls of next()", "why_tests_cant": "Tests turn the generators into lists and so cannot see when a value appears or what happens after an exception.", "anchors": ["srg/solver.py:189-214", "srg/solver.py:231-239"]}
{"id": "C98", "title": "fork_enum value by value", "statement": "For a consistent question with at least one open bucket, the call fork_enum(Q) either raises NoSolution, and then Q has no solution, or returns a generator. next() on it gives questions one after the other: one for each of some increasing values of the open bucket with the first smallest bound, each with exactly the solutions of Q in which that bucket has that value; every solution of Q is in one of them. After the last question the generator either stops or raises AssertionError. It raises exactly when the bound of that bucket exceeds the quota and so does the right-hand side of every equation the bucket is in. So no solution is lost among the questions yielded, even when the generator raises. The questions and the end agree with the list that fork_enum is turned into. The call raises NoSolution exactly when the check of C64 refuses Q.", "quantifier": "all consistent questions with an open bucket, any number of calls of next()", "why_tests_cant": "The tests turn the generator into a list of a few small questions; a list shows nothing when the generator raises.", "anchors": ["srg/solver.py:156-183", "srg/solver.py:28-52", "srg/fork.py:1-43"]}
{"id": "C99", "title": "NumPy 1 and NumPy 2 give the same results", "statement": "setup.py asks for numpy without a version. NumPy 2 changed the type of an operation between a numpy scalar and a Python int: np.int8(127) + 1 is 128 in NumPy 1 and -128 in NumPy 2. For at most 383 vertices and any k, l, u the program gives the same result (matrices or exception) under both rules; solve does for every starting matrix with at most 127 columns more than rows, and for every 0/1 matrix with at least two rows, no more rows than columns, and at most 381 columns more than rows. fork_enum does for every question whose smallest bound is not 127. If the smallest bound is 127 the results can differ: there is a consistent question with a solution for which solve_question yields it under NumPy 1 and nothing under NumPy 2.", "quantifier": "all v <= 383 and all k, l, u; all starting matrices with at most 127 columns more than rows, all 0/1 ones with at most 381 more; all questions", "why_tests_cant": "Tests run with one installed numpy and with few vertices; the difference needs a bound of exactly 127.", "anchors": ["srg/fork.py:18-24", "srg/solver.py:156-183", "srg/solver.py:189-239"]}
{"id": "C100", "title": "partition.enum and fork.enum one value at a time", "statement": "For s >= 0 and at least one bound, calling next on partition.enum(s, bounds) gives, one per call and in increasing lexicographic order, exactly the tuples with one entry per bound, each entry between 0 and its bound, that add up to s; then it raises StopIteration for ever. No nested call of enum fails its assertions. For s < 0 or without bounds the call itself succeeds, the first next raises AssertionError and every later one StopIteration. For a position inside bounds, next on fork.enum(quota, bounds, loc) gives, with increasing first component, exactly the pairs (q, quota - q) with 0 <= q <= bounds[loc] and quota - q at most the sum of the other bounds, then StopIteration. For loc beyond the end the first next raises IndexError, every later one StopIteration.", "quantifier": "all sums, all lists of bounds, all quotas, all positions loc >= 0, any number of calls of next", "why_tests_cant": "The self tests of fork.py call next at most twice on two inputs, and nothing tests that a generator ends, when the assertions are checked, or what follows an exception.", "anchors": ["srg/partition.py:4-22", "srg/fork.py:12-24"]}
{"id": "C101", "title": "How many questions wait on the stack of solve_question", "statement": "Each time solve_question tests `while stack`, the stack holds at most one question more than the sum of the bounds of the question asked (for every question with one bound per column and no negative bound, consistent or not). For a question made by from_matrix from a matrix with R rows and v columns this is at most v - R questions, so the stack never holds more than v - 2 questions in a run with v vertices.", "quantifier": "all questions with one non-negative bound per column; all matrices; every moment of the search at the head of the loop", "why_tests_cant": "The size of the stack is not visible from outside, and the number of questions met in a search grows exponentially; a test sees a few runs.", "anchors": ["srg/solver.py:158-183", "srg/solver.py:189-214", "srg/fork.py:18-24"]}
{"id": "C102", "title": "The search never guesses with one or two columns left", "statement": "When the refinement loop of solve_question (reduce_col, eliminate, zero_in_b, only_1_element_in_row until nothing changes) ends without an exception, the question has no columns left or at least three. So fork_enum is never called on a question with one or two columns. This holds for every 0/1 question with at least one equation, one right-hand side per equation, none negative, one bound from 0 to 127 and one open bucket per column; the numbers of columns and equations are not limited.", "quantifier": "all such questions of any size, consistent or not", "why_tests_cant": "Tests look at answers only; how many columns are left when the search starts to guess is internal to the loop.", "anchors": ["srg/solver.py:58-155", "srg/solver.py:189-214"]}
