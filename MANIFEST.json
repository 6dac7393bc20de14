{
 "claims": [
  {
   "property": "C01",
   "status": "proved",
   "theorems": [
    "C01_solve_complete"
   ],
   "note": "v <= 66"
  },
  {
   "property": "C02",
   "status": "proved",
   "theorems": [
    "C02_yields_adjacency"
   ],
   "note": "every v; runs that end normally"
  },
  {
   "property": "C03",
   "status": "partial",
   "theorems": [
    "C03_solve_sound_refuted",
    "C03_solve_sound_partial",
    "C03_large_u",
    "C03_no_graph_refuted"
   ],
   "note": "false as stated: (22,9,4,3) yields a graph that is not regular; upper bounds and a regularity criterion proved"
  },
  {
   "property": "C04",
   "status": "proved",
   "theorems": [
    "C04_no_repetition"
   ],
   "note": "v <= 66"
  },
  {
   "property": "C05",
   "status": "proved",
   "theorems": [
    "C05_terminates_without_error"
   ],
   "note": "v <= 66"
  },
  {
   "property": "C06",
   "status": "proved",
   "theorems": [
    "C06_canonical_columns"
   ],
   "note": "v <= 66"
  },
  {
   "property": "C07",
   "status": "partial",
   "theorems": [
    "C07_solve_question_sound_refuted",
    "C07_solve_question_sound_partial"
   ],
   "note": "false as stated: seed (5,3,1,3); no equation is exceeded, last row exact"
  },
  {
   "property": "C08",
   "status": "proved",
   "theorems": [
    "C08_solve_question_complete"
   ],
   "note": ""
  },
  {
   "property": "C09",
   "status": "partial",
   "theorems": [
    "C09_from_matrix_exact_refuted",
    "C09_from_matrix_exact_partial",
    "C09_vklu",
    "C09_vklu_rejects"
   ],
   "note": "false when u does not fit an int8; exact for v <= 127 and u <= 127"
  },
  {
   "property": "C10",
   "status": "proved",
   "theorems": [
    "C10_elim_keeps_solutions"
   ],
   "note": "elimination never loses a solution"
  },
  {
   "property": "C11",
   "status": "partial",
   "theorems": [
    "C11_elim_adds_no_solution_refuted",
    "C11_elim_adds_no_solution_partial",
    "C11_solvable_partial"
   ],
   "note": "false as stated; a vector below the reduced system stays below the original one, and a system with a solution keeps exactly its solutions"
  },
  {
   "property": "C12",
   "status": "proved",
   "theorems": [
    "C12_elim_normal_form"
   ],
   "note": "normal form, idempotence"
  },
  {
   "property": "C13",
   "status": "proved",
   "theorems": [
    "C13_encode_decode",
    "C13_row_keys_injective"
   ],
   "note": ""
  },
  {
   "property": "C14",
   "status": "proved",
   "theorems": [
    "C14_bounds_exact",
    "C14_bounds_keep_solutions"
   ],
   "note": ""
  },
  {
   "property": "C15",
   "status": "proved",
   "theorems": [
    "C15_row_locs"
   ],
   "note": ""
  },
  {
   "property": "C16",
   "status": "proved",
   "theorems": [
    "C16_order_independent",
    "C16_step_keeps_solutions"
   ],
   "note": ""
  },
  {
   "property": "C17",
   "status": "partial",
   "theorems": [
    "C17_fork_partition_refuted",
    "C17_fork_partition_partial",
    "C17_fork_values"
   ],
   "note": "false as stated: a bound above the quota can raise AssertionError; exhaustive and disjoint otherwise. For the generator itself see C98: the questions yielded are always exhaustive and disjoint."
  },
  {
   "property": "C18",
   "status": "partial",
   "theorems": [
    "C18_reduce_col_refuted",
    "C18_reduce_col_partial",
    "C18_bound_is_room"
   ],
   "note": "false as stated: a known bucket inside a group loses solutions; true when the buckets of a group are neighbours and the sums fit the machine integers"
  },
  {
   "property": "C19",
   "status": "proved",
   "theorems": [
    "C19_binarize",
    "C19_binarize_injective",
    "C19_binarize_rejects"
   ],
   "note": ""
  },
  {
   "property": "C20",
   "status": "partial",
   "theorems": [
    "C20_sorted_locations_refuted",
    "C20_locations_partial",
    "C20_increasing_accepted"
   ],
   "note": "false as stated: (0,2,1) is accepted; exact acceptance condition proved"
  },
  {
   "property": "C21",
   "status": "proved",
   "theorems": [
    "C21_partition_enum",
    "C21_rejects"
   ],
   "note": ""
  },
  {
   "property": "C22",
   "status": "proved",
   "theorems": [
    "C22_unique_round_trip",
    "C22_rejects"
   ],
   "note": ""
  },
  {
   "property": "C23",
   "status": "proved",
   "theorems": [
    "C23_comparison",
    "C23_total_order",
    "C23_sort",
    "C23_sort_unique"
   ],
   "note": ""
  },
  {
   "property": "C24",
   "status": "proved",
   "theorems": [
    "C24_maximize"
   ],
   "note": "every argsort meeting its documented contract"
  },
  {
   "property": "C25",
   "status": "partial",
   "theorems": [
    "C25_maximize_not_smaller_refuted",
    "C25_maximize_not_smaller_partial"
   ],
   "note": "false for an argsort that reorders equal entries; true when vectors of at most v-1 entries are sorted stably"
  },
  {
   "property": "C26",
   "status": "partial",
   "theorems": [
    "C26_maximize_total_refuted",
    "C26_maximize_total_partial"
   ],
   "note": "false: raises TypeError exactly when vertex 0 is adjacent to all others"
  },
  {
   "property": "C27",
   "status": "proved",
   "theorems": [
    "C27_swap",
    "C27_swap_out_of_range",
    "C27_swap_and_verify"
   ],
   "note": ""
  },
  {
   "property": "C28",
   "status": "proved",
   "theorems": [
    "C28_complement",
    "C28_complement_parameters",
    "C28_complement_equation"
   ],
   "note": ""
  },
  {
   "property": "C29",
   "status": "proved",
   "theorems": [
    "C29_assert_srg_accepts"
   ],
   "note": ""
  },
  {
   "property": "C30",
   "status": "partial",
   "theorems": [
    "C30_seed_rows_refuted",
    "C30_seed_rows_partial",
    "C30_seed_every"
   ],
   "note": "row 1 is short when u > k; vklu wraps when l > 127"
  },
  {
   "property": "C31",
   "status": "proved",
   "theorems": [
    "C31_srg_identity"
   ],
   "note": ""
  },
  {
   "property": "C32",
   "status": "proved",
   "theorems": [
    "C32_names_round_trip",
    "C32_names_injective"
   ],
   "note": ""
  },
  {
   "property": "C33",
   "status": "proved",
   "theorems": [
    "C33_lists_complete"
   ],
   "note": "shipped problems with v < 20, (25,8,3,2) by re-running the solver; (21,10,4,5) by a nonexistence proof"
  },
  {
   "property": "C34",
   "status": "partial",
   "theorems": [
    "C34_never_wraps_refuted",
    "C34_column_key_refuted",
    "C34_never_wraps_partial",
    "C34_key_collision",
    "C34_key_negative"
   ],
   "note": "false: u > 127 (15,13,0,156) and 64-row column keys (66,64,62,64) wrap; proved that outside these two cases a width-checked copy of the search returns the same result without Overflow. Missing: the product of solver.py:132 is checked only in questions that lines 135-140 do not reject"
  },
  {
   "property": "C35",
   "status": "partial",
   "theorems": [
    "C35_eig_refuted",
    "C35_eig_partial"
   ],
   "note": "false: multiplicities are truncated for (22,9,4,3); true when integral multiplicities exist. Floats modelled as exact rationals, branch conf != 0 only"
  },
  {
   "property": "C36",
   "status": "partial",
   "theorems": [
    "C36_import_refuted"
   ],
   "note": "false: srg/database/__main__.py imports the name util from srg, which has no such module; every command line ends with ImportError"
  },
  {
   "property": "C37",
   "status": "proved",
   "theorems": [
    "C37_compose"
   ],
   "note": ""
  },
  {
   "property": "C38",
   "status": "proved",
   "theorems": [
    "C38_output_sorted"
   ],
   "note": ""
  },
  {
   "property": "C39",
   "status": "proved",
   "theorems": [
    "C39_shipped_matrices_srg"
   ],
   "note": ""
  },
  {
   "property": "C40",
   "status": "proved",
   "theorems": [
    "C40_program_reproduces_lists"
   ],
   "note": ""
  },
  {
   "property": "C41",
   "status": "partial",
   "theorems": [
    "C41_all_lists_complete_refuted",
    "C33_lists_complete",
    "C41_decided_partial"
   ],
   "note": "false: the lists for (25,12,5,6), (26,10,3,4) and (29,14,6,7) lack a graph; all other shipped lists are complete"
  },
  {
   "property": "C42",
   "status": "proved",
   "theorems": [
    "C42_listed_problems",
    "C42_listed_once"
   ],
   "note": "order of the names not modelled"
  },
  {
   "property": "C43",
   "status": "partial",
   "theorems": [
    "C43_lists_increasing_refuted",
    "C43_lists_increasing_partial"
   ],
   "note": "false for problem_28_12_6_4.py only"
  },
  {
   "property": "C44",
   "status": "partial",
   "theorems": [
    "C44_no_isomorphic_entries_refuted",
    "C44_no_equal_entries_partial",
    "C44_repeating_partial"
   ],
   "note": "false for exactly the ten files named in ClassSpec.repeating; no matrix is listed twice"
  },
  {
   "property": "C45",
   "status": "proved",
   "theorems": [
    "C45_row_equations",
    "C45_test_passes"
   ],
   "note": ""
  },
  {
   "property": "C46",
   "status": "proved",
   "theorems": [
    "C46_output_is_maximized"
   ],
   "note": ""
  },
  {
   "property": "C47",
   "status": "proved",
   "theorems": [
    "C47_maximize_determined",
    "C47_maximize_tests"
   ],
   "note": ""
  },
  {
   "property": "C48",
   "status": "proved",
   "theorems": [
    "C48_conference_two_squares",
    "C48_no_conference_graph"
   ],
   "note": ""
  },
  {
   "property": "C49",
   "status": "proved",
   "theorems": [
    "C49_eig_is_spectrum",
    "C49_infeasible"
   ],
   "note": "divisions of eig as exact rationals"
  },
  {
   "property": "C50",
   "status": "proved",
   "theorems": [
    "C50_determinant"
   ],
   "note": "the floating-point branch for conference graphs is excluded by the hypothesis and not modelled"
  },
  {
   "property": "C51",
   "status": "proved",
   "theorems": [
    "C51_rejects",
    "C51_no_graph_rejected"
   ],
   "note": ""
  },
  {
   "property": "C52",
   "status": "proved",
   "theorems": [
    "C52_debug_changes_nothing",
    "C52_steps_keep_invariant"
   ],
   "note": "printing in the decorator not modelled"
  },
  {
   "property": "C53",
   "status": "proved",
   "theorems": [
    "C53_yields"
   ],
   "note": ""
  },
  {
   "property": "C54",
   "status": "proved",
   "theorems": [
    "C54_test_solve_question"
   ],
   "note": ""
  },
  {
   "property": "C55",
   "status": "proved",
   "theorems": [
    "C55_yields_iff_canonical"
   ],
   "note": ""
  },
  {
   "property": "C56",
   "status": "proved",
   "theorems": [
    "C56_greatest_printed"
   ],
   "note": "The order is that of sorter.sort, on the entries right of the diagonal, row by row."
  },
  {
   "property": "C57",
   "status": "proved",
   "theorems": [
    "C57_maximize_idempotent",
    "C57_stability_needed"
   ],
   "note": ""
  },
  {
   "property": "C58",
   "status": "partial",
   "theorems": [
    "C58_maximize_printed_refuted",
    "C58_maximize_printed_partial",
    "C58_exp",
    "C58_exp_values"
   ],
   "note": "False as stated: the complement of the first matrix shipped for (10,6,3,4) maximizes to a labelling of the Petersen graph that is not printed, and both comparisons of exp.py are False. The partial theorem: the result is printed exactly when it is in canonical column order."
  },
  {
   "property": "C59",
   "status": "proved",
   "theorems": [
    "C59_empty_complement",
    "C59_shipped_complement"
   ],
   "note": ""
  },
  {
   "property": "C60",
   "status": "partial",
   "theorems": [
    "C60_text_ambiguous_refuted",
    "C60_text_entries_partial",
    "C60_text_determines_partial",
    "C60_summarised",
    "C60_layout"
   ],
   "note": "False as stated: numpy summarises arrays of more than 1000 entries, the program does not change that, and two different matrices printed for (36,15,6,6) have the same text. Proved for v <= 31; for v >= 32 the text depends on the first and last three rows and columns only. The layout of repr(array) is part of the model, see DESIGN.md."
  },
  {
   "property": "C61",
   "status": "proved",
   "theorems": [
    "C61_settled"
   ],
   "note": ""
  },
  {
   "property": "C62",
   "status": "proved",
   "theorems": [
    "C62_search_order"
   ],
   "note": "The specification [search] names refine, fork_enum and binarize, which have their own properties."
  },
  {
   "property": "C63",
   "status": "proved",
   "theorems": [
    "C63_zero_in_b"
   ],
   "note": ""
  },
  {
   "property": "C64",
   "status": "proved",
   "theorems": [
    "C64_refused"
   ],
   "note": ""
  },
  {
   "property": "C65",
   "status": "proved",
   "theorems": [
    "C65_only_1"
   ],
   "note": ""
  },
  {
   "property": "C66",
   "status": "proved",
   "theorems": [
    "C66_characteristic_polynomial",
    "C66_conference_polynomial"
   ],
   "note": ""
  },
  {
   "property": "C67",
   "status": "proved",
   "theorems": [
    "C67_eig_in_floating_point",
    "C67_eig_exact",
    "C67_int"
   ],
   "note": "Doubles with unbounded exponent; no overflow or subnormal numbers."
  },
  {
   "property": "C68",
   "status": "proved",
   "theorems": [
    "C68_eig_of_conference_graphs"
   ],
   "note": "Doubles with unbounded exponent."
  },
  {
   "property": "C69",
   "status": "partial",
   "theorems": [
    "C69_determinant_refuted",
    "C69_determinant_wrong",
    "C69_determinant_partial",
    "C69_determinant_conference_partial",
    "C69_determinant_of_conference_graphs",
    "C69_round"
   ],
   "note": "False: the determinant of the Paley graph on 37 vertices, 2*9^19, is not a double, whatever the rounding; the same for every conference graph whose u has an odd part o with o^(2u+1) >= 2^53. Proved for all graphs that are not conference graphs and, if pow has a relative error of at most 2^-52, for conference graphs on at most 29 vertices."
  },
  {
   "property": "C70",
   "status": "proved",
   "theorems": [
    "C70_identity_test_decides",
    "C70_loops_pass",
    "C70_shipped"
   ],
   "note": "Square matrices given by rows; NumPy 1.x casting."
  },
  {
   "property": "C71",
   "status": "partial",
   "theorems": [
    "C71_determinant_test_refuted",
    "C71_determinant_test_partial",
    "C71_determinant_test_conference_partial",
    "C71_shipped"
   ],
   "note": "False: the 7 x 7 rook's graph has a determinant beyond int64. Without conference graphs the test passes iff the determinant fits; for conference graphs up to 29 vertices it passes if np.prod is within 1/2 of the determinant and pow has a relative error of at most 2^-52. All shipped non-empty lists are covered."
  },
  {
   "property": "C72",
   "status": "proved",
   "theorems": [
    "C72_maximize_asserts",
    "C72_swap_asserts"
   ],
   "note": ""
  },
  {
   "property": "C73",
   "status": "proved",
   "theorems": [
    "C73_limit_needed",
    "C73_limit_exact"
   ],
   "note": "67 is the exact limit of C01: complete up to 67 vertices, (68,66,64,66) is missed"
  },
  {
   "property": "C74",
   "status": "proved",
   "theorems": [
    "C74_int",
    "C74_command_line",
    "C74_bad_arguments",
    "C74_bad_parameters",
    "C74_str",
    "C74_any_arguments",
    "C74_every_command_line"
   ],
   "note": "colour codes and screen clearing are not part of the text"
  },
  {
   "property": "C75",
   "status": "proved",
   "theorems": [
    "C75_invariant",
    "C75_debug"
   ],
   "note": ""
  },
  {
   "property": "C76",
   "status": "proved",
   "theorems": [
    "C76_property_iff",
    "C76_property_regular",
    "C76_property_star",
    "C76_test_solve",
    "C76_test_solve_question",
    "C76_shipped",
    "C76_test_sort"
   ],
   "note": ""
  },
  {
   "property": "C77",
   "status": "proved",
   "theorems": [
    "C77_draw",
    "C77_names"
   ],
   "note": "what networkx and matplotlib do with the edges is not modelled"
  },
  {
   "property": "C78",
   "status": "proved",
   "theorems": [
    "C78_classes",
    "C78_classification"
   ],
   "note": "classes by explicit relabellings and a counting invariant; completeness by re-running the solver, its complement, or a pruned search proved complete"
  },
  {
   "property": "C79",
   "status": "proved",
   "theorems": [
    "C79_exact_arithmetic",
    "C79_unless_overflow",
    "C79_limit_needed"
   ],
   "note": "the checked copy of the search is shown equal to the exact one where it does not raise; the three runs at 66 vertices with wrapping keys are computed"
  },
  {
   "property": "C80",
   "status": "proved",
   "theorems": [
    "C80_unless_assertion",
    "C80_fourth_ignored",
    "C80_as_admissible"
   ],
   "note": "ModelOpt is the search without assert statements; equal to the model step by step unless that raises AssertionError"
  },
  {
   "property": "C81",
   "status": "partial",
   "theorems": [
    "C81_outside_refuted",
    "C81_outside_partial",
    "C81_complete_graph"
   ],
   "note": "False: (5,0,-2,0) prints a matrix with a loop, (4,2,-1,4) the 4-cycle, (5,5,3,-5) the complete graph. For k >= 1 and l >= 0 the complete graph (for k >= v-1 and l >= v-2) is the only exception. What happens for k <= 0 or l < 0 is the subject of C91."
  },
  {
   "property": "C82",
   "status": "proved",
   "theorems": [
    "C82_outcome",
    "C82_yields",
    "C82_few_vertices",
    "C82_yields_positive",
    "C74_every_command_line"
   ],
   "note": "whenever the first row of the seed is not zero its equal columns are adjacent, so the argument of C05 applies; for a zero first row every later row is zero or the search stops at once"
  },
  {
   "property": "C83",
   "status": "proved",
   "theorems": [
    "C83_filtered"
   ],
   "note": "from C55, C70 and C01"
  },
  {
   "property": "C84",
   "status": "proved",
   "theorems": [
    "C84_sort",
    "C84_self_tests",
    "C84_sort_lengths"
   ],
   "note": "printed values, not the layout of the text"
  },
  {
   "property": "C85",
   "status": "proved",
   "theorems": [
    "C85_every_run_ends",
    "C85_every_command_line",
    "C85_yields",
    "C85_yields_graphs"
   ],
   "note": "memory and time are not modelled; whether StopIteration is reached for some v >= 68 is open"
  },
  {
   "property": "C86",
   "status": "proved",
   "theorems": [
    "C86_last_columns",
    "C86_columns_lost",
    "C86_eliminate_fails",
    "C86_moore_runs",
    "C86_terminates_without_error_refuted"
   ],
   "note": "the runs for k = 9, 10, 11 are computed"
  },
  {
   "property": "C87",
   "status": "proved",
   "theorems": [
    "C87_elim_turns",
    "C87_refine_turns",
    "C87_row_turns"
   ],
   "note": "turns of the loops are counted by the relation TurnSpec.loops; the time of a single turn is not modelled"
  },
  {
   "property": "C88",
   "status": "proved",
   "theorems": [
    "C88_pipe",
    "C88_terminal",
    "C88_coloured"
   ],
   "note": "the escape sequences are those of click 7 and 8 outside Windows, from memory of click; messages on the error stream are not modelled"
  },
  {
   "property": "C89",
   "status": "proved",
   "theorems": [
    "C89_question_text",
    "C89_question_distinct",
    "C89_legible",
    "C89_limit",
    "C89_line_width",
    "C89_matrix",
    "C89_debug_result",
    "C89_debug_pipe",
    "C89_debug_terminal",
    "C89_debug_numbers",
    "C89_self_texts"
   ],
   "note": "numpy's layout (1.14 or later, default print options) is part of the model; value arrays are int8, locations int64 (Linux). C89_limit: the bound of 1000 entries is sharp. C89_matrix ties the general layout to the one used in C60. numbers reads the text independently of the printer."
  },
  {
   "property": "C90",
   "status": "proved",
   "theorems": [
    "C90_solve_question_runs",
    "C90_leading_columns",
    "C90_no_entry",
    "C90_eliminate_first_column"
   ],
   "note": ""
  },
  {
   "property": "C91",
   "status": "proved",
   "theorems": [
    "C91_printed_graph",
    "C91_balanced_seed",
    "C91_empty_first_row"
   ],
   "note": "Says what the arguments left out by C81 do. Open: whether a run whose second row has another number of ones than the first ever prints anything; by (a) nothing it prints is a strongly regular graph. An enumeration of the extracted model for v up to 24 found none."
  },
  {
   "property": "C92",
   "status": "proved",
   "theorems": [
    "C92_in_place",
    "C92_answers"
   ],
   "note": "Proved against ModelHeap, a model with addresses for the arrays that are written in place. Model's functional search is used as the specification. A and _loc are values in ModelHeap because no line writes to them."
  },
  {
   "property": "C93",
   "status": "proved",
   "theorems": [
    "C93_again",
    "C93_refined",
    "C93_again_always_refuted"
   ],
   "note": "The second half of the statement is the refutation of 'always' by a witness. The search itself never asks an object twice."
  },
  {
   "property": "C94",
   "status": "proved",
   "theorems": [
    "C94_step",
    "C94_half_refined"
   ],
   "note": "About ModelHeap. What an AssertionError or another exception leaves behind is in the model but not stated."
  },
  {
   "property": "C95",
   "status": "proved",
   "theorems": [
    "C95_program",
    "C95_solve_twice"
   ],
   "note": "Matrices of SRG objects are values in the model because no line of the search writes to them. The generator solve is modelled by the list of what it yields, as in Model."
  },
  {
   "property": "C96",
   "status": "proved",
   "theorems": [
    "C96_heappop",
    "C96_pop_all",
    "C96_merge",
    "C96_elim"
   ],
   "note": "heapq is modelled from memory of CPython's Lib/heapq.py; heapify only for at most three items, which is what merge needs here."
  },
  {
   "property": "C97",
   "status": "proved",
   "theorems": [
    "C97_solve",
    "C97_solve_raises",
    "C97_solve_first",
    "C97_question",
    "C97_question_raises"
   ],
   "note": "StopIteration raised inside the body (the caller sees RuntimeError) is written Raised StopIteration. No question was found whose generator yields a vector before it raises; the theorem leaves the number of vectors open."
  },
  {
   "property": "C98",
   "status": "proved",
   "theorems": [
    "C98_fork",
    "C98_list",
    "C98_raise",
    "C98_call"
   ],
   "note": "C17 without its hypothesis, for the generator: the hypothesis of C17_fork_partition_partial only decides whether the generator raises after its last question."
  },
  {
   "property": "C99",
   "status": "proved",
   "theorems": [
    "C99_program",
    "C99_solve",
    "C99_fork",
    "C99_bound_127",
    "C99_solve_bits"
   ],
   "note": "Only the promotion of scalars differs between the two models. Whether a run of the program with more than 383 vertices meets a smallest bound of 127 is not examined."
  },
  {
   "property": "C100",
   "status": "proved",
   "theorems": [
    "C100_partition",
    "C100_partition_rejects",
    "C100_partition_list",
    "C100_fork_values",
    "C100_fork_rejects"
   ],
   "note": "Sums of bounds are exact (numpy sums int8 arrays in int64). Negative positions are not modelled; the program passes the result of argmin."
  },
  {
   "property": "C101",
   "status": "proved",
   "theorems": [
    "C101_stack",
    "C101_row_stack"
   ],
   "note": "A bound, not the exact size; for (25,12,5,6) the third row needs 5 and the bound is 23. The stack is counted in questions, not in bytes."
  },
  {
   "property": "C102",
   "status": "proved",
   "theorems": [
    "C102_three_columns"
   ],
   "note": "Three columns do occur (C102_ex)."
  }
 ]
}