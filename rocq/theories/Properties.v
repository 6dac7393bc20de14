(** The property theorems. Statements use [Spec] and the API functions of the
    model; every proof is a lemma from the other files. *)
From Coq Require Import QArith Qabs String.
From Verif Require Import Np ModelGauss Model Spec QSpec.
From Verif Require Import Check SolveFacts AnyFacts Graph ElimProps SolverProps Witness.
From Verif Require Import QuestionProps QWitness PartProps ReduceProps.
From Verif Require Import ModelWidth WidthProps ModelExact Exact ModelOpt Opt Outside AnyArgs EveryLine ModelSelf SelfProps TotalProps WideElim WideProps TurnSpec Turns ModelScreen ScreenProps SeedProps.
From Verif Require Import ModelSort ModelUtil SortSpec SortFacts MaxFacts SortWitness SortProps UtilProps.
From Verif Require Import ModelDb Database MaxFix Conference DbProps.
From Verif Require Import ClassSpec Classes.
From Verif Require Import AlgSpec Spectrum.
From Verif Require Import ModelDebug DebugProps Levels.
From Verif Require Import Greatest ModelExp ExpProps ModelPrint PrintSpec PrintProps.
From Verif Require Import StepSpec StepProps NumeralSpec Numeral Layout Sharp DebugSpec DebugChar.
From Verif Require Import CharPoly FloatSpec ModelFloat FloatFacts FloatProps FloatDet.
From Verif Require Import ModelTests TestSpec TestProps MaxAssert ModelSuite SuiteProps ModelDraw DrawProps Filter.
From Coq Require Import Sorting.Sorted Sorting.Permutation.
Local Open Scope Z_scope.

(** ** C01 *)
Theorem C01_solve_complete : forall v k l u G, (3 <= v <= 67)%nat -> 1 <= k ->
  srg v k l u G ->
  exists ms m, run_main (Z.of_nat v) k l u = Ok ms /\ In m ms
    /\ mcols m = v /\ isomorphic v G (mrows m).
Proof. exact solve_complete. Qed.
Print Assumptions C01_solve_complete.

Example C01_ex : srg 10 3 0 1 petersen.
Proof. exact petersen_srg. Qed.

(** ** C02 *)
Theorem C02_yields_adjacency : forall v k l u ms, admissible v k l u ->
  run_main (Z.of_nat v) k l u = Ok ms ->
  forall m, In m ms -> mcols m = v /\ adjacency v (mrows m)
    /\ seed (Z.of_nat v) k l u = Ok (Mat v (firstn 2 (mrows m))).
Proof. exact run_main_well_formed. Qed.
Print Assumptions C02_yields_adjacency.

Example admissible_ex : admissible 5 2 0 1.
Proof. unfold admissible. lia. Qed.
Example C02_ex : run_main 5 2 0 1
  = Ok [Mat 5 [[0;1;1;0;0]; [1;0;0;1;0]; [1;0;0;0;1]; [0;1;0;0;1]; [0;0;1;1;0]]].
Proof. vm_compute. reflexivity. Qed.

(** ** C03: false as stated; (22,9,4,3) yields a graph with a vertex of degree 7 *)
Theorem C03_solve_sound_refuted :
  exists v k l u, admissible v k l u
    /\ exists ms m, run_main (Z.of_nat v) k l u = Ok ms /\ In m ms /\ ~ srg v k l u (mrows m).
Proof. exact solve_unsound_proof. Qed.
Print Assumptions C03_solve_sound_refuted.

(** what remains: no degree and no number of common neighbours exceeds its
    value, rows 0 and v-1 are exact, and a result all of whose degrees are [k]
    is strongly regular *)
Theorem C03_solve_sound_partial : forall v k l u, admissible v k l u -> (v <= 67)%nat -> u <= 127 ->
  exists ms, run_main (Z.of_nat v) k l u = Ok ms
    /\ forall m, In m ms ->
       (forall i, (i < v)%nat -> degree v (mrows m) i <= k)
       /\ (forall i j, (i < v)%nat -> (j < v)%nat -> i <> j ->
             common v (mrows m) i j <= if cell (mrows m) i j =? 1 then l else u)
       /\ (forall i, (i < v)%nat -> i = 0%nat \/ i = (v - 1)%nat \/ cell (mrows m) (v - 1) i = 1 ->
             degree v (mrows m) i = k)
       /\ common v (mrows m) 0 1 = l
       /\ (forall j, (j < v - 1)%nat ->
             common v (mrows m) (v - 1) j = if cell (mrows m) (v - 1) j =? 1 then l else u)
       /\ (srg v k l u (mrows m) <-> forall i, (i < v)%nat -> degree v (mrows m) i = k).
Proof. exact solve_weak_proof. Qed.
Print Assumptions C03_solve_sound_partial.

(** a matrix can be printed although no graph with the parameters exists *)
Theorem C03_no_graph_refuted : exists v k l u, admissible v k l u /\ (v <= 67)%nat /\ (forall G, ~ srg v k l u G)
  /\ exists ms, run_main (Z.of_nat v) k l u = Ok ms /\ ms <> [].
Proof. exact prints_without_graph_proof. Qed.
Print Assumptions C03_no_graph_refuted.

(** ... and parameters with [u > k], which no graph has, give nothing *)
Theorem C03_large_u : forall v k l u, admissible v k l u -> (v <= 67)%nat ->
  k < u <= 127 -> k < Z.of_nat v - 1 -> run_main (Z.of_nat v) k l u = Ok [].
Proof. exact solve_large_u. Qed.
Print Assumptions C03_large_u.

Example C03_ex : admissible 22 9 4 3 /\ admissible 6 4 0 12.
Proof. unfold admissible. lia. Qed.

(** ** C04 *)
Theorem C04_no_repetition : forall v k l u, admissible v k l u -> (v <= 67)%nat ->
  exists ms, run_main (Z.of_nat v) k l u = Ok ms /\ NoDup ms.
Proof. exact solve_distinct_proof. Qed.
Print Assumptions C04_no_repetition.

(** ** C05: the run ends with a value, not with an exception *)
Theorem C05_terminates_without_error : forall v k l u, admissible v k l u -> (v <= 67)%nat ->
  exists ms, run_main (Z.of_nat v) k l u = Ok ms.
Proof. exact solve_terminates_proof. Qed.
Print Assumptions C05_terminates_without_error.

(** ** C06 *)
Theorem C06_canonical_columns : forall v k l u, admissible v k l u -> (v <= 67)%nat ->
  exists ms, run_main (Z.of_nat v) k l u = Ok ms /\ forall m, In m ms -> canonical v (mrows m).
Proof. exact solve_canonical_proof. Qed.
Print Assumptions C06_canonical_columns.

Example C04_ex : match run_main 10 6 3 4 with Ok ms => length ms = 2%nat | _ => False end.
Proof. vm_compute. reflexivity. Qed.

(** ** C07: false as stated *)
Theorem C07_solve_question_sound_refuted :
  exists v k l u m Q xs x, admissible v k l u
    /\ seed (Z.of_nat v) k l u = Ok m /\ from_matrix m = Ok Q
    /\ solve_question Q = Ok xs /\ In x xs /\ ~ solves (mrows (qA Q)) (qb Q) x.
Proof. exact solve_question_unsound_proof. Qed.
Print Assumptions C07_solve_question_sound_refuted.

(** what remains: no equation is exceeded, and the last row is exact *)
Theorem C07_solve_question_sound_partial : forall v R M Q, level v R M -> (R < v)%nat -> (v <= 66)%nat ->
  from_matrix (Mat v M) = Ok Q ->
  exists xs, solve_question Q = Ok xs
    /\ forall x, In x xs -> stays_below (mrows (qA Q)) (qb Q) x
         /\ (R = v - 1 -> solves (mrows (qA Q)) (qb Q) x)%nat.
Proof. exact solve_from_matrix_proof. Qed.
Print Assumptions C07_solve_question_sound_partial.

Example C07_ex : level 5 2 [[0;1;1;0;0]; [1;0;0;1;0]]
  /\ from_matrix (Mat 5 [[0;1;1;0;0]; [1;0;0;1;0]]) <> NoSolution.
Proof. split; [apply levelb_ok; vm_compute; reflexivity|vm_compute; discriminate]. Qed.

(** ** C08 *)
Theorem C08_solve_question_complete : forall C A b q,
  (C <= 63)%nat -> ((2 <= C)%nat -> (length b <= 64)%nat) ->
  shape (length b) C A -> (forall row, In row A -> bits row) ->
  (forall x, In x b -> 0 <= x <= 127) -> In (repeat 1 C, q) (combine A b) ->
  equal_columns_adjacent C A ->
  exists Q xs, mk_question (Mat C A) b q (repeat 1 C) None = Ok Q
    /\ solve_question Q = Ok xs /\ NoDup xs
    /\ (forall x, length x = C -> bits x -> ones_first A x -> solves A b x -> In x xs)
    /\ (forall x, In x xs -> length x = C /\ bits x /\ ones_first A x /\ stays_below A b x
          /\ (C = 0%nat -> solves A b x)).
Proof. exact solve_question_proof. Qed.
Print Assumptions C08_solve_question_complete.

Example C08_ex : let A := [[1;1;0;0]; [1;1;1;1]] in
  shape 2 4 A /\ equal_columns_adjacent 4 A
  /\ (Q <- mk_question (Mat 4 A) [1; 2] 2 (repeat 1 4) None ;; solve_question Q) = Ok [[1;0;1;0]].
Proof. split; [apply shapeb_ok; reflexivity|]. split; [apply adjacentb_ok; vm_compute; reflexivity|vm_compute; reflexivity]. Qed.

(** ** C09: false as stated (a [u] above 127 is stored in an int8) *)
Theorem C09_from_matrix_exact_refuted :
  exists v R M k l u Q x, partial_matrix v R M /\ (R < v)%nat
    /\ vklu (Mat v M) = Ok (Z.of_nat v, k, l, u) /\ from_matrix (Mat v M) = Ok Q
    /\ length x = (v - R - 1)%nat /\ bits x
    /\ solves (mrows (qA Q)) (qb Q) x /\ ~ fits_row k l u M x.
Proof. exact from_matrix_wrap_proof. Qed.
Print Assumptions C09_from_matrix_exact_refuted.

(** exact as long as the values fit in an int8 *)
Theorem C09_from_matrix_exact_partial : forall v R M k l u, partial_matrix v R M -> (R < v <= 127)%nat ->
  vklu (Mat v M) = Ok (Z.of_nat v, k, l, u) -> 0 <= u <= 127 ->
  (exists Q, from_matrix (Mat v M) = Ok Q /\ mcols (qA Q) = (v - R - 1)%nat
     /\ forall x, length x = (v - R - 1)%nat -> (solves (mrows (qA Q)) (qb Q) x <-> fits_row k l u M x))
  \/ (from_matrix (Mat v M) = NoSolution
     /\ forall x, length x = (v - R - 1)%nat -> bits x -> ~ fits_row k l u M x).
Proof. exact from_matrix_proof. Qed.
Print Assumptions C09_from_matrix_exact_partial.

(** the parameters read off a matrix: l modulo 256, and u rounded down *)
Theorem C09_vklu : forall m r0 r1 rest, mrows m = r0 :: r1 :: rest -> exists l u, vklu m = Ok (Z.of_nat (mcols m), zsum r0, l, u)
  /\ -128 <= l <= 127 /\ (l - dot r0 r1) mod 256 = 0
  /\ let d := Z.of_nat (mcols m) - zsum r0 - 1 in let n := zsum r0 * (zsum r0 - l - 1) in
     (d = 0 -> u = 0) /\ (0 < d -> u * d <= n < u * d + d) /\ (d < 0 -> u * d + d < n <= u * d).
Proof. exact SeedProps.vklu_proof. Qed.
Print Assumptions C09_vklu.
Theorem C09_vklu_rejects : forall m, (mnrows m < 2)%nat -> vklu m = Raise IndexError.
Proof. exact SeedProps.vklu_rejects_proof. Qed.
Print Assumptions C09_vklu_rejects.
Example C09_vklu_ex : vklu (Mat 5 [[0;1;1;0;0]; [0;1;1;0;0]]) = Ok (5, 2, 2, -1) /\ vklu (Mat 6 [[0;1;1;0;0;0]; [0;1;1;0;0;0]]) = Ok (6, 2, 2, -1) /\ vklu (Mat 3 [[0;1;1]; [1;0;1]]) = Ok (3, 2, 1, 0)
  /\ vklu (Mat 3 [[0;1;1]]) = Raise IndexError.
Proof. repeat split; reflexivity. Qed.

Example C09_ex : partial_matrix 5 2 [[0;1;1;0;0]; [1;0;0;1;0]]
  /\ vklu (Mat 5 [[0;1;1;0;0]; [1;0;0;1;0]]) = Ok (5, 2, 0, 1)
  /\ fits_row 2 0 1 [[0;1;1;0;0]; [1;0;0;1;0]] [0;1].
Proof. split; [apply partialb_ok; reflexivity|]. split; [reflexivity|]. apply fits_rowb_ok. reflexivity. Qed.

(** ** C10 *)
Theorem C10_elim_keeps_solutions : forall A b, elim_input A b ->
  exists A' b', elim A b = Ok (A', b')
    /\ forall x, solves (mrows A) b x -> solves (mrows A') b' x.
Proof. exact elim_keeps_solutions_proof. Qed.
Print Assumptions C10_elim_keeps_solutions.

Example elim_input_ex :
  elim_input (Mat 4 [[1;0;0;1]; [1;1;0;1]; [0;1;1;0]]) [1; 2; 2].
Proof. apply elim_inputb_ok. reflexivity. Qed.
Example C10_ex :
  elim (Mat 4 [[1;0;0;1]; [1;1;0;1]; [0;1;1;0]]) [1; 2; 2]
    = Ok (Mat 4 [[0;0;1;0]; [0;1;0;0]; [1;0;0;1]], [1; 1; 1]).
Proof. vm_compute. reflexivity. Qed.

(** ** C11: false as stated (an equation reduced to [0 = c] is dropped) *)
Theorem C11_elim_adds_no_solution_refuted :
  exists A b, elim_input A b
    /\ exists A' b' x, elim A b = Ok (A', b') /\ bits x
         /\ solves (mrows A') b' x /\ ~ solves (mrows A) b x.
Proof. exact elim_adds_solution_proof. Qed.
Print Assumptions C11_elim_adds_no_solution_refuted.

(** what remains true: a vector that stays below the reduced system stays
    below the original one *)
Theorem C11_elim_adds_no_solution_partial : forall A b, elim_input A b ->
  exists A' b', elim A b = Ok (A', b')
    /\ forall x, stays_below (mrows A') b' x -> stays_below (mrows A) b x.
Proof. exact elim_weak_sound_proof. Qed.
Print Assumptions C11_elim_adds_no_solution_partial.
From Verif Require Import ElimMore.
(** a system that has a solution keeps exactly its solutions *)
Theorem C11_solvable_partial : forall A b, elim_input A b -> (exists y, solves (mrows A) b y) ->
  exists A' b', elim A b = Ok (A', b') /\ forall x, solves (mrows A') b' x <-> solves (mrows A) b x.
Proof. exact elim_solvable_proof. Qed.
Print Assumptions C11_solvable_partial.
Example C11_ex : let A := Mat 3 [[1;1;1]; [0;1;1]; [0;0;1]] in
  elim_input A [2; 1; 1] /\ solves (mrows A) [2; 1; 1] [1; 0; 1] /\ elim A [2; 1; 1] = Ok (Mat 3 [[0;0;1]; [0;1;0]; [1;0;0]], [1; 0; 1]).
Proof.
  split; [apply elim_inputb_ok; reflexivity|]. split; [|reflexivity]. split; [reflexivity|].
  intros i Hi. do 3 (destruct i as [|i]; [reflexivity|]). cbn in Hi. lia.
Qed.

(** ** C12 *)
Theorem C12_elim_normal_form : forall A b, elim_input A b ->
  exists A' b', elim A b = Ok (A', b')
    /\ mcols A' = mcols A
    /\ shape (length b') (mcols A) (mrows A') /\ (length b' <= length b)%nat
    /\ (forall row, In row (mrows A') -> bits row /\ exists a, In a row /\ a = 1)
    /\ (forall x, In x b' -> 0 <= x)
    /\ StronglySorted Z.le (map binary_value (mrows A'))
    /\ no_row_below_another (mrows A') b'
    /\ elim A' b' = Ok (A', b').
Proof. exact elim_normal_form_proof. Qed.
Print Assumptions C12_elim_normal_form.

(** ** C13 *)
Theorem C13_encode_decode : forall A b, elim_input A b ->
  (forall row, In row (mrows A) -> exists a, In a row /\ a = 1) ->
  (hd <- encode A b ;; decode hd) = Ok (A, b).
Proof. exact encode_decode_proof. Qed.
Print Assumptions C13_encode_decode.

Theorem C13_row_keys_injective : forall x y,
  bits x -> bits y -> length x = length y -> (length x <= 63)%nat ->
  pack x = pack y -> x = y.
Proof. exact row_keys_injective_proof. Qed.
Print Assumptions C13_row_keys_injective.

(** ** C14 *)
Theorem C14_bounds_exact : forall A b bd,
  length A = length b -> (forall row, In row A -> length row = length bd) ->
  length (lower_upper_bound A b bd) = length bd
  /\ (forall j, (j < length bd)%nat ->
        nth j (lower_upper_bound A b bd) 0 <= nth j bd 0
        /\ (forall i, (i < length A)%nat -> cell A i j <> 0 -> nth j (lower_upper_bound A b bd) 0 <= nth i b 0)
        /\ (nth j (lower_upper_bound A b bd) 0 = nth j bd 0
            \/ exists i, (i < length A)%nat /\ cell A i j <> 0 /\ nth j (lower_upper_bound A b bd) 0 = nth i b 0))
  /\ lower_upper_bound A b (lower_upper_bound A b bd) = lower_upper_bound A b bd.
Proof. exact bounds_proof. Qed.
Print Assumptions C14_bounds_exact.

Theorem C14_bounds_keep_solutions : forall A b bd x,
  length A = length b -> (forall row, In row A -> length row = length bd) ->
  (forall row a, In row A -> In a row -> 0 <= a) -> length x = length bd -> (forall a, In a x -> 0 <= a) ->
  solves A b x -> (forall j, (j < length bd)%nat -> nth j x 0 <= nth j bd 0) ->
  forall j, (j < length bd)%nat -> nth j x 0 <= nth j (lower_upper_bound A b bd) 0.
Proof. exact bounds_keep_proof. Qed.
Print Assumptions C14_bounds_keep_solutions.

Example C14_ex : solves [[0;1;1]; [1;0;2]] [1;4] [2;0;1]
  /\ lower_upper_bound [[0;1;1]; [1;0;2]] [1;4] [5;5;5] = [4;1;1].
Proof. split; [|reflexivity]. split; [reflexivity|]. intros i Hi. do 2 (destruct i as [|i]; [reflexivity|]). simpl in Hi. lia. Qed.

(** ** C15 *)
Theorem C15_row_locs : forall A,
  NoDup (map snd (one_element_row_locs A))
  /\ forall r c, In (r, c) (one_element_row_locs A) <->
       (r < length A)%nat /\ only_entry (nth r A []) c
       /\ forall r', (r < r' < length A)%nat -> ~ only_entry (nth r' A []) c.
Proof. exact row_locs_proof. Qed.
Print Assumptions C15_row_locs.

Example C15_ex : one_element_row_locs [[0;3;0]; [1;0;0]; [1;1;0]; [0;2;0]] = [(3, 1)%nat; (1, 0)%nat].
Proof. reflexivity. Qed.

(** ** C16 *)
Theorem C16_order_independent : forall Q rcs, question_ok Q ->
  Permutation rcs (one_element_row_locs (mrows (qA Q))) ->
  only_1_with rcs Q = only_1_body Q
  /\ ((only_1_body Q = NoSolution /\ forall w, ~ solution Q w)
      \/ exists Q', only_1_body Q = Ok Q' /\ question_ok Q' /\ forall w, solution Q w <-> solution Q' w).
Proof. exact only_1_proof. Qed.
Print Assumptions C16_order_independent.

(** the whole step, with the check made after it *)
Theorem C16_step_keeps_solutions : forall Q, question_ok Q ->
  (only_1_element_in_row Q = NoSolution /\ forall w, ~ solution Q w)
  \/ exists Q', only_1_element_in_row Q = Ok Q' /\ question_ok Q' /\ forall w, solution Q w <-> solution Q' w.
Proof. exact only_1_step_proof. Qed.
Print Assumptions C16_step_keeps_solutions.

Example C16_ex : question_ok ex_question /\ solution ex_question [1;1;1]
  /\ one_element_row_locs (mrows (qA ex_question)) = [(1, 1)%nat].
Proof. split; [exact ex_question_ok|]. split; [exact ex_solution|reflexivity]. Qed.

(** ** C17: false as stated; an unknown in no equation with a bound above the
    quota makes the constructor of the forked question fail *)
Theorem C17_fork_partition_refuted : exists Q w,
  question_ok Q /\ (1 <= mcols (qA Q))%nat /\ solution Q w /\ fork_enum Q = Raise AssertionError.
Proof. exact fork_raises_proof. Qed.
Print Assumptions C17_fork_partition_refuted.

(** ... with that case excluded, the split is exhaustive and disjoint *)
Theorem C17_fork_partition_partial : forall Q, question_ok Q -> (1 <= mcols (qA Q))%nat ->
  (forall m, first_minimum (qbounds Q) m -> nth m (qbounds Q) 0 <= qquota Q
     \/ exists i, (i < length (qb Q))%nat /\ cell (mrows (qA Q)) i m = 1 /\ nth i (qb Q) 0 <= qquota Q) ->
  (fork_enum Q = NoSolution /\ forall w, ~ solution Q w)
  \/ exists qs m vals, fork_enum Q = Ok qs /\ first_minimum (qbounds Q) m /\ StronglySorted Z.lt vals
     /\ Forall2 (fun q Q' => question_ok Q'
          /\ nth (nth m (open (qans Q)) 0%nat) (av (qans Q')) 0 = q
          /\ forall w, solution Q' w <-> solution Q w /\ nth (nth m (open (qans Q)) 0%nat) w 0 = q) vals qs
     /\ forall w, solution Q w -> In (nth (nth m (open (qans Q)) 0%nat) w 0) vals.
Proof. exact fork_proof. Qed.
Print Assumptions C17_fork_partition_partial.

Theorem C17_fork_values : forall quota bounds loc, (loc < length bounds)%nat ->
  (forall q, In q (fork_enum_values quota bounds loc) <->
     0 <= q <= nth loc bounds 0 /\ quota - q <= zsum bounds - nth loc bounds 0)
  /\ StronglySorted Z.lt (fork_enum_values quota bounds loc).
Proof. exact fork_values_proof. Qed.
Print Assumptions C17_fork_values.

Example C17_ex : question_ok ex_question /\ (1 <= mcols (qA ex_question))%nat
  /\ exists q1 q2, fork_enum ex_question = Ok [q1; q2].
Proof. split; [exact ex_question_ok|]. split; [simpl; lia|]. eexists _, _. reflexivity. Qed.
Example C17_ex_hyp : forall m, first_minimum (qbounds ex_question) m -> nth m (qbounds ex_question) 0 <= qquota ex_question
     \/ exists i, (i < length (qb ex_question))%nat /\ cell (mrows (qA ex_question)) i m = 1 /\ nth i (qb ex_question) 0 <= qquota ex_question.
Proof. exact ex_fork_hyp. Qed.
Example C17_ex_values : fork_enum_values 5 [2;3;1] 1 = [2;3].
Proof. reflexivity. Qed.

(** ** C18: false as stated; the code also needs the open buckets of a group
    to be neighbours *)
Theorem C18_reduce_col_refuted : exists Q Q' w, question_ok Q
  /\ (forall i j m, (i <= m <= j)%nat -> (j < mcols (qA Q))%nat ->
        column i (mrows (qA Q)) = column j (mrows (qA Q)) -> column m (mrows (qA Q)) = column i (mrows (qA Q)))
  /\ solution Q w /\ reduce_col Q = Ok Q' /\ forall w', ~ solution Q' w'.
Proof. exact reduce_col_loses_proof. Qed.
Print Assumptions C18_reduce_col_refuted.

(** with that condition (and sums that fit int8, at most 64 rows) it is true:
    missing from C18 as stated are the questions that do not meet [reducible] *)
Theorem C18_reduce_col_partial : forall Q, reducible Q -> exists Q' ns ms, col_reduced Q Q' ns ms
  /\ (reduce_col Q = Ok Q' \/ reduce_col Q = NoSolution /\ forall w, ~ solution Q w).
Proof. exact reducible_proof. Qed.
Print Assumptions C18_reduce_col_partial.

Theorem C18_bound_is_room : forall Q Q' ns ms, col_reduced Q Q' ns ms ->
  qbounds Q = map (room (qans Q)) (open (qans Q)) -> qbounds Q' = map (room (qans Q')) (open (qans Q')).
Proof. exact reduced_room_proof. Qed.
Print Assumptions C18_bound_is_room.
Example C18_ex : reducible rex_question /\ solution rex_question [1;1;0;1]
  /\ qbounds rex_question = map (room (qans rex_question)) (open (qans rex_question))
  /\ reduce_col rex_question = Ok (Qst (Mat 2 [[1;0]; [0;1]]) [2;1] 3 [3;2] (Ans [-1;0;-1] [0;3;4] 6)).
Proof. exact (conj rex_reducible (conj rex_solution (conj eq_refl eq_refl))). Qed.

(** ** C19 *)
Theorem C19_binarize : forall a, answer_ok a ->
  (forall i, (i < length (av a))%nat -> 0 <= nth i (av a) 0 <= room a i) ->
  exists x, binarize a = Ok x /\ Z.of_nat (length x) = alen a /\ bits x
    /\ forall i p, (i < length (av a))%nat -> nth i (edges a) 0 <= p < nth (S i) (edges a) 0 ->
         nth (Z.to_nat p) x 0 = if p <? nth i (edges a) 0 + nth i (av a) 0 then 1 else 0.
Proof. exact binarize_proof. Qed.
Print Assumptions C19_binarize.

Theorem C19_binarize_injective : forall a a' x,
  answer_ok a -> answer_ok a' -> aloc a = aloc a' -> alen a = alen a' ->
  (forall i, (i < length (av a))%nat -> 0 <= nth i (av a) 0 <= room a i) ->
  (forall i, (i < length (av a'))%nat -> 0 <= nth i (av a') 0 <= room a' i) ->
  binarize a = Ok x -> binarize a' = Ok x -> a = a'.
Proof. exact binarize_inj_proof. Qed.
Print Assumptions C19_binarize_injective.

Theorem C19_binarize_rejects : forall a, answer_ok a ->
  (exists i, (i < length (av a))%nat /\ (nth i (av a) 0 = -1 \/ room a i < nth i (av a) 0)) ->
  binarize a = Raise AssertionError.
Proof. exact binarize_reject_proof. Qed.
Print Assumptions C19_binarize_rejects.

Example C19_ex : answer_ok (Ans [0;3;3;1] [0;3;7;11] 13)
  /\ binarize (Ans [0;3;3;1] [0;3;7;11] 13) = Ok [0;0;0;1;1;1;0;1;1;1;0;1;0].
Proof. split; [now apply answer_ok_intro|reflexivity]. Qed.

(** ** C20: false as stated; only equal neighbours are noticed *)
Theorem C20_sorted_locations_refuted : exists v loc len,
  ~ StronglySorted Z.lt loc /\ mk_answer v loc len = Ok (Ans v loc len).
Proof. exact answer_unsorted_proof. Qed.
Print Assumptions C20_sorted_locations_refuted.

(** what is accepted, exactly *)
Theorem C20_locations_partial : forall v loc len,
  (mk_answer v loc len = Ok (Ans v loc len) \/ mk_answer v loc len = Raise AssertionError)
  /\ (mk_answer v loc len = Ok (Ans v loc len) <->
      length v = length loc
      /\ (loc = [] \/ (hd 0 loc = 0 /\ last loc 0 < len
            /\ forall i, (S i < length loc)%nat -> nth i loc 0 <> nth (S i) loc 0))).
Proof. exact mk_answer_proof. Qed.
Print Assumptions C20_locations_partial.

Theorem C20_increasing_accepted : forall v loc len, length v = length loc ->
  StronglySorted Z.lt (loc ++ [len]) -> hd 0 loc = 0 -> mk_answer v loc len = Ok (Ans v loc len).
Proof. exact mk_answer_increasing_proof. Qed.
Print Assumptions C20_increasing_accepted.

Example C20_ex : mk_answer [-1;0] [0;4] 9 = Ok (Ans [-1;0] [0;4] 9)
  /\ mk_answer [-1;0;0] [0;4;4] 9 = Raise AssertionError.
Proof. split; reflexivity. Qed.

(** ** C21 *)
Theorem C21_partition_enum : forall s bounds, 0 <= s -> bounds <> [] ->
  exists l, partition_enum_api s bounds = Ok l /\ NoDup l /\ StronglySorted lex_lt l
    /\ forall t, In t l <->
         length t = length bounds /\ (forall i, (i < length bounds)%nat -> 0 <= nth i t 0 <= nth i bounds 0) /\ zsum t = s.
Proof. exact partition_proof. Qed.
Print Assumptions C21_partition_enum.
Theorem C21_rejects : forall s bounds, partition_enum_api s bounds = Raise AssertionError <-> s < 0 \/ bounds = [].
Proof. exact partition_rejects_proof. Qed.
Print Assumptions C21_rejects.

Example C21_ex : partition_enum_api 3 [1;2;1] = Ok [[0;2;1]; [1;1;1]; [1;2;0]] /\ partition_enum_api (-1) [1;2] = Raise AssertionError.
Proof. split; reflexivity. Qed.

(** ** C22 *)
Theorem C22_unique_round_trip : forall A R, (1 <= mcols A)%nat -> (1 <= R <= 64)%nat ->
  shape R (mcols A) (mrows A) -> (forall row, In row (mrows A) -> bits row) ->
  exists A' bnds locs, unique_reduce A = Ok (A', bnds, locs)
    /\ unique_expand A' bnds = A
    /\ mcols A' = length locs /\ length bnds = length locs
    /\ mrows A' = map (fun row => map (fun j => nth j row 0) locs) (mrows A)
    /\ neighbours_differ (mcols A') (mrows A').
Proof. exact unique_proof. Qed.
Print Assumptions C22_unique_round_trip.
Theorem C22_rejects : forall A, unique_reduce A = Raise IndexError <-> mrows A = [] \/ mcols A = 0%nat.
Proof. exact unique_rejects_proof. Qed.
Print Assumptions C22_rejects.

Example C22_ex : unique_reduce (Mat 7 [[1;1;1;1;0;0;0]; [1;1;0;0;1;1;0]; [1;1;1;1;1;1;1]])
  = Ok (Mat 4 [[1;1;0;0]; [1;0;1;0]; [1;1;1;1]], [2;2;2;1], [0;2;4;6]%nat).
Proof. vm_compute. reflexivity. Qed.

(** ** C23 *)
Theorem C23_comparison : forall v a b, square v a -> square v b ->
  (cmp_matrix a b < 0 <-> lex_lt (upper v (mrows a)) (upper v (mrows b)))
  /\ (cmp_matrix a b = 0 <-> upper v (mrows a) = upper v (mrows b))
  /\ (0 < cmp_matrix a b <-> lex_lt (upper v (mrows b)) (upper v (mrows a))).
Proof. exact cmp_proof. Qed.
Print Assumptions C23_comparison.

Theorem C23_total_order : 
  (forall x, ~ lex_lt x x)
  /\ (forall x y z, lex_lt x y -> lex_lt y z -> lex_lt x z)
  /\ (forall x y, length x = length y -> lex_lt x y \/ x = y \/ lex_lt y x)
  /\ (forall v M, length (upper v M) = length (upper v []))
  /\ (forall v M N, adjacency v M -> adjacency v N -> upper v M = upper v N -> M = N).
Proof. exact encoding_order. Qed.
Print Assumptions C23_total_order.

Theorem C23_sort : forall v l, (forall m, In m l -> square v m) ->
  Permutation (sort_matrices l) l
  /\ StronglySorted (fun a b => lex_le (upper v (mrows a)) (upper v (mrows b))) (sort_matrices l)
  /\ (forall e, filter (fun m => vec_eqb (upper v (mrows m)) e) (sort_matrices l)
              = filter (fun m => vec_eqb (upper v (mrows m)) e) l).
Proof. exact sort_proof. Qed.
Print Assumptions C23_sort.

(** nothing else meets that description *)
Theorem C23_sort_unique : forall v l l', (forall m, In m l -> square v m) ->
  Permutation l' l ->
  StronglySorted (fun a b => lex_le (upper v (mrows a)) (upper v (mrows b))) l' ->
  (forall e, filter (fun m => vec_eqb (upper v (mrows m)) e) l'
           = filter (fun m => vec_eqb (upper v (mrows m)) e) l) ->
  l' = sort_matrices l.
Proof. exact sort_unique_proof. Qed.
Print Assumptions C23_sort_unique.

Example C23_ex :
  let a := Mat 3 [[0;1;0];[1;0;1];[0;1;0]] in let b := Mat 3 [[0;0;1];[0;0;1];[1;1;0]] in
  square 3 a /\ square 3 b /\ sort_matrices [a; b; a] = [b; a; a].
Proof.
  repeat split; try reflexivity; intros row Hr; repeat (destruct Hr as [<-|Hr]; [reflexivity|]); contradiction.
Qed.

(** ** C24 *)
Theorem C24_maximize : forall argsort v M, argsorts argsort -> symmetric v M ->
  ((exists j, (1 <= j < v)%nat /\ cell M 0 j = 0)
     /\ exists N, maximize argsort M = Ok N /\ symmetric v N /\ same_graph_keeping_0 v M N)
  \/ ((forall j, (1 <= j < v)%nat -> cell M 0 j <> 0) /\ maximize argsort M = Raise TypeError).
Proof. exact maximize_proof. Qed.
Print Assumptions C24_maximize.

Example C24_ex : argsorts argsort_stable /\ argsorts argsort_reversed /\ symmetric 4 path4
  /\ cell path4 0 3 = 0 /\ maximize argsort_reversed path4 <> Ok path4.
Proof.
  split; [apply argsort_by_ok|]. split; [apply argsort_by_ok|].
  split; [apply adjacency_symmetric, path4_adjacency|]. split; [reflexivity|]. vm_compute. discriminate.
Qed.

(** ** C25: false for an argsort that does not keep the order of equal entries *)
Theorem C25_maximize_not_smaller_refuted : exists argsort v M N, argsorts argsort /\ adjacency v M
  /\ maximize argsort M = Ok N /\ lex_lt (upper v N) (upper v M).
Proof. exact maximize_smaller_proof. Qed.
Print Assumptions C25_maximize_not_smaller_refuted.

(** what remains: true when equal entries keep their order in vectors of at
    most [v - 1] entries *)
Theorem C25_maximize_not_smaller_partial : forall argsort v M N, argsorts argsort ->
  stable_upto (v - 1) argsort -> symmetric v M ->
  (forall i j, (i < v)%nat -> (j < v)%nat -> bit (cell M i j)) ->
  maximize argsort M = Ok N -> lex_le (upper v M) (upper v N).
Proof. exact maximize_mono. Qed.
Print Assumptions C25_maximize_not_smaller_partial.

Example C25_ex : argsorts argsort_stable /\ stable_upto 3 argsort_stable /\ adjacency 4 path4
  /\ exists N, maximize argsort_stable path4 = Ok N.
Proof.
  split; [apply argsort_by_ok|]. split; [apply argsort_stable_ok|]. split; [apply path4_adjacency|].
  eexists. vm_compute. reflexivity.
Qed.

(** ** C26: false, vertex 0 may be adjacent to all others; [C24_maximize] says
    exactly when it raises *)
Theorem C26_maximize_total_refuted : exists v M, adjacency v M
  /\ forall argsort, argsorts argsort -> maximize argsort M = Raise TypeError.
Proof. exact maximize_raises_proof. Qed.
Print Assumptions C26_maximize_total_refuted.

Theorem C26_maximize_total_partial : forall argsort v M, argsorts argsort -> adjacency v M ->
  ((exists N, maximize argsort M = Ok N) <-> exists j, (1 <= j < v)%nat /\ cell M 0 j = 0).
Proof. exact maximize_total. Qed.
Print Assumptions C26_maximize_total_partial.

(** ** C27 *)
Theorem C27_swap : forall v M i j, shape v v M -> (i < v)%nat -> (j < v)%nat ->
  exists N, swap M i j = Ok N /\ shape v v N
    /\ (forall a b, (a < v)%nat -> (b < v)%nat -> cell N a b = cell M (exchange i j a) (exchange i j b))
    /\ swap N i j = Ok M.
Proof. exact swap_proof. Qed.
Print Assumptions C27_swap.

Theorem C27_swap_out_of_range : forall v M i j, shape v v M -> (v <= i \/ v <= j)%nat ->
  swap M i j = Raise IndexError.
Proof. exact swap_range_proof. Qed.
Print Assumptions C27_swap_out_of_range.

Theorem C27_swap_and_verify : forall v M i j, symmetric v M -> sumn v (fun a => cell M a a) = 0 ->
  (i < v)%nat -> (j < v)%nat -> swap_and_verify M i j = swap M i j.
Proof. exact swap_verify_proof. Qed.
Print Assumptions C27_swap_and_verify.

Example C27_ex : shape 4 4 path4 /\ symmetric 4 path4 /\ sumn 4 (fun a => cell path4 a a) = 0
  /\ swap path4 1 2 = Ok [[0;1;1;0]; [1;0;0;0]; [1;0;0;1]; [0;0;1;0]].
Proof.
  split; [apply path4_adjacency|]. split; [apply adjacency_symmetric, path4_adjacency|]. split; reflexivity.
Qed.

(** ** C28 *)
Theorem C28_complement : forall v k l u M, (0 < v)%nat -> srg v k l u M ->
  let '(v', k', l', u') := complement_vklu (Z.of_nat v) k l u in
  v' = Z.of_nat v /\ exists N, complement M = Ok N /\ srg v k' l' u' N /\ complement N = Ok M.
Proof. exact complement_srg_proof. Qed.
Print Assumptions C28_complement.

Theorem C28_complement_parameters : forall v k l u,
  let '(v', k', l', u') := complement_vklu v k l u in complement_vklu v' k' l' u' = (v, k, l, u).
Proof. exact complement_vklu_involution. Qed.
Print Assumptions C28_complement_parameters.

Theorem C28_complement_equation : forall v k l u, (v - k - 1) * u = k * (k - l - 1) ->
  let '(v', k', l', u') := complement_vklu v k l u in (v' - k' - 1) * u' = k' * (k' - l' - 1).
Proof. exact complement_equation. Qed.
Print Assumptions C28_complement_equation.

Example C28_ex : srg 10 3 0 1 petersen /\ complement_vklu 10 3 0 1 = (10, 6, 3, 4).
Proof. split; [exact petersen_srg|reflexivity]. Qed.

(** ** C29 *)
Theorem C29_assert_srg_accepts : forall v k l u M, (1 <= v)%nat -> srg v k l u M ->
  assert_srg (Z.of_nat v) k l u = Ok tt.
Proof. exact assert_srg_proof. Qed.
Print Assumptions C29_assert_srg_accepts.

Example C29_ex : srg 10 3 0 1 petersen /\ assert_srg 10 3 0 2 = Raise AssertionError.
Proof. split; [exact petersen_srg|reflexivity]. Qed.

(** ** C30: false as stated; row 1 has fewer ones when [u > k] *)
Theorem C30_seed_rows_refuted :
  exists v k l u m, admissible v k l u /\ seed (Z.of_nat v) k l u = Ok m
    /\ zsum (nth 1 (mrows m) []) <> k.
Proof. exact seed_short_proof. Qed.
Print Assumptions C30_seed_rows_refuted.

Theorem C30_seed_rows_partial : forall v k l u, admissible v k l u ->
  exists r0 r1, seed (Z.of_nat v) k l u = Ok (Mat v [r0; r1])
    /\ length r0 = v /\ length r1 = v
    /\ (forall j, (j < v)%nat -> nth j r0 0 = if (1 <=? Z.of_nat j) && (Z.of_nat j <=? k) then 1 else 0)
    /\ bits r1 /\ dot r0 r1 = l /\ zsum r1 = Z.min k (l + Z.of_nat v - k)
    /\ (u <= k -> zsum r1 = k)
    /\ (k < Z.of_nat v - 1 -> l <= 127 -> vklu (Mat v [r0; r1]) = Ok (Z.of_nat v, k, l, u)).
Proof. exact seed_proof. Qed.
Print Assumptions C30_seed_rows_partial.
(** every choice of the arguments; a negative place counts from the end *)
Theorem C30_seed_every : forall v k l u,
  let place a := if a <? 0 then a + v else a in
  if v <? 0 then seed v k l u = Raise ValueError
  else if v <? 2 then seed v k l u = Raise IndexError
  else exists r0 r1, seed v k l u = Ok (Mat (Z.to_nat v) [r0; r1]) /\ length r0 = Z.to_nat v /\ length r1 = Z.to_nat v
    /\ forall j, (j < Z.to_nat v)%nat ->
      nth j r0 0 = (if (1 <=? Z.of_nat j) && (Z.of_nat j <? place (k + 1)) then 1 else 0)
      /\ nth j r1 0 = (if (j =? 0)%nat then nth 1 r0 0
                       else if ((2 <=? Z.of_nat j) && (Z.of_nat j <? place (l + 2)))
                            || ((place (k + 1) <=? Z.of_nat j) && (Z.of_nat j <? place (2 * k - l))) then 1 else 0).
Proof. exact seed_every_proof. Qed.
Print Assumptions C30_seed_every.

Example C30_ex : seed 10 6 3 4
  = Ok (Mat 10 [[0;1;1;1;1;1;1;0;0;0]; [1;0;1;1;1;0;0;1;1;0]]).
Proof. reflexivity. Qed.
Example C30_negative : seed 6 (-2) (-4) 0 = Ok (Mat 6 [[0;1;1;1;1;0]; [1;0;1;1;0;0]]).
Proof. reflexivity. Qed.
(** [l = 128] does not survive [vklu] *)
Example C30_wrap : (m <- seed 132 130 128 130 ;; vklu m) = Ok (132, 130, -128, 33410).
Proof. vm_compute. reflexivity. Qed.

(** ** C31 *)
Theorem C31_srg_identity : forall v k l u M, adjacency v M ->
  (srg v k l u M <->
   forall i j, (i < v)%nat -> (j < v)%nat ->
     sumn v (fun w => cell M i w * cell M w j) - (l - u) * cell M i j
       = (if (i =? j)%nat then k - u else 0) + u).
Proof. exact srg_identity. Qed.
Print Assumptions C31_srg_identity.

Example C31_ex : adjacency 10 petersen.
Proof. apply petersen_srg. Qed.

(** ** C32 *)
Theorem C32_names_round_trip : forall v k l u,
  extract_vklu (problem_name v k l u) = Ok [v; k; l; u].
Proof. exact name_round_trip. Qed.
Print Assumptions C32_names_round_trip.

Theorem C32_names_injective : forall v k l u v' k' l' u',
  problem_name v k l u = problem_name v' k' l' u' -> (v, k, l, u) = (v', k', l', u').
Proof. exact name_injective. Qed.
Print Assumptions C32_names_injective.

Example C32_ex : problem_name 16 10 6 6 = "problem_16_10_6_6"%string /\ problem_name (-3) 0 1 2 = "problem_-3_0_1_2"%string.
Proof. split; reflexivity. Qed.

(** ** C33 *)
Theorem C33_lists_complete : forall v k l u sols G, get_solutions v k l u = Ok sols ->
  v < 20 \/ (v, k, l, u) = (25, 8, 3, 2) \/ (v, k, l, u) = (21, 10, 4, 5) ->
  srg (Z.to_nat v) k l u G ->
  exists m, In m sols /\ isomorphic (Z.to_nat v) G (mrows m).
Proof. exact database_complete2_proof. Qed.
Print Assumptions C33_lists_complete.

Example C33_ex : srg 10 3 0 1 petersen /\ match get_solutions 10 3 0 1 with Ok sols => length sols = 1%nat | _ => False end.
Proof. split; [exact petersen_srg|reflexivity]. Qed.

(** ** C34: false as stated; [run_main_w] raises [Overflow] where a result does
    not fit. With u = 156 the int8 array of quotas wraps, ... *)
Theorem C34_never_wraps_refuted :
  exists v k l u, admissible v k l u /\ (v <= 66)%nat /\ run_main_w (Z.of_nat v) k l u = Raise Overflow.
Proof. exact wrap_proof. Qed.
Print Assumptions C34_never_wraps_refuted.

(** ... and for the complement of 33 edges a column key of 64 entries does,
    although the parameters are those of a graph and within the bound *)
Theorem C34_column_key_refuted : admissible 66 64 62 64 /\ run_main_w 66 64 62 64 = Raise Overflow.
Proof. exact wrap_key_proof. Qed.
Print Assumptions C34_column_key_refuted.

(** what remains: outside these two cases nothing wraps. Missing: the product
    of srg/solver.py:132 is checked only where lines 135-140 do not reject the
    question; whether it can wrap in a question they reject is open. *)
Theorem C34_never_wraps_partial : forall v k l u, admissible v k l u -> (v <= 66)%nat ->
  u <= 127 -> (v <= 65)%nat \/ k <= 63 ->
  exists ms, run_main_w (Z.of_nat v) k l u = Ok ms /\ run_main (Z.of_nat v) k l u = Ok ms.
Proof. exact no_wrap_proof. Qed.
Print Assumptions C34_never_wraps_partial.

(** beyond that width: leading entries are lost, and the 64th is the sign *)
Theorem C34_key_collision : forall a b x, (64 <= length x)%nat -> pack (a :: x) = pack (b :: x).
Proof. exact BitFacts.pack_lost. Qed.
Print Assumptions C34_key_collision.
Theorem C34_key_negative : forall x, bits x -> length x = 63%nat -> pack (1 :: x) < 0.
Proof. exact pack_negative. Qed.
Print Assumptions C34_key_negative.

Example C34_ex : admissible 66 20 10 4 /\ match run_main_w 10 6 3 4 with Ok ms => length ms = 2%nat | _ => False end.
Proof. split; [unfold admissible; lia|]. vm_compute. reflexivity. Qed.
Example C34_key_ex : length (repeat 0 64) = 64%nat /\ bits (repeat 1 63) /\ length (repeat 1 63) = 63%nat.
Proof. split; [reflexivity|]. split; [|reflexivity]. intros a Ha. apply repeat_spec in Ha. now right. Qed.

(** ** C35: false as stated, the multiplicities are truncated *)
Theorem C35_eig_refuted : exists v k l u, admissible (Z.to_nat v) k l u /\ 0 <= v
  /\ (l - u) ^ 2 + 4 * (k - u) = 5 ^ 2 /\ conference v k l u <> 0
  /\ exists r s f g, eig v k l u = Ok [(k, 1); (r, f); (s, g)] /\ 1 + f + g <> v /\ k + f * r + g * s <> 0.
Proof. exact eig_refuted_proof. Qed.
Print Assumptions C35_eig_refuted.

(** what remains: the eigenvalues are the two roots, and the multiplicities are
    right whenever integers of that kind exist *)
Theorem C35_eig_partial : forall v k l u D, 0 < D -> (l - u) ^ 2 + 4 * (k - u) = D ^ 2 ->
  exists r s f g, eig v k l u = Ok [(k, 1); (r, f); (s, g)]
    /\ r + s = l - u /\ r * s = u - k /\ s < r
    /\ forall f' g', f' + g' = v - 1 -> k + f' * r + g' * s = 0 -> f = f' /\ g = g'.
Proof. exact eig_proof. Qed.
Print Assumptions C35_eig_partial.

Example C35_ex : (0 - 1) ^ 2 + 4 * (3 - 1) = 3 ^ 2 /\ eig 10 3 0 1 = Ok [(3, 1); (1, 5); (-2, 4)].
Proof. split; reflexivity. Qed.

(** ** C36: false, the module imports a name that does not exist *)
Theorem C36_import_refuted : forall (A : Type) (rest : list string -> res A) argv,
  database_main rest argv = Raise ImportError.
Proof. exact database_main_proof. Qed.
Print Assumptions C36_import_refuted.

Example C36_ex : import_from srg_modules "utils"%string = Ok tt.
Proof. reflexivity. Qed.

(** ** C37 *)
Theorem C37_compose : forall (A : Type) (f : A -> A) fs, exists h, compose (f :: fs) = Ok h
  /\ forall x, h x = f (fold_right (fun g y => g y) x fs).
Proof. exact (@compose_proof). Qed.
Print Assumptions C37_compose.

Example C37_ex : match compose [Z.add 1; Z.mul 2; Z.add 3] with Ok h => h 4 = 15 | _ => False end.
Proof. reflexivity. Qed.

(** ** C38 *)
Theorem C38_output_sorted : forall v k l u, admissible v k l u -> (v <= 67)%nat ->
  exists ms out, run_main (Z.of_nat v) k l u = Ok ms /\ main_output (Z.of_nat v) k l u = Ok out
    /\ Permutation ms out
    /\ StronglySorted lex_lt (map (fun m => upper v (mrows m)) out).
Proof. exact main_output_proof. Qed.
Print Assumptions C38_output_sorted.

Example C38_ex : admissible 10 6 3 4.
Proof. unfold admissible. lia. Qed.

(** ** C39 *)
Theorem C39_shipped_matrices_srg : forall v k l u sols m, get_solutions v k l u = Ok sols -> In m sols ->
  mcols m = Z.to_nat v /\ srg (Z.to_nat v) k l u (mrows m).
Proof. exact database_sound_proof. Qed.
Print Assumptions C39_shipped_matrices_srg.

Example C39_ex : match get_solutions 28 12 6 4 with Ok sols => length sols = 161%nat | _ => False end.
Proof. reflexivity. Qed.

(** ** C40 *)
Theorem C40_program_reproduces_lists : forall v k l u sols, get_solutions v k l u = Ok sols ->
  v < 20 \/ (v, k, l, u) = (25, 8, 3, 2) -> main_output v k l u = Ok sols.
Proof. exact database_rerun_proof. Qed.
Print Assumptions C40_program_reproduces_lists.

Example C40_ex : match get_solutions 16 9 4 6 with Ok sols => length sols = 13%nat | _ => False end.
Proof. reflexivity. Qed.

(** ** C41: false, the list for (29,14,6,7) is empty *)
Theorem C41_all_lists_complete_refuted : exists v k l u G,
  get_solutions (Z.of_nat v) k l u = Ok [] /\ srg v k l u G.
Proof. exact database_incomplete_proof. Qed.
Print Assumptions C41_all_lists_complete_refuted.

(** what remains: exactly three lists are not complete *)
Theorem C41_decided_partial : forall v k l u sols, get_solutions v k l u = Ok sols ->
  ((forall G, srg (Z.to_nat v) k l u G -> exists m, In m sols /\ isomorphic (Z.to_nat v) G (mrows m))
   <-> ~ In (v, k, l, u) incomplete).
Proof. exact decided_lists. Qed.
Print Assumptions C41_decided_partial.

Example C41_ex : match get_solutions 21 10 5 4, get_solutions 25 12 5 6 with
  | Ok (m :: _), Ok (m' :: _) => srg 21 10 5 4 (mrows m) /\ srg 25 12 5 6 (mrows m') | _, _ => False end.
Proof. split; apply packed_srgb_ok; vm_compute; reflexivity. Qed.

(** ** C42 *)
Theorem C42_listed_problems : forall name, In name list_problems <->
  exists v k l u sols, name = problem_name v k l u /\ extract_vklu name = Ok [v; k; l; u]
    /\ get_solutions v k l u = Ok sols.
Proof. exact listing_proof. Qed.
Print Assumptions C42_listed_problems.

Theorem C42_listed_once : NoDup list_problems.
Proof. exact database_names_distinct. Qed.
Print Assumptions C42_listed_once.

Example C42_ex : length list_problems = 21%nat /\ In "problem_10_3_0_1"%string list_problems.
Proof. split; [reflexivity|]. vm_compute. tauto. Qed.

(** ** C43: false, the file for (28,12,6,4) is not in order *)
Theorem C43_lists_increasing_refuted : exists v k l u sols i, get_solutions (Z.of_nat v) k l u = Ok sols
  /\ (S i < length sols)%nat
  /\ lex_lt (upper v (mrows (nth (S i) sols (Mat 0 [])))) (upper v (mrows (nth i sols (Mat 0 [])))).
Proof. exact database_unsorted_proof. Qed.
Print Assumptions C43_lists_increasing_refuted.

(** what remains: every other file is in strictly increasing order *)
Theorem C43_lists_increasing_partial : forall v k l u sols, get_solutions v k l u = Ok sols ->
  (v, k, l, u) <> (28, 12, 6, 4) ->
  StronglySorted lex_lt (map (fun m => upper (Z.to_nat v) (mrows m)) sols).
Proof. exact database_increasing_proof. Qed.
Print Assumptions C43_lists_increasing_partial.

Example C43_ex : match get_solutions 27 10 1 5 with Ok sols => length sols = 2%nat | _ => False end.
Proof. reflexivity. Qed.

(** ** C44: false, two matrices of one file can be isomorphic *)
Theorem C44_no_isomorphic_entries_refuted : exists v k l u sols m m', get_solutions (Z.of_nat v) k l u = Ok sols
  /\ In m sols /\ In m' sols /\ m <> m' /\ isomorphic v (mrows m) (mrows m').
Proof. exact database_repeats_proof. Qed.
Print Assumptions C44_no_isomorphic_entries_refuted.

(** what remains: which files contain isomorphic matrices, ... *)
Theorem C44_repeating_partial : forall v k l u sols, get_solutions v k l u = Ok sols ->
  ((exists m m', In m sols /\ In m' sols /\ m <> m' /\ isomorphic (Z.to_nat v) (mrows m) (mrows m'))
   <-> In (v, k, l, u) repeating).
Proof. exact repeating_lists. Qed.
Print Assumptions C44_repeating_partial.

(** ... and no matrix is listed twice *)
Theorem C44_no_equal_entries_partial : forall v k l u sols, get_solutions v k l u = Ok sols -> NoDup sols.
Proof. exact database_distinct_proof. Qed.
Print Assumptions C44_no_equal_entries_partial.

(** ** C45 *)
Theorem C45_row_equations : forall v k l u M r i, srg v k l u M -> (i < r < v)%nat ->
  dot (firstn r (nth i M [])) (map (fun j => cell M j r) (seq 0 r))
    + dot (skipn (S r) (nth i M [])) (skipn (S r) (nth r M []))
  = if cell M i r =? 1 then l else u.
Proof. exact row_equation_proof. Qed.
Print Assumptions C45_row_equations.
(** [test_matrix_property], computing in int8, passes *)
Theorem C45_test_passes : forall v k l u mats, (v <= 127)%nat -> (forall M, In M mats -> srg v k l u M) ->
  test_matrix_property v k l u mats = Ok tt.
Proof. exact property_test_proof. Qed.
Print Assumptions C45_test_passes.

Example C45_ex : srg 10 3 0 1 petersen.
Proof. exact petersen_srg. Qed.

(** ** C46 *)
Theorem C46_output_is_maximized : forall argsort v k l u, argsorts argsort -> stable_upto (v - 1) argsort ->
  admissible v k l u -> (v <= 67)%nat -> k < Z.of_nat v - 1 ->
  exists ms, run_main (Z.of_nat v) k l u = Ok ms
    /\ forall m, In m ms -> maximize argsort (mrows m) = Ok (mrows m).
Proof. exact maximize_output_proof. Qed.
Print Assumptions C46_output_is_maximized.

Example C46_ex : argsorts argsort_stable /\ stable_upto 9 argsort_stable /\ admissible 10 6 3 4.
Proof. split; [apply argsort_by_ok|]. split; [apply argsort_stable_ok|]. unfold admissible. lia. Qed.

(** ** C47 *)
Theorem C47_maximize_determined : forall f g v, argsorts f -> stable_upto (v - 1) f ->
  argsorts g -> stable_upto (v - 1) g -> forall M, symmetric v M -> maximize f M = maximize g M.
Proof. exact maximize_same. Qed.
Print Assumptions C47_maximize_determined.

Theorem C47_maximize_tests : forall argsort, argsorts argsort -> stable_upto 12 argsort ->
  maximize argsort test9_in = Ok test9_out /\ maximize argsort test13_in = Ok test13_out.
Proof. exact test_sort_proof. Qed.
Print Assumptions C47_maximize_tests.

Example C47_ex : symmetric 13 test13_in /\ argsorts argsort_stable /\ stable_upto 12 argsort_stable.
Proof. split; [exact test13_symmetric|]. split; [apply argsort_by_ok|apply argsort_stable_ok]. Qed.

(** ** C48 *)
Theorem C48_conference_two_squares : forall m M,
  srg (4 * m + 1) (2 * Z.of_nat m) (Z.of_nat m - 1) (Z.of_nat m) M ->
  forall p q r s, Z.of_nat (4 * m + 1) = p * p + q * q + r * r + s * s ->
  exists a b d, d <> 0 /\ a * a + b * b = Z.of_nat (4 * m + 1) * (d * d).
Proof. exact two_squares. Qed.
Print Assumptions C48_conference_two_squares.

Theorem C48_no_conference_graph : forall v k l u M,
  In (v, k, l, u) [(21%nat, 10, 4, 5); (33%nat, 16, 7, 8); (57%nat, 28, 13, 14)] -> ~ srg v k l u M.
Proof. exact no_conference_proof. Qed.
Print Assumptions C48_no_conference_graph.

Example C48_ex : srg 29 14 6 7 paley29 /\ Z.of_nat (4 * 7 + 1) = 5 * 5 + 2 * 2 + 0 * 0 + 0 * 0 /\ admissible 21 10 4 5.
Proof. split; [exact paley29_srg|]. split; [reflexivity|]. unfold admissible. lia. Qed.

(** ** C49 *)
Theorem C49_eig_is_spectrum : forall v k l u G, srg v k l u G -> 1 <= k < Z.of_nat v - 1 ->
  conference (Z.of_nat v) k l u <> 0 ->
  exists es, eig (Z.of_nat v) k l u = Ok es /\ (forall e m, In (e, m) es -> 0 <= m)
    /\ spectrum v G (with_multiplicity es).
Proof. exact eig_spectrum_proof. Qed.
Print Assumptions C49_eig_is_spectrum.

(** so parameters whose multiplicities do not add up to [v] belong to no graph *)
Theorem C49_infeasible : forall v k l u, 1 <= k < Z.of_nat v - 1 -> conference (Z.of_nat v) k l u <> 0 ->
  (forall es, eig (Z.of_nat v) k l u = Ok es -> length (with_multiplicity es) <> v) -> forall G, ~ srg v k l u G.
Proof. exact infeasible_proof. Qed.
Print Assumptions C49_infeasible.

Example C49_ex : srg 10 3 0 1 petersen /\ conference 10 3 0 1 <> 0 /\ eig 10 3 0 1 = Ok [(3, 1); (1, 5); (-2, 4)]
  /\ with_multiplicity [(3, 1); (1, 5); (-2, 4)] = [3; 1; 1; 1; 1; 1; -2; -2; -2; -2].
Proof. split; [exact petersen_srg|]. split; [discriminate|]. split; reflexivity. Qed.
Example C49_infeasible_ex : conference 22 9 4 3 <> 0 /\ match eig 22 9 4 3 with Ok es => length (with_multiplicity es) <> 22%nat | _ => False end.
Proof. split; discriminate. Qed.

(** ** C50 *)
Theorem C50_determinant : forall v k l u G, srg v k l u G -> 1 <= k < Z.of_nat v - 1 ->
  conference (Z.of_nat v) k l u <> 0 -> determinant (Z.of_nat v) k l u = Ok (det v G).
Proof. exact determinant_proof. Qed.
Print Assumptions C50_determinant.

Example C50_ex : srg 10 3 0 1 petersen /\ conference 10 3 0 1 <> 0 /\ determinant 10 3 0 1 = Ok 48.
Proof. split; [exact petersen_srg|]. split; [discriminate|reflexivity]. Qed.

(** ** C51 *)
Theorem C51_rejects : forall v k l u, (v - k - 1) * u <> k * (k - l - 1) -> main_output v k l u = Raise AssertionError.
Proof. exact main_rejects_proof. Qed.
Print Assumptions C51_rejects.
Theorem C51_no_graph_rejected : forall v k l u, main_output (Z.of_nat v) k l u = Raise AssertionError ->
  (3 <= v <= 67)%nat -> 1 <= k -> forall G, ~ srg v k l u G.
Proof. exact rejected_proof. Qed.
Print Assumptions C51_no_graph_rejected.

Example C51_ex : (10 - 3 - 1) * 2 <> 3 * (3 - 0 - 1) /\ main_output 10 3 0 2 = Raise AssertionError.
Proof. split; [discriminate|reflexivity]. Qed.

(** ** C52 *)
Theorem C52_debug_changes_nothing : forall v k l u, run_main_d v k l u = run_main v k l u.
Proof. exact run_main_d_ok. Qed.
Print Assumptions C52_debug_changes_nothing.

Theorem C52_steps_keep_invariant : forall Q, question_ok Q ->
  debug reduce_col Q = reduce_col Q /\ debug eliminate Q = eliminate Q /\ debug zero_in_b Q = zero_in_b Q
  /\ debug only_1_element_in_row Q = only_1_element_in_row Q /\ debug_fork Q = fork_enum Q.
Proof. exact invariant_proof. Qed.
Print Assumptions C52_steps_keep_invariant.

Example C52_ex : question_ok ex_question /\ match debug only_1_element_in_row ex_question with Ok _ => True | _ => False end.
Proof. split; [exact ex_question_ok|]. exact I. Qed.
(** the check is not trivially true *)
Example C52_ex_check : invariant_check (Qst (Mat 0 [[]]) [1] 0 [] (Ans [0] [0] 2)) = Raise AssertionError
  /\ invariant_check (Qst (Mat 0 [[]]) [0] 0 [] (Ans [3] [0] 2)) = Raise AssertionError
  /\ invariant_check (Qst (Mat 0 [[]]) [0] 0 [] (Ans [2] [0] 2)) = Ok tt.
Proof. split; [|split]; reflexivity. Qed.
(** tests/test_solver.py:41-57 [test2] *)
Example C52_test2 :
  (a <- mk_answer [0;-1;0;0;-1] [0;4;8;12;16] 20 ;;
   Q <- mk_question (Mat 2 [[0;1]; [0;1]; [0;0]; [1;0]; [1;0]; [0;0]]) [4;4;0;4;4;0] 8 [4;4] (Some a) ;;
   Q' <- only_1_element_in_row Q ;;
   invariant_check Q') = Ok tt.
Proof. reflexivity. Qed.

(** ** C53 *)
Theorem C53_yields : forall v k l u ms, run_main v k l u = Ok ms -> forall m, In m ms <->
  length (mrows m) = mcols m
  /\ seed v k l u = Ok (Mat (mcols m) (firstn 2 (mrows m)))
  /\ forall r, (2 <= r < mcols m)%nat -> exists Q xs x,
       from_matrix (Mat (mcols m) (firstn r (mrows m))) = Ok Q /\ solve_question Q = Ok xs /\ In x xs
       /\ append_row (Mat (mcols m) (firstn r (mrows m))) x = Ok (Mat (mcols m) (firstn (S r) (mrows m))).
Proof. exact yields_proof. Qed.
Print Assumptions C53_yields.

Example C53_ex : match run_main 10 3 0 1 with Ok ms => length ms = 1%nat | _ => False end.
Proof. vm_compute. reflexivity. Qed.

(** ** C54 *)
Theorem C54_test_solve_question : forall v k l u sols, get_solutions v k l u = Ok sols -> v < 20 ->
  exists s Q xs, seed v k l u = Ok s /\ from_matrix s = Ok Q /\ solve_question Q = Ok xs
    /\ sols <> [] /\ forall m, In m sols -> In (skipn 3 (nth 2 (mrows m) [])) xs.
Proof. exact test_question_proof. Qed.
Print Assumptions C54_test_solve_question.

Example C54_ex : match get_solutions 16 9 4 6 with Ok sols => length sols = 13%nat | _ => False end.
Proof. reflexivity. Qed.

(** ** C55 *)
Theorem C55_yields_iff_canonical : forall v k l u T ms, (3 <= v <= 67)%nat -> 1 <= k -> 0 <= u -> srg v k l u T ->
  run_main (Z.of_nat v) k l u = Ok ms -> (In (Mat v T) ms <-> canonical v T).
Proof. exact yields_iff_canonical. Qed.
Print Assumptions C55_yields_iff_canonical.

(** both matrices yielded for (10,6,3,4) are strongly regular; [petersen] is labelled otherwise *)
Example C55_ex : exists ms, run_main 10 6 3 4 = Ok ms
  /\ forallb (fun m => srgb 10 6 3 4 (mrows m)) ms = true /\ length ms = 2%nat.
Proof. eexists. split; [vm_compute; reflexivity|]. split; vm_compute; reflexivity. Qed.
Example C55_ex_other : srg 10 3 0 1 petersen
  /\ match run_main 10 3 0 1 with Ok ms => existsb (fun m => list_eqb vec_eqb (mrows m) petersen) ms | _ => true end = false.
Proof. split; [exact petersen_srg|]. vm_compute. reflexivity. Qed.

(** ** C56 *)
Theorem C56_greatest_printed : forall v k l u G, (3 <= v <= 67)%nat -> 1 <= k -> 0 <= u -> srg v k l u G ->
  exists out i m, main_output (Z.of_nat v) k l u = Ok out /\ nth_error out i = Some m
    /\ mcols m = v /\ isomorphic v G (mrows m)
    /\ (forall N, isomorphic v G N -> lex_le (upper v N) (upper v (mrows m)))
    /\ forall j m', nth_error out j = Some m' -> isomorphic v G (mrows m') -> (j <= i)%nat.
Proof. exact greatest_printed. Qed.
Print Assumptions C56_greatest_printed.

Example C56_ex : srg 10 3 0 1 petersen.
Proof. exact petersen_srg. Qed.

(** ** C57 *)
Theorem C57_maximize_idempotent : forall argsort v M N, argsorts argsort -> stable_upto (v - 1) argsort ->
  adjacency v M -> maximize argsort M = Ok N -> maximize argsort N = Ok N.
Proof. exact maximize_idem_proof. Qed.
Print Assumptions C57_maximize_idempotent.
(** stability cannot be dropped *)
Theorem C57_stability_needed : exists argsort v M N P, argsorts argsort /\ adjacency v M
  /\ maximize argsort M = Ok N /\ maximize argsort N = Ok P /\ P <> N.
Proof. exact stability_matters. Qed.
Print Assumptions C57_stability_needed.

Example C57_ex : argsorts argsort_stable /\ stable_upto 9 argsort_stable /\ adjacency 10 petersen
  /\ exists N, maximize argsort_stable petersen = Ok N.
Proof.
  split; [apply argsort_by_ok|]. split; [apply argsort_stable_ok|]. split; [exact (proj1 petersen_srg)|].
  eexists. vm_compute. reflexivity.
Qed.

(** ** C58 *)
Theorem C58_maximize_printed_refuted : forall argsort, argsorts argsort -> stable_upto 9 argsort ->
  exists v k l u M N ms, srg v k l u M /\ (v = 10)%nat /\ maximize argsort M = Ok N
    /\ main_output (Z.of_nat v) k l u = Ok ms /\ ~ In (Mat v N) ms.
Proof. exact maximize_not_printed. Qed.
Print Assumptions C58_maximize_printed_refuted.
(** what remains: it is printed exactly when it is canonical *)
Theorem C58_maximize_printed_partial : forall argsort v k l u M, argsorts argsort -> stable_upto (v - 1) argsort ->
  (3 <= v <= 67)%nat -> 1 <= k < Z.of_nat v - 1 -> srg v k l u M ->
  exists N ms, maximize argsort M = Ok N /\ isomorphic v M N /\ main_output (Z.of_nat v) k l u = Ok ms
    /\ (In (Mat v N) ms <-> canonical v N).
Proof. exact maximize_printed_iff. Qed.
Print Assumptions C58_maximize_printed_partial.
(** exp.py: both comparisons are False *)
Theorem C58_exp : forall argsort, argsorts argsort -> stable_upto 9 argsort -> exp_compare argsort = Ok [false; false].
Proof. exact exp_proof. Qed.
Print Assumptions C58_exp.
(** what is compared: relabellings of the complements of the two shipped matrices
    with the shipped Petersen graph; all are Petersen graphs *)
Theorem C58_exp_values : forall argsort, argsorts argsort -> stable_upto 9 argsort ->
  exists s0 s1 t0 t1 w v b, get_solutions 10 6 3 4 = Ok [s0; s1] /\ get_solutions 10 3 0 1 = Ok [v]
    /\ exp_script argsort = Ok ([t0; t1; w; w; mrows v], b)
    /\ (forall i j, (i < 10)%nat -> (j < 10)%nat -> i <> j ->
          cell t0 i j = 1 - cell (mrows s0) i j /\ cell t1 i j = 1 - cell (mrows s1) i j)
    /\ srg 10 3 0 1 t0 /\ srg 10 3 0 1 t1 /\ srg 10 3 0 1 w
    /\ isomorphic 10 t0 w /\ isomorphic 10 t1 w /\ isomorphic 10 w (mrows v)
    /\ w <> t0 /\ w <> t1 /\ w <> mrows v.
Proof. exact exp_values_proof. Qed.
Print Assumptions C58_exp_values.

Example C58_ex : argsorts argsort_stable /\ stable_upto 9 argsort_stable /\ srg 10 3 0 1 petersen.
Proof. split; [apply argsort_by_ok|]. split; [apply argsort_stable_ok|exact petersen_srg]. Qed.

(** ** C59 *)
Theorem C59_empty_complement : forall v k l u, (3 <= v <= 67)%nat -> 1 <= k -> run_main (Z.of_nat v) k l u = Ok [] ->
  let '(_, k', l', u') := complement_vklu (Z.of_nat v) k l u in forall G, ~ srg v k' l' u' G.
Proof. exact empty_complement. Qed.
Print Assumptions C59_empty_complement.
Theorem C59_shipped_complement : forall v k l u sols sols' m, get_solutions v k l u = Ok sols ->
  (let '(v', k', l', u') := complement_vklu v k l u in get_solutions v' k' l' u' = Ok sols') -> v < 20 -> In m sols ->
  exists N m', complement (mrows m) = Ok N /\ In m' sols' /\ isomorphic (Z.to_nat v) N (mrows m').
Proof. exact shipped_complement. Qed.
Print Assumptions C59_shipped_complement.

Example C59_ex : run_main 11 5 1 3 = Ok [] /\ complement_vklu 11 5 1 3 = (11, 5, 2, 2).
Proof. split; vm_compute; reflexivity. Qed.
Example C59_ex_shipped : complement_vklu 16 5 0 2 = (16, 10, 6, 6)
  /\ match get_solutions 16 5 0 2, get_solutions 16 10 6 6 with Ok a, Ok b => (0 < length a /\ 0 < length b)%nat | _, _ => False end.
Proof. split; [reflexivity|]. vm_compute. split; apply le_n_S, Nat.le_0_l. Qed.

(** ** C60 *)
Theorem C60_text_ambiguous_refuted : exists v k l u ms m m', admissible v k l u /\ (v <= 67)%nat
  /\ main_output (Z.of_nat v) k l u = Ok ms /\ In m ms /\ In m' ms /\ m <> m' /\ array_repr m = array_repr m'.
Proof. exact ambiguous_proof. Qed.
Print Assumptions C60_text_ambiguous_refuted.
(** what remains: up to 31 vertices every entry is there ... *)
Theorem C60_text_entries_partial : forall v k l u, admissible v k l u -> (v <= 31)%nat ->
  exists ms body, main_output (Z.of_nat v) k l u = Ok ms
    /\ main_text (Z.of_nat v) k l u = Ok (heading (Z.of_nat v) k l u ++ body)%string
    /\ binary_digits body = entries ms.
Proof. exact main_text_proof. Qed.
Print Assumptions C60_text_entries_partial.
Theorem C60_text_determines_partial : forall v ms ms', (1 <= v <= 31)%nat ->
  (forall m, In m ms -> mcols m = v /\ adjacency v (mrows m)) ->
  (forall m, In m ms' -> mcols m = v /\ adjacency v (mrows m)) ->
  answers_text ms = answers_text ms' -> ms = ms'.
Proof. exact text_determines. Qed.
Print Assumptions C60_text_determines_partial.
(** ... and from 32 vertices on only the outer three rows and columns are *)
Theorem C60_summarised : forall v M N, (32 <= v)%nat -> shape v v M -> shape v v N ->
  (forall i j, outer v i -> outer v j -> cell M i j = cell N i j) -> array_repr (Mat v M) = array_repr (Mat v N).
Proof. exact summarised. Qed.
Print Assumptions C60_summarised.

(** every character of a printed matrix *)
Theorem C60_layout : forall v M, (1 <= v)%nat -> shape v v M -> array_repr (Mat v M) = layout v M.
Proof. exact array_repr_layout. Qed.
Print Assumptions C60_layout.

Example C60_ex : admissible 10 3 0 1 /\ srg 36 15 6 6 print_a /\ srg 36 15 6 6 print_b.
Proof. split; [unfold admissible; split; [|split]; try reflexivity; repeat constructor|]; try discriminate. split; [exact print_a_srg|exact print_b_srg]. Qed.
Example C60_ex_text : main_text 4 2 0 2 = Ok ("4 2 0 2" ++ newline ++ "'*********** answers *************'" ++ newline
  ++ "array([[0, 1, 1, 0]," ++ newline ++ "       [1, 0, 0, 1]," ++ newline
  ++ "       [1, 0, 0, 1]," ++ newline ++ "       [0, 1, 1, 0]], dtype=int8)" ++ newline)%string.
Proof. vm_compute. reflexivity. Qed.

(** ** C61 *)
Theorem C61_settled : forall Q Q', question_ok Q -> refine Q = Ok Q' -> (mcols (qA Q') <= 63)%nat ->
  settled Q' /\ reduce_col Q' = Ok Q' /\ eliminate Q' = Ok Q' /\ zero_in_b Q' = Ok Q' /\ only_1_element_in_row Q' = Ok Q'.
Proof. exact settled_proof. Qed.
Print Assumptions C61_settled.

Example C61_ex : question_ok zex_question
  /\ refine zex_question = Ok (Qst (Mat 3 [[0;1;1]; [1;1;0]]) [2;2] 3 [2;2;2] (Ans [-1;-1;-1;0] [0;2;4;6] 8)).
Proof. split; [exact zex_question_ok|reflexivity]. Qed.

(** ** C62 *)
Theorem C62_search_order : forall Q xs, solve_question Q = Ok xs -> search Q xs /\ forall ys, search Q ys -> ys = xs.
Proof. exact search_proof. Qed.
Print Assumptions C62_search_order.

Example C62_ex : solve_question sex_question = Ok [[1;0;0;1]; [0;1;1;0]].
Proof. vm_compute. reflexivity. Qed.

(** ** C63 *)
Theorem C63_zero_in_b : forall Q, question_ok Q -> exists Q' cols, zeros_removed Q Q' cols /\ question_ok Q'
  /\ (forall w, solution Q w <-> solution Q' w)
  /\ (refused Q' -> zero_in_b Q = NoSolution) /\ (~ refused Q' -> zero_in_b Q = Ok Q').
Proof. exact zero_proof. Qed.
Print Assumptions C63_zero_in_b.

Example C63_ex : question_ok zex_question
  /\ zero_in_b zex_question = Ok (Qst (Mat 3 [[1;1;0]; [0;1;1]; [0;0;0]]) [2;2;0] 3 [2;2;2] (Ans [-1;-1;-1;0] [0;2;4;6] 8)).
Proof. split; [exact zex_question_ok|reflexivity]. Qed.

(** ** C64 *)
Theorem C64_refused : forall Q, question_ok Q ->
  (refused Q -> post_check Q = NoSolution) /\ (~ refused Q -> post_check Q = Ok Q).
Proof. exact refused_proof. Qed.
Print Assumptions C64_refused.

Example C64_ex : question_ok zex_question /\ ~ refused zex_question.
Proof.
  split; [exact zex_question_ok|]. intros [[H _]|[[_ H]|(i & Hi & H)]]; try discriminate.
  do 4 (destruct i as [|i]; [discriminate|]). simpl in Hi. lia.
Qed.

(** ** C65 *)
Theorem C65_only_1 : forall Q, question_ok Q ->
  exists fixed, NoDup (map fst fixed) /\ (forall c x, In (c, x) fixed <-> alone Q c x)
  /\ (exceeded Q fixed -> only_1_element_in_row Q = NoSolution)
  /\ (~ exceeded Q fixed -> exists Q' cols, filled_in Q Q' fixed cols /\ question_ok Q'
      /\ (forall w, solution Q w <-> solution Q' w)
      /\ (refused Q' -> only_1_element_in_row Q = NoSolution) /\ (~ refused Q' -> only_1_element_in_row Q = Ok Q')).
Proof. exact only_exact_proof. Qed.
Print Assumptions C65_only_1.

Example C65_ex : question_ok ex_question /\ alone ex_question 1 1
  /\ only_1_element_in_row ex_question = Ok (Qst (Mat 2 [[1;1]; [0;0]]) [2;0] 2 [2;1] (Ans [-1;1;-1] [0;2;4] 5)).
Proof.
  split; [exact ex_question_ok|]. split; [|reflexivity]. exists 1%nat. simpl. split; [lia|]. split.
  - split; [simpl; lia|]. split; [discriminate|]. intros j Hj. do 3 (destruct j as [|j]; [reflexivity || now destruct Hj|]). now destruct j.
  - split; [reflexivity|]. intros r' Hr. lia.
Qed.

(** ** C66 *)
Theorem C66_characteristic_polynomial : forall v k l u G, srg v k l u G -> 1 <= k < Z.of_nat v - 1 ->
  conference (Z.of_nat v) k l u <> 0 ->
  exists es, eig (Z.of_nat v) k l u = Ok es
    /\ forall x, det v (char_matrix v G x) = zprod (map (fun e => x - e) (with_multiplicity es)).
Proof. exact char_poly_proof. Qed.
Print Assumptions C66_characteristic_polynomial.
(** conference graphs: the roots other than [2 u] are those of [x^2 + x - u] *)
Theorem C66_conference_polynomial : forall v k l u G, srg v k l u G -> 1 <= k < Z.of_nat v - 1 ->
  conference (Z.of_nat v) k l u = 0 ->
  l = u - 1 /\ k = 2 * u /\ Z.of_nat v = 4 * u + 1
  /\ forall x, det v (char_matrix v G x) = (x - 2 * u) * (x * x + x - u) ^ (2 * u).
Proof. exact char_conference_proof. Qed.
Print Assumptions C66_conference_polynomial.

Example C66_ex : srg 10 3 0 1 petersen /\ conference 10 3 0 1 <> 0 /\ srg 5 2 0 1 pentagon /\ conference 5 2 0 1 = 0
  /\ char_matrix 5 pentagon 7 = [[7;-1;0;0;-1]; [-1;7;-1;0;0]; [0;-1;7;-1;0]; [0;0;-1;7;-1]; [-1;0;0;-1;7]]
  /\ det 5 (char_matrix 5 pentagon 7) = (7 - 2) * (7 * 7 + 7 - 1) ^ 2.
Proof.
  split; [exact petersen_srg|]. split; [discriminate|]. split; [exact pentagon_srg|]. split; [reflexivity|].
  split; vm_compute; reflexivity.
Qed.

(** ** C67 *)
Theorem C67_eig_in_floating_point : forall rnd sqrt v k l u G, faithful rnd -> faithful_sqrt sqrt -> srg v k l u G ->
  1 <= k < Z.of_nat v - 1 -> Z.of_nat v <= 2 ^ 20 -> conference (Z.of_nat v) k l u <> 0 ->
  exists es, eig_float rnd sqrt (Z.of_nat v) k l u = Ok (map (fun em => (PInt (fst em), snd em)) es)
    /\ (forall e m, In (e, m) es -> 0 <= m) /\ spectrum v G (with_multiplicity es).
Proof. exact eig_float_graph_proof. Qed.
Print Assumptions C67_eig_in_floating_point.
(** for any parameters: floating point gives what exact arithmetic gives *)
Theorem C67_eig_exact : forall rnd sqrt, faithful rnd -> faithful_sqrt sqrt -> forall v k l u,
  Z.abs v <= 2 ^ 20 -> Z.abs k <= 2 ^ 20 -> Z.abs l <= 2 ^ 20 -> Z.abs u <= 2 ^ 20 -> conference v k l u <> 0 ->
  eig_float rnd sqrt v k l u = (es <- eig v k l u ;; Ok (map (fun em => (PInt (fst em), snd em)) es)).
Proof. exact eig_float_proof. Qed.
Print Assumptions C67_eig_exact.

(** [int] of a double *)
Theorem C67_int : forall q, (Qabs (inject_Z (truncate q)) <= Qabs q)%Q /\ (Qabs (q - inject_Z (truncate q)) < 1)%Q.
Proof. exact truncate_spec_proof. Qed.
Print Assumptions C67_int.

Example C67_ex : faithful nearest /\ faithful_sqrt nearest_sqrt /\ srg 10 3 0 1 petersen /\ conference 10 3 0 1 <> 0
  /\ eig_float nearest nearest_sqrt 10 3 0 1 = Ok [(PInt 3, 1); (PInt 1, 5); (PInt (-2), 4)].
Proof.
  split; [exact nearest_faithful|]. split; [exact nearest_sqrt_faithful|]. split; [exact petersen_srg|]. split; [discriminate|].
  vm_compute. reflexivity.
Qed.

(** ** C68 *)
Theorem C68_eig_of_conference_graphs : forall rnd sqrt, faithful rnd -> faithful_sqrt sqrt -> forall v k l u G, srg v k l u G ->
  1 <= k < Z.of_nat v - 1 -> Z.of_nat v < 2 ^ 53 -> conference (Z.of_nat v) k l u = 0 ->
  exists r s m, eig_float rnd sqrt (Z.of_nat v) k l u = Ok [(PInt k, 1); (PFloat r, m); (PFloat s, m)]
    /\ 2 * m = Z.of_nat v - 1 /\ is_double r /\ is_double s /\ (0 < r)%Q /\ (s < 0)%Q
    /\ (Qabs ((2 * r + 1) * (2 * r + 1) - inject_Z (Z.of_nat v)) <= 2 ^ (-49) * inject_Z (Z.of_nat v))%Q
    /\ (Qabs ((2 * s + 1) * (2 * s + 1) - inject_Z (Z.of_nat v)) <= 2 ^ (-49) * inject_Z (Z.of_nat v))%Q.
Proof. exact eig_float_conference_proof. Qed.
Print Assumptions C68_eig_of_conference_graphs.

Example C68_ex : srg 5 2 0 1 pentagon /\ conference 5 2 0 1 = 0
  /\ match eig_float nearest nearest_sqrt 5 2 0 1 with
     | Ok [_; (PFloat r, m); (PFloat s, m')] =>
         Qeq_bool r (347922205179541 # 562949953421312) && Qeq_bool s (-910872158600853 # 562949953421312) && (m =? 2) && (m' =? 2)
     | _ => false
     end = true.
Proof. split; [exact pentagon_srg|]. split; [reflexivity|]. vm_compute. reflexivity. Qed.

(** ** C69 *)
Theorem C69_determinant_refuted : exists v k l u G, srg v k l u G /\ 1 <= k < Z.of_nat v - 1 /\ (v <= 40)%nat
  /\ forall rnd sqrt pow, faithful rnd -> faithful_sqrt sqrt ->
     determinant_float rnd sqrt pow (Z.of_nat v) k l u <> Ok (det v G).
Proof. exact determinant_float_refuted_proof. Qed.
Print Assumptions C69_determinant_refuted.
(** the conference graphs on which it fails, whatever the rounding *)
Theorem C69_determinant_wrong : forall rnd sqrt, faithful rnd -> faithful_sqrt sqrt -> forall pow v k l u G a o, srg v k l u G ->
  1 <= k < Z.of_nat v - 1 -> Z.of_nat v < 2 ^ 53 -> conference (Z.of_nat v) k l u = 0 ->
  0 <= a -> u = 2 ^ a * o -> Z.odd o = true -> 2 ^ 53 <= o ^ (2 * u + 1) ->
  determinant_float rnd sqrt pow (Z.of_nat v) k l u <> Ok (det v G).
Proof. exact determinant_float_wrong_proof. Qed.
Print Assumptions C69_determinant_wrong.
(** full statement: forall strongly regular graphs,
    [determinant_float rnd sqrt pow v k l u = Ok (det v G)];
    true without conference graphs and for conference graphs of at most 29
    vertices *)
Theorem C69_determinant_partial : forall rnd sqrt pow v k l u G, faithful rnd -> faithful_sqrt sqrt -> srg v k l u G ->
  1 <= k < Z.of_nat v - 1 -> Z.of_nat v <= 2 ^ 20 -> conference (Z.of_nat v) k l u <> 0 ->
  determinant_float rnd sqrt pow (Z.of_nat v) k l u = Ok (det v G).
Proof. exact determinant_float_graph_proof. Qed.
Print Assumptions C69_determinant_partial.
Theorem C69_determinant_conference_partial : forall rnd sqrt, faithful rnd -> faithful_sqrt sqrt -> forall pow, accurate_pow pow ->
  forall v k l u G, srg v k l u G -> 1 <= k < Z.of_nat v - 1 -> (v <= 29)%nat -> conference (Z.of_nat v) k l u = 0 ->
  determinant_float rnd sqrt pow (Z.of_nat v) k l u = Ok (det v G).
Proof. exact determinant_float_small_proof. Qed.
Print Assumptions C69_determinant_conference_partial.

(** the value itself *)
Theorem C69_determinant_of_conference_graphs : forall v k l u G, srg v k l u G -> 1 <= k < Z.of_nat v - 1 ->
  conference (Z.of_nat v) k l u = 0 -> det v G = 2 * u ^ (2 * u + 1).
Proof. exact det_conference. Qed.
Print Assumptions C69_determinant_of_conference_graphs.

(** [round] of a double: a nearest integer, the even one of two *)
Theorem C69_round : forall q, (Qabs (q - inject_Z (round_half_even q)) <= 1 # 2)%Q
  /\ ((Qabs (q - inject_Z (round_half_even q)) == 1 # 2)%Q -> Z.even (round_half_even q) = true).
Proof. exact round_spec_proof. Qed.
Print Assumptions C69_round.

Example C69_ex : faithful nearest /\ faithful_sqrt nearest_sqrt /\ accurate_pow (fun q m => nearest (q ^ m)%Q)
  /\ srg 29 14 6 7 paley29 /\ conference 29 14 6 7 = 0 /\ srg 37 18 8 9 paley37 /\ conference 37 18 8 9 = 0
  /\ 9 = 2 ^ 0 * 9 /\ Z.odd 9 = true /\ (2 ^ 53 <=? 9 ^ (2 * 9 + 1)) = true
  /\ determinant_float nearest nearest_sqrt (fun q m => nearest (q ^ m)%Q) 10 3 0 1 = Ok 48
  /\ determinant_float nearest nearest_sqrt (fun q m => nearest (q ^ m)%Q) 29 14 6 7 = Ok (2 * 7 ^ 15)
  /\ match determinant_float nearest nearest_sqrt (fun q m => nearest (q ^ m)%Q) 37 18 8 9 with Ok d => d =? 2 * 9 ^ 19 | _ => true end = false.
Proof.
  split; [exact nearest_faithful|]. split; [exact nearest_sqrt_faithful|]. split; [exact nearest_pow_accurate|].
  split; [exact paley29_srg|]. split; [reflexivity|]. split; [exact paley37_srg|].
  repeat split; vm_compute; reflexivity.
Qed.

(** ** C70 *)
Theorem C70_identity_test_decides : forall v k l u mats, (v <= 127)%nat -> 1 <= k < Z.of_nat v - 1 -> 0 <= l <= 127 -> 0 <= u <= 127 ->
  (forall M, In M mats -> zero_one v M /\ loopless v M) ->
  (test_srg_matrix_identity v k l u mats = Ok tt <-> forall M, In M mats -> srg v k l u M).
Proof. exact identity_test_proof. Qed.
Print Assumptions C70_identity_test_decides.
(** the zero diagonal is needed: the test does not look at it *)
Theorem C70_loops_pass : exists v k l u M, test_srg_matrix_identity v k l u [M] = Ok tt /\ zero_one v M
  /\ forall k' l' u', ~ srg v k' l' u' M.
Proof. exists 7%nat, 3, 1, 1, fano. exact identity_test_loops_proof. Qed.
Print Assumptions C70_loops_pass.
Theorem C70_shipped : forall v k l u sols, get_solutions v k l u = Ok sols ->
  test_matrix_property (Z.to_nat v) k l u (map mrows sols) = Ok tt
  /\ test_srg_matrix_identity (Z.to_nat v) k l u (map mrows sols) = Ok tt.
Proof. exact shipped_tests_proof. Qed.
Print Assumptions C70_shipped.

Example C70_ex : srg 10 3 0 1 petersen /\ zero_one 10 petersen /\ loopless 10 petersen
  /\ test_srg_matrix_identity 10 3 0 1 [petersen] = Ok tt /\ test_srg_matrix_identity 10 3 0 1 [petersen; map (map (Z.mul 0)) petersen] = Raise AssertionError
  /\ exists sols, get_solutions 10 3 0 1 = Ok sols.
Proof.
  split; [exact petersen_srg|]. destruct (srg_zero_one _ _ _ _ _ petersen_srg) as [A B]. split; [exact A|]. split; [exact B|].
  split; [vm_compute; reflexivity|]. split; [vm_compute; reflexivity|]. eexists. vm_compute. reflexivity.
Qed.

(** ** C71: false, the test multiplies the eigenvalues in int64 *)
Theorem C71_determinant_test_refuted : exists v k l u G, srg v k l u G /\ 1 <= k < Z.of_nat v - 1 /\ conference (Z.of_nat v) k l u <> 0
  /\ forall rnd sqrt pow eigvals prod, faithful rnd -> faithful_sqrt sqrt ->
     (exists es, spectrum v G es /\ Forall2 (fun q e => Qabs (q - inject_Z e) < 1 # 2)%Q (eigvals G) es) ->
     test_determinant rnd sqrt pow eigvals prod v k l u [G] <> Ok tt.
Proof. exact determinant_test_fails_proof. Qed.
Print Assumptions C71_determinant_test_refuted.
(** full statement: [test_determinant] passes on lists of strongly regular
    graphs if [np.linalg.eig] is within 1/2 of the eigenvalues. Without
    conference graphs that is so exactly if the determinant fits 64 bits. *)
Theorem C71_determinant_test_partial : forall rnd sqrt pow eigvals prod v k l u mats, faithful rnd -> faithful_sqrt sqrt ->
  1 <= k < Z.of_nat v - 1 -> Z.of_nat v <= 2 ^ 20 -> conference (Z.of_nat v) k l u <> 0 ->
  (forall M, In M mats -> srg v k l u M
     /\ exists es, spectrum v M es /\ Forall2 (fun q e => Qabs (q - inject_Z e) < 1 # 2)%Q (eigvals M) es) ->
  mats <> [] ->
  (test_determinant rnd sqrt pow eigvals prod v k l u mats = Ok tt
   <-> exists d, determinant (Z.of_nat v) k l u = Ok d /\ - 2 ^ 63 <= d < 2 ^ 63).
Proof. exact determinant_test_proof. Qed.
Print Assumptions C71_determinant_test_partial.
(** conference graphs of at most 29 vertices, if [np.prod] of the eigenvalues is
    within 1/2 of the determinant *)
Theorem C71_determinant_test_conference_partial : forall rnd sqrt, faithful rnd -> faithful_sqrt sqrt -> forall pow, accurate_pow pow ->
  forall eigvals prod v k l u mats, 1 <= k < Z.of_nat v - 1 -> (v <= 29)%nat -> conference (Z.of_nat v) k l u = 0 -> mats <> [] ->
  (forall M, In M mats -> srg v k l u M /\ (Qabs (prod (eigvals M) - inject_Z (det v M)) < 1 # 2)%Q) ->
  test_determinant rnd sqrt pow eigvals prod v k l u mats = Ok tt.
Proof. exact determinant_test_conference_proof. Qed.
Print Assumptions C71_determinant_test_conference_partial.
(** every shipped list is covered *)
Theorem C71_shipped : forall rnd sqrt pow eigvals prod v k l u sols, faithful rnd -> faithful_sqrt sqrt -> accurate_pow pow ->
  get_solutions v k l u = Ok sols ->
  (conference v k l u <> 0 -> forall m, In m sols ->
    exists es, spectrum (Z.to_nat v) (mrows m) es /\ Forall2 (fun q e => Qabs (q - inject_Z e) < 1 # 2)%Q (eigvals (mrows m)) es) ->
  (conference v k l u = 0 -> forall m, In m sols -> (Qabs (prod (eigvals (mrows m)) - inject_Z (det (Z.to_nat v) (mrows m))) < 1 # 2)%Q) ->
  sols <> [] -> test_determinant rnd sqrt pow eigvals prod (Z.to_nat v) k l u (map mrows sols) = Ok tt.
Proof. exact shipped_determinant_proof. Qed.
Print Assumptions C71_shipped.

Example C71_ex : faithful nearest /\ faithful_sqrt nearest_sqrt /\ srg 10 3 0 1 petersen /\ conference 10 3 0 1 <> 0
  /\ (exists es, spectrum 10 petersen es /\ Forall2 (fun q e => Qabs (q - inject_Z e) < 1 # 2)%Q (petersen_eigvals petersen) es)
  /\ determinant 10 3 0 1 = Ok 48
  /\ test_determinant nearest nearest_sqrt (fun q m => nearest (q ^ m)%Q) petersen_eigvals (fun _ => 0%Q) 10 3 0 1 [petersen] = Ok tt.
Proof.
  split; [exact nearest_faithful|]. split; [exact nearest_sqrt_faithful|]. split; [exact petersen_srg|]. split; [discriminate|].
  split; [exact petersen_eigvals_ok|]. split; vm_compute; reflexivity.
Qed.

(** ** C72 *)
Theorem C72_maximize_asserts : forall argsort v M, argsorts argsort -> shape v v M -> (2 <= v)%nat ->
  (maximize argsort M = Raise AssertionError <-> ~ symmetric v M).
Proof. exact maximize_asserts_proof. Qed.
Print Assumptions C72_maximize_asserts.
Theorem C72_swap_asserts : forall v M i j, shape v v M -> (i < v)%nat -> (j < v)%nat ->
  (swap_and_verify M i j = Raise AssertionError <-> ~ (symmetric v M /\ sumn v (fun a => cell M a a) = 0)).
Proof. exact swap_asserts_proof. Qed.
Print Assumptions C72_swap_asserts.

Example C72_ex : shape 2 2 [[0; 1]; [0; 0]] /\ ~ symmetric 2 [[0; 1]; [0; 0]]
  /\ maximize argsort_stable [[0; 1]; [0; 0]] = Raise AssertionError
  /\ swap_and_verify [[1; 1]; [1; 0]] 0 1 = Raise AssertionError.
Proof.
  split; [split; [reflexivity|]; intros row [<-|[<-|[]]]; reflexivity|].
  split; [intros [_ H]; specialize (H 0%nat 1%nat ltac:(lia) ltac:(lia)); discriminate|].
  split; vm_compute; reflexivity.
Qed.

(** ** C73 *)
Theorem C73_limit_needed : exists v k l u G, (v = 68)%nat /\ 1 <= k /\ srg v k l u G
  /\ run_main (Z.of_nat v) k l u = Ok [] /\ main_output (Z.of_nat v) k l u = Ok [].
Proof. exact sharp_proof. Qed.
Print Assumptions C73_limit_needed.

(** every graph up to n vertices is found exactly when n is at most 67 *)
Theorem C73_limit_exact : forall n, (3 <= n)%nat ->
  (forall v k l u G, (3 <= v <= n)%nat -> 1 <= k -> srg v k l u G ->
     exists ms m, run_main (Z.of_nat v) k l u = Ok ms /\ In m ms /\ isomorphic v G (mrows m)) <-> (n <= 67)%nat.
Proof. exact exact_limit_proof. Qed.
Print Assumptions C73_limit_exact.

(** within the limit the graph of this family is found (C01) *)
Example C73_ex : admissible 66 64 62 64 /\ admissible 67 66 65 0.
Proof. unfold admissible. repeat split; try lia. Qed.

(** ** C74 *)
Theorem C74_int : forall s, (forall z, int_of s = Ok z <-> numeral s z)
  /\ ((~ exists z, numeral s z) <-> int_of s = Raise ValueError).
Proof. exact int_proof. Qed.
Print Assumptions C74_int.
Theorem C74_command_line : forall v k l u a b c d, numeral a (Z.of_nat v) -> numeral b k -> numeral c l -> numeral d u ->
  admissible v k l u -> (v <= 67)%nat -> exists ms, main_output (Z.of_nat v) k l u = Ok ms
  /\ main_program [a; b; c; d]
     = Ok (str (Z.of_nat v) ++ " " ++ str k ++ " " ++ str l ++ " " ++ str u ++ eol ++ "'*********** answers *************'" ++ eol
           ++ String.concat "" (map (fun m => layout v (mrows m) ++ eol) ms))%string.
Proof. exact command_line_proof. Qed.
Print Assumptions C74_command_line.
Theorem C74_bad_arguments : forall argv, List.length argv <> 4%nat \/ (exists s, In s argv /\ ~ exists z, numeral s z) ->
  main_program argv = Raise ValueError.
Proof. exact bad_arguments_proof. Qed.
Print Assumptions C74_bad_arguments.
Theorem C74_bad_parameters : forall v k l u a b c d, numeral a v -> numeral b k -> numeral c l -> numeral d u ->
  (v - k - 1) * u <> k * (k - l - 1) -> main_program [a; b; c; d] = Raise AssertionError.
Proof. exact bad_parameters_proof. Qed.
Print Assumptions C74_bad_parameters.
(** with up to 67 vertices nothing else happens: also for arguments that are
    not the parameters of a graph (C82) *)
Theorem C74_any_arguments : forall v k l u a b c d, numeral a (Z.of_nat v) -> numeral b k -> numeral c l -> numeral d u ->
  (3 <= v <= 67)%nat -> (Z.of_nat v - k - 1) * u = k * (k - l - 1) ->
  exists ms, main_output (Z.of_nat v) k l u = Ok ms
  /\ main_program [a; b; c; d]
     = Ok (str (Z.of_nat v) ++ " " ++ str k ++ " " ++ str l ++ " " ++ str u ++ eol ++ "'*********** answers *************'" ++ eol
           ++ String.concat "" (map (fun m => layout v (mrows m) ++ eol) ms))%string.
Proof. exact any_line_proof. Qed.
Print Assumptions C74_any_arguments.
Theorem C74_every_command_line : forall argv, (forall a t v, argv = a :: t -> numeral a v -> v <= 67) ->
  (exists t, main_program argv = Ok t) \/ main_program argv = Raise ValueError
  \/ main_program argv = Raise AssertionError \/ main_program argv = Raise IndexError.
Proof. exact every_line_proof. Qed.
Print Assumptions C74_every_command_line.
Theorem C74_str : forall z, numeral (str z) z.
Proof. exact str_numeral. Qed.
Print Assumptions C74_str.

Example C74_ex : numeral " +1_0" 10 /\ numeral "007" 7 /\ numeral "-3 " (-3) /\ (~ exists z, numeral "1__0" z) /\ (~ exists z, numeral "4.0" z)
  /\ admissible 10 3 0 1 /\ (10 - 3 - 1) * 2 <> 3 * (3 - 0 - 1).
Proof.
  do 3 (split; [now apply int_of_numeral|]). do 2 (split; [now apply (proj2 (int_proof _))|]).
  split; [unfold admissible; repeat split; lia|discriminate].
Qed.
Example C74_ex_program : main_program ["5"; "2"; "0"; "1"]%string = Ok ("5 2 0 1" ++ eol ++ "'*********** answers *************'" ++ eol
  ++ "array([[0, 1, 1, 0, 0]," ++ eol ++ "       [1, 0, 0, 1, 0]," ++ eol ++ "       [1, 0, 0, 0, 1]," ++ eol
  ++ "       [0, 1, 0, 0, 1]," ++ eol ++ "       [0, 0, 1, 1, 0]], dtype=int8)" ++ eol)%string
  /\ main_program ["5"; "2"; "0"]%string = Raise ValueError.
Proof. split; vm_compute; reflexivity. Qed.

(** ** C75 *)
Theorem C75_invariant : forall Q, List.length (av (qans Q)) = List.length (aloc (qans Q)) ->
  (consistent Q -> invariant_check Q = Ok tt) /\ (~ consistent Q -> invariant_check Q = Raise AssertionError).
Proof. exact invariant_iff_proof. Qed.
Print Assumptions C75_invariant.
Theorem C75_debug : forall f Q,
  (forall e, question_copy Q = Raise e -> debug f Q = Raise e)
  /\ (forall e, question_copy Q = Ok Q -> f Q = Raise e -> debug f Q = Raise e)
  /\ (question_copy Q = Ok Q -> f Q = NoSolution -> debug f Q = NoSolution)
  /\ (forall Q', question_copy Q = Ok Q -> f Q = Ok Q' -> List.length (av (qans Q')) = List.length (aloc (qans Q')) ->
       (consistent Q' -> debug f Q = Ok Q') /\ (~ consistent Q' -> debug f Q = Raise AssertionError)).
Proof. exact debug_char_proof. Qed.
Print Assumptions C75_debug.

(** a question with one open bucket, and a step that forgets to remove its column *)
Example C75_ex : let Q := Qst (Mat 1 [[1]]) [2] 2 [3] (Ans [-1] [0] 3) in
  question_copy Q = Ok Q /\ consistent Q /\ debug Ok Q = Ok Q
  /\ debug (fun Q => Ok (Qst (qA Q) (qb Q) (qquota Q) (qbounds Q) (Ans [2] [0] 3))) Q = Raise AssertionError.
Proof.
  cbv zeta. split; [reflexivity|]. split; [|split; reflexivity].
  constructor; cbn; try reflexivity; try discriminate; try lia.
  intros [|i] Hi; [cbn; lia|lia].
Qed.

(** ** C76 *)
Theorem C76_property_iff : forall v k l u mats, (v <= 127)%nat -> (forall M, In M mats -> adjacency v M) ->
  (test_matrix_property v k l u mats = Ok tt <->
   forall M, In M mats -> forall i r, (i < r < v - 1)%nat -> common v M i r = if cell M i r =? 1 then l else u).
Proof. exact property_iff_proof. Qed.
Print Assumptions C76_property_iff.
Theorem C76_property_regular : forall v k l u mats, (v <= 127)%nat -> (Z.of_nat v - k - 1) * u = k * (k - l - 1) ->
  (forall M, In M mats -> adjacency v M /\ forall i, (i < v)%nat -> degree v M i = k) ->
  (test_matrix_property v k l u mats = Ok tt <-> forall M, In M mats -> srg v k l u M).
Proof. exact property_regular_proof. Qed.
Print Assumptions C76_property_regular.
(** regularity is not tested: a star passes *)
Theorem C76_property_star : adjacency 5 star5 /\ (forall k l, test_matrix_property 5 k l 1 [star5] = Ok tt) /\ forall k l u, ~ srg 5 k l u star5.
Proof. exact star5_proof. Qed.
Print Assumptions C76_property_star.
Theorem C76_test_solve : forall v k l u out db, main_output v k l u = Ok out ->
  ((forall i m m', nth_error out i = Some m -> nth_error db i = Some m' -> m = m') -> test_solve v k l u db = Ok tt)
  /\ (~ (forall i m m', nth_error out i = Some m -> nth_error db i = Some m' -> m = m') -> test_solve v k l u db = Raise AssertionError).
Proof. exact test_solve_proof. Qed.
Print Assumptions C76_test_solve.
Theorem C76_test_solve_question : forall v k l u s Q xs db, seed v k l u = Ok s -> from_matrix s = Ok Q -> solve_question Q = Ok xs ->
  (forall m, In m db -> (3 <= List.length (mrows m))%nat) ->
  ((exists m, In m db /\ In (skipn 3 (nth 2 (mrows m) [])) xs) -> test_solve_question v k l u db = Ok tt)
  /\ (~ (exists m, In m db /\ In (skipn 3 (nth 2 (mrows m) [])) xs) -> test_solve_question v k l u db = Raise AssertionError).
Proof. exact test_solve_question_proof. Qed.
Print Assumptions C76_test_solve_question.
Theorem C76_shipped : forall v k l u sols, get_solutions v k l u = Ok sols -> v < 20 ->
  test_solve v k l u sols = Ok tt /\ test_solve_question v k l u sols = Ok tt.
Proof. exact shipped_suite_proof. Qed.
Print Assumptions C76_shipped.
Theorem C76_test_sort : forall argsort, argsorts argsort -> stable_upto 12 argsort ->
  test_maximize argsort test9_in test9_out = Ok tt /\ test_maximize argsort test13_in test13_out = Ok tt /\ test2 = Ok tt.
Proof. exact test_sort_suite_proof. Qed.
Print Assumptions C76_test_sort.

Example C76_ex : adjacency 10 petersen /\ (forall i, (i < 10)%nat -> degree 10 petersen i = 3)
  /\ test_matrix_property 10 3 0 1 [petersen] = Ok tt /\ test_matrix_property 10 3 0 2 [petersen] = Raise AssertionError
  /\ (forall v k l u out, main_output v k l u = Ok out -> test_solve v k l u [] = Ok tt)
  /\ test_solve 5 2 0 1 [Mat 5 petersen] = Raise AssertionError
  /\ test_solve_question 5 2 0 1 [] = Raise AssertionError
  /\ argsorts argsort_stable /\ stable_upto 12 argsort_stable.
Proof.
  pose proof petersen_srg as (A & D & _). split; [exact A|]. split; [exact D|]. split; [reflexivity|]. split; [reflexivity|].
  split; [intros v k l u out H; apply (test_solve_proof v k l u out []); [exact H|]; intros [|i] m m' _ X; discriminate|].
  split; [vm_compute; reflexivity|]. split; [vm_compute; reflexivity|].
  split; [apply argsort_by_ok|apply argsort_stable_ok].
Qed.

(** ** C77 *)
Theorem C77_draw : forall v k l u,
  (forall sols, get_solutions v k l u = Ok sols -> exists pics, draw v k l u = Ok pics /\ List.length pics = List.length sols
    /\ NoDup (map pic_name pics)
    /\ forall i, (i < List.length sols)%nat -> let p := nth i pics (Pic "" [] []) in
         pic_nodes p = seq 0 (Z.to_nat v)
         /\ forall a b, In (a, b) (pic_edges p) <->
              (a < Z.to_nat v)%nat /\ (b < Z.to_nat v)%nat /\ cell (mrows (nth i sols (Mat 0 []))) a b = 1)
  /\ (get_solutions v k l u = Raise ImportError -> draw v k l u = Raise ImportError).
Proof. exact draw_proof. Qed.
Print Assumptions C77_draw.
Theorem C77_names : forall v k l u i v' k' l' u' i',
  png_name v k l u i = png_name v' k' l' u' i' -> (v, k, l, u, i) = (v', k', l', u', i').
Proof. exact png_injective. Qed.
Print Assumptions C77_names.

Example C77_ex : match draw 5 2 0 1 with
  | Ok [p] => pic_name p = "srg_5_2_0_1_0.png"%string
      /\ pic_edges p = [(0,1);(0,2);(1,0);(1,3);(2,0);(2,4);(3,1);(3,4);(4,2);(4,3)]%nat
  | _ => False end.
Proof. vm_compute. split; reflexivity. Qed.

(** ** C78 *)
Theorem C78_classes : forall v k l u sols, get_solutions v k l u = Ok sols -> exists reps,
  representatives (Z.to_nat v) (map mrows sols) reps
  /\ In (v, k, l, u, Z.of_nat (List.length sols), Z.of_nat (List.length reps)) class_table.
Proof. exact shipped_representatives. Qed.
Print Assumptions C78_classes.
(** where the list is complete, this is the number of graphs *)
Theorem C78_classification : forall v k l u sols, get_solutions v k l u = Ok sols -> ~ In (v, k, l, u) incomplete ->
  exists reps, representatives (Z.to_nat v) (map mrows sols) reps
    /\ In (v, k, l, u, Z.of_nat (List.length sols), Z.of_nat (List.length reps)) class_table
    /\ forall G, srg (Z.to_nat v) k l u G -> exists R, In R reps /\ isomorphic (Z.to_nat v) G R
         /\ forall R', In R' reps -> isomorphic (Z.to_nat v) G R' -> R' = R.
Proof. exact classification. Qed.
Print Assumptions C78_classification.

Example C78_ex : match get_solutions 16 6 2 2 with Ok [m; m'] => srg 16 6 2 2 (mrows m) /\ srg 16 6 2 2 (mrows m') | _ => False end.
Proof. split; apply packed_srgb_ok; vm_compute; reflexivity. Qed.

(** ** C79 *)
Theorem C79_exact_arithmetic : forall v k l u, admissible v k l u -> (v <= 66)%nat -> u <= 127 ->
  exists ms, run_main_x (Z.of_nat v) k l u = Ok ms /\ run_main (Z.of_nat v) k l u = Ok ms.
Proof. exact exact_proof. Qed.
Print Assumptions C79_exact_arithmetic.

(** for any arguments: the search in which nothing wraps is the exact one *)
Theorem C79_unless_overflow : forall v k l u,
  run_main_w v k l u = Raise Overflow \/ run_main_w v k l u = run_main_x v k l u.
Proof. exact agree_main. Qed.
Print Assumptions C79_unless_overflow.

(** at 68 vertices it is the bounded arithmetic that loses the graph of C73 *)
Theorem C79_limit_needed : exists v k l u m, (v = 68)%nat /\ admissible v k l u /\ u <= 127
  /\ run_main (Z.of_nat v) k l u = Ok [] /\ run_main_x (Z.of_nat v) k l u = Ok [m] /\ srg v k l u (mrows m).
Proof. exact exact_sharp_proof. Qed.
Print Assumptions C79_limit_needed.

(** the parameters at which column keys wrap (C34), and a run with a result *)
Example C79_ex : admissible 66 64 62 64 /\ match run_main_x 10 3 0 1 with Ok ms => List.length ms = 1%nat | _ => False end.
Proof. split; [unfold admissible; lia|]. vm_compute. reflexivity. Qed.

(** ** C80 *)
(** running with [python -O]: nothing changes unless an assertion fails *)
Theorem C80_unless_assertion : forall argv,
  main_program argv = Raise AssertionError \/ main_program argv = main_program_o argv.
Proof. exact opt_program_proof. Qed.
Print Assumptions C80_unless_assertion.

(** and then the last argument does not matter at all *)
Theorem C80_fourth_ignored : forall v k l u u', run_main_o v k l u = run_main_o v k l u'.
Proof. exact opt_u_proof. Qed.
Print Assumptions C80_fourth_ignored.

Theorem C80_as_admissible : forall v k l u u', admissible v k l u' -> (v <= 67)%nat ->
  run_main_o (Z.of_nat v) k l u = run_main (Z.of_nat v) k l u'.
Proof. exact opt_proof. Qed.
Print Assumptions C80_as_admissible.

Example C80_ex : admissible 5 2 0 1 /\ run_main 5 2 0 7 = Raise AssertionError
  /\ match run_main_o 5 2 0 7 with Ok [m] => srg 5 2 0 1 (mrows m) | _ => False end.
Proof. split; [unfold admissible; lia|]. split; [reflexivity|exact opt_run]. Qed.

(** ** C81: false as stated *)
Theorem C81_outside_refuted : exists v k l u m, (3 <= v <= 67)%nat /\ (Z.of_nat v - k - 1) * u = k * (k - l - 1)
  /\ ~ admissible v k l u /\ run_main (Z.of_nat v) k l u = Ok [m] /\ ~ adjacency v (mrows m).
Proof. exact outside_refuted_proof. Qed.
Print Assumptions C81_outside_refuted.
(** full statement: for 3 <= v <= 67 and parameters that satisfy the identity
    but are not admissible, [run_main v k l u = Ok []]. For positive [k] and
    nonnegative [l] the complete graph is the only exception; missing are
    [k <= 0] and [l < 0], where it is false *)
Theorem C81_outside_partial : forall v k l u, (3 <= v <= 67)%nat -> 1 <= k -> 0 <= l ->
  (Z.of_nat v - k - 1) * u = k * (k - l - 1) ->
  admissible v k l u
  \/ run_main (Z.of_nat v) k l u
     = Ok (if Z.of_nat v - 2 <=? l then (if Z.of_nat v - 1 <=? k then [Mat v (complete_graph v)] else []) else []).
Proof. exact outside_proof. Qed.
Print Assumptions C81_outside_partial.
Theorem C81_complete_graph : forall v, srg v (Z.of_nat v - 1) (Z.of_nat v - 2) 0 (complete_graph v).
Proof. exact complete_srg. Qed.
Print Assumptions C81_complete_graph.

(** instances: (5,5,3,-5) gives the complete graph, (5,5,1,-15) and (4,1,2,-1)
    nothing; (4,2,-1,4) gives the 4-cycle *)
Example C81_ex : (5 - 5 - 1) * (-5) = 5 * (5 - 3 - 1) /\ (5 - 5 - 1) * (-15) = 5 * (5 - 1 - 1)
  /\ (4 - 1 - 1) * (-1) = 1 * (1 - 2 - 1)
  /\ run_main 4 2 (-1) 4 = Ok [Mat 4 square4] /\ run_main 5 5 3 (-5) = Ok [Mat 5 (complete_graph 5)].
Proof. split; [reflexivity|]. split; [reflexivity|]. split; [reflexivity|]. split; apply outside_printed. Qed.

(** ** C82 *)
Theorem C82_outcome : forall v k l u, v <= 67 ->
  if (v - k - 1) * u =? k * (k - l - 1) then
    if v <? 3 then run_main v k l u = Raise (if v <? 0 then ValueError else if v <? 2 then IndexError else AssertionError)
    else exists ms, run_main v k l u = Ok ms
  else run_main v k l u = Raise AssertionError.
Proof. exact outcome_any_proof. Qed.
Print Assumptions C82_outcome.
(** and what is yielded starts with the two rows of the seed; it is a graph in
    canonical order, or the matrix without edges and one loop *)
Theorem C82_yields : forall v k l u, (3 <= v <= 67)%nat -> (Z.of_nat v - k - 1) * u = k * (k - l - 1) ->
  exists ms, run_main (Z.of_nat v) k l u = Ok ms /\ NoDup ms
    /\ forall m, In m ms -> mcols m = v /\ seed (Z.of_nat v) k l u = Ok (Mat v (firstn 2 (mrows m)))
         /\ (adjacency v (mrows m) /\ canonical v (mrows m)
             \/ (k = 0 \/ k = -1 \/ k <= - Z.of_nat v)
                /\ shape v v (mrows m)
                /\ forall i j, (i < v)%nat -> (j < v)%nat -> cell (mrows m) i j = if (i =? 1)%nat && (j =? 1)%nat then 1 else 0).
Proof. exact any_arguments_proof. Qed.
Print Assumptions C82_yields.
Theorem C82_yields_positive : forall v k l u, (3 <= v <= 67)%nat -> 1 <= k -> (Z.of_nat v - k - 1) * u = k * (k - l - 1) ->
  exists ms, run_main (Z.of_nat v) k l u = Ok ms /\ NoDup ms
    /\ forall m, In m ms -> mcols m = v /\ adjacency v (mrows m) /\ canonical v (mrows m)
         /\ seed (Z.of_nat v) k l u = Ok (Mat v (firstn 2 (mrows m))).
Proof. exact any_positive_proof. Qed.
Print Assumptions C82_yields_positive.
(** fewer than three vertices: for every [k] *)
Theorem C82_few_vertices : forall v k l u, v < 3 -> run_main v k l u =
  if (v - k - 1) * u =? k * (k - l - 1)
  then Raise (if v <? 0 then ValueError else if v <? 2 then IndexError else AssertionError) else Raise AssertionError.
Proof. exact few_vertices_proof. Qed.
Print Assumptions C82_few_vertices.

Example C82_ex : run_main 5 2 0 1 <> Ok [] /\ (9 - 6 - 1) * 33 = 6 * (6 - -6 - 1) /\ run_main 2 1 0 5 = Raise AssertionError
  /\ run_main 1 1 0 0 = Raise IndexError /\ run_main (-3) 1 1 (-1) = Raise AssertionError /\ run_main (-2) 1 0 0 = Raise ValueError
  /\ run_main 5 0 (-2) 0 = Ok [Mat 5 looped] /\ run_main 4 (-2) (-3) 0 = Ok [] /\ (4 - -3 - 1) * 2 = -3 * (-3 - 0 - 1) /\ run_main 4 (-3) 0 2 <> Ok [].
Proof. vm_compute. repeat split; discriminate. Qed.

(** ** C83 *)
Theorem C83_filtered : forall v k l u, admissible v k l u -> (v <= 67)%nat -> k < Z.of_nat v - 1 -> u <= 127 ->
  exists ms, main_output (Z.of_nat v) k l u = Ok ms /\ NoDup ms
    /\ (forall m, In m ms -> (test_srg_matrix_identity v k l u [mrows m] = Ok tt <-> srg v k l u (mrows m)))
    /\ (forall T, srg v k l u T /\ canonical v T <-> In (Mat v T) ms /\ test_srg_matrix_identity v k l u [T] = Ok tt)
    /\ (forall G, srg v k l u G -> exists m, In m ms /\ test_srg_matrix_identity v k l u [mrows m] = Ok tt /\ isomorphic v G (mrows m)).
Proof. exact filter_proof. Qed.
Print Assumptions C83_filtered.

Example C83_ex : admissible 22 9 4 3 /\ admissible 10 6 3 4
  /\ match main_output 10 6 3 4 with Ok ms => test_srg_matrix_identity 10 6 3 4 (map mrows ms) = Ok tt | _ => False end.
Proof. split; [unfold admissible; lia|]. split; [unfold admissible; lia|]. vm_compute. reflexivity. Qed.

(** ** C84 *)
Theorem C84_sort : forall argsort A b, argsorts argsort -> length b = mnrows A ->
  exists A' b', gauss_sort argsort A b = Ok (A', b') /\ mcols A' = mcols A
    /\ Permutation (combine (mrows A) b) (combine (mrows A') b') /\ StronglySorted Z.le b'
    /\ forall x, solves (mrows A) b x <-> solves (mrows A') b' x.
Proof. exact gauss_sort_proof. Qed.
Print Assumptions C84_sort.
Theorem C84_sort_lengths : forall argsort A b, argsorts argsort -> length b <> mnrows A ->
  gauss_sort argsort A b =
    if (mnrows A <? length b)%nat then Raise IndexError
    else match b with
         | [x] => Ok (Mat (mcols A) (repeat (nth 0 (mrows A) []) (mnrows A)), [x])
         | _ => Raise ValueError
         end.
Proof. exact sort_lengths_proof. Qed.
Print Assumptions C84_sort_lengths.

Theorem C84_self_tests : self_gauss_elim = Ok tt /\ self_bounds_test1 = Ok tt /\ self_fork = Ok tt
  /\ self_bounds = ([4; 4], [(1, 1); (4, 0)]%nat)
  /\ self_unique = Ok (Mat 4 [[1;1;0;0]; [1;0;1;0]; [1;1;1;1]], [2; 2; 2; 1], [0; 2; 4; 6]%nat)
  /\ (exists ts, self_partition = Ok ts /\ NoDup ts /\ forall t, In t ts <-> length t = 5%nat /\ bits t /\ zsum t = 3)
  /\ exists q, self_srg = Ok (Mat 10 [[0;1;1;1;1;1;1;0;0;0]; [1;0;1;1;1;0;0;1;1;0]], q)
       /\ mrows (qA q) = [[1;1;1;1;0;0;0]; [1;1;0;0;1;1;0]; [1;1;1;1;1;1;1]] /\ qb q = [2; 2; 4].
Proof. exact self_tests_proof. Qed.
Print Assumptions C84_self_tests.

Example C84_ex : argsorts argsort_stable
  /\ gauss_sort argsort_stable (Mat 2 [[1;1]; [0;1]; [1;0]]) [2; 0; 1] = Ok (Mat 2 [[0;1]; [1;0]; [1;1]], [0; 1; 2]).
Proof. split; [apply argsort_by_ok|reflexivity]. Qed.

(** ** C85: for every choice of the four arguments *)
Theorem C85_every_run_ends : forall v k l u,
  (exists ms, run_main v k l u = Ok ms)
  \/ run_main v k l u = Raise AssertionError
  \/ (68 <= v /\ run_main v k l u = Raise StopIteration)
  \/ (v < 0 /\ run_main v k l u = Raise ValueError)
  \/ (0 <= v < 2 /\ run_main v k l u = Raise IndexError).
Proof. exact every_run_ends_proof. Qed.
Print Assumptions C85_every_run_ends.
Theorem C85_every_command_line : forall argv,
  (exists t, main_program argv = Ok t) \/ main_program argv = Raise ValueError \/ main_program argv = Raise AssertionError
  \/ main_program argv = Raise IndexError \/ main_program argv = Raise StopIteration.
Proof. exact every_command_line_proof. Qed.
Print Assumptions C85_every_command_line.
Theorem C85_yields : forall v k l u ms, (2 <= v)%nat -> run_main (Z.of_nat v) k l u = Ok ms ->
  forall m, In m ms -> mcols m = v /\ shape v v (mrows m) /\ (forall row, In row (mrows m) -> bits row)
    /\ seed (Z.of_nat v) k l u = Ok (Mat v (firstn 2 (mrows m))).
Proof. exact yields_any_proof. Qed.
Print Assumptions C85_yields.
Theorem C85_yields_graphs : forall v k l u ms, (3 <= v)%nat -> k <> 0 -> k <> -1 -> - Z.of_nat v < k ->
  run_main (Z.of_nat v) k l u = Ok ms -> forall m, In m ms -> adjacency v (mrows m).
Proof. exact yields_graphs_proof. Qed.
Print Assumptions C85_yields_graphs.

Example C85_ex : match run_main 70 1 0 0 with Ok ms => length ms = 1%nat | _ => False end
  /\ run_main 82 9 0 1 = Raise AssertionError /\ run_main (-2) 1 0 0 = Raise ValueError /\ run_main 1 1 0 0 = Raise IndexError.
Proof. split; [vm_compute; reflexivity|]. split; [exact run_82|]. split; reflexivity. Qed.

(** ** C86: elimination on 64 columns or more *)
Theorem C86_last_columns : forall A b, (64 <= mcols A)%nat -> length b = mnrows A ->
  (forall row, In row (mrows A) -> length row = mcols A /\ bits row) -> (forall x, In x b -> 0 <= x) ->
  let kept := filter (fun p => nth (mcols A - 64) (fst p) 0 =? 0) (combine (mrows A) b) in
  elim A b = elim (Mat 63 (map (fun p => skipn (mcols A - 63) (fst p)) kept)) (map snd kept).
Proof. exact elim_wide. Qed.
Print Assumptions C86_last_columns.
Theorem C86_columns_lost : forall A b, (64 <= mcols A)%nat -> length b = mnrows A ->
  (forall row, In row (mrows A) -> length row = mcols A /\ bits row) -> (forall x, In x b -> 0 <= x) ->
  elim A b = Raise StopIteration
  \/ exists A' b', elim A b = Ok (A', b') /\ (1 <= mcols A' <= 63)%nat.
Proof. exact elim_wide_cols_proof. Qed.
Print Assumptions C86_columns_lost.
Theorem C86_eliminate_fails : forall Q, (64 <= mcols (qA Q))%nat -> length (qb Q) = mnrows (qA Q) ->
  length (qbounds Q) = mcols (qA Q) ->
  (forall row, In row (mrows (qA Q)) -> length row = mcols (qA Q) /\ bits row) -> (forall x, In x (qb Q) -> 0 <= x) ->
  eliminate Q = Raise AssertionError \/ eliminate Q = Raise StopIteration.
Proof. exact eliminate_wide_proof. Qed.
Print Assumptions C86_eliminate_fails.
(** the parameters of the Moore graphs of diameter 2 *)
Theorem C86_moore_runs : forall k, 2 <= k <= 11 ->
  admissible (Z.to_nat (k * k + 1)) k 0 1
  /\ (if k <=? 8 then exists ms, run_main (k * k + 1) k 0 1 = Ok ms else run_main (k * k + 1) k 0 1 = Raise AssertionError).
Proof. exact moore_runs_proof. Qed.
Print Assumptions C86_moore_runs.
(** C05 does not hold without its bound *)
Theorem C86_terminates_without_error_refuted :
  ~ (forall v k l u, admissible v k l u -> exists ms, run_main (Z.of_nat v) k l u = Ok ms).
Proof. exact bound_needed_proof. Qed.
Print Assumptions C86_terminates_without_error_refuted.

Example C86_ex :
  let A := Mat 64 [0 :: repeat 1 63; 1 :: repeat 0 63; repeat 0 63 ++ [1]] in
  (64 <= mcols A)%nat /\ (forall row, In row (mrows A) -> length row = mcols A)
  /\ elim A [5; 1; 1] = Ok (Mat 63 [repeat 0 62 ++ [1]; repeat 1 62 ++ [0]], [1; 4])
  /\ elim A [5; 1; 1] = elim (Mat 63 [repeat 1 63; repeat 0 62 ++ [1]]) [5; 1]
  /\ elim (Mat 64 [1 :: repeat 0 63]) [1] = Raise StopIteration.
Proof. cbv zeta. split; [cbn [mcols]; lia|]. split; [intros row [<-|[<-|[<-|[]]]]; reflexivity|]. vm_compute. repeat split. Qed.

(** ** C87: how often the bodies of the [while] loops are executed *)
Theorem C87_elim_turns : forall A b, (1 <= mcols A <= 63)%nat -> length b = mnrows A ->
  (forall row, In row (mrows A) -> length row = mcols A /\ bits row) -> (forall x, In x b -> 0 <= x) ->
  exists hd n hd', encode A b = Ok hd /\ loops elim_step n ([], sort_e (remove_zerokeys hd)) (Ok hd') /\ elim A b = decode hd'
    /\ Z.of_nat n <= zsum (concat (mrows A)) * (Z.of_nat (mnrows A) + 1) + Z.of_nat (mnrows A).
Proof. exact elim_turns_proof. Qed.
Print Assumptions C87_elim_turns.
Theorem C87_refine_turns : forall Q,
  (forall row, In row (mrows (qA Q)) -> length row = mcols (qA Q) /\ bits row) -> length (qb Q) = mnrows (qA Q) ->
  (forall x, In x (qb Q) -> 0 <= x) -> length (qbounds Q) = mcols (qA Q) -> (forall x, In x (qbounds Q) -> 0 <= x <= 127) ->
  (1 <= mnrows (qA Q))%nat -> length (unknown_loc (qans Q)) = mcols (qA Q) ->
  exists n, loops refine_step n Q (refine Q) /\ (n <= 3 * mcols (qA Q) + 2)%nat.
Proof. exact refine_turns_explicit. Qed.
Print Assumptions C87_refine_turns.
Theorem C87_row_turns : forall m Q, (2 <= mnrows m < mcols m)%nat ->
  (forall row, In row (mrows m) -> length row = mcols m /\ bits row) -> from_matrix m = Ok Q ->
  exists n k, loops refine_step k Q (refine Q) /\ (k <= 3 * (mcols m - mnrows m - 1) + 2)%nat
    /\ loops question_step n ([Q], []) (solve_question Q) /\ Z.of_nat n <= 3 ^ Z.of_nat (mcols m - mnrows m - 1).
Proof. exact level_turns_proof. Qed.
Print Assumptions C87_row_turns.

Example C87_ex : let A := Mat 3 [[1;1;1]; [1;1;0]; [0;1;0]] in
  exists hd, encode A [2; 1; 1] = Ok hd /\ loops elim_step 6 ([], sort_e (remove_zerokeys hd)) (Ok [(1, 0, 1); (2, 2, 1); (4, 1, 0)])
  /\ match seed 10 6 3 4 with
     | Ok m => match from_matrix m with
               | Ok Q => match loop_count 9 refine_step Q with Some (n, Ok _) => n = 1%nat | _ => False end
               | _ => False
               end
     | _ => False
     end.
Proof.
  eexists. split; [reflexivity|]. split; [apply (loop_count_ok 9); reflexivity|]. vm_compute. reflexivity.
Qed.

(** ** C88: the text on a terminal or in a pipe, also before an exception *)
Theorem C88_pipe : forall argv,
  (exists t, main_program argv = Ok t /\ screen false argv = (t, None))
  \/ (exists v k l u e, mapM int_of argv = Ok [v; k; l; u] /\ run_main v k l u = Raise e
        /\ screen false argv = (str v ++ " " ++ str k ++ " " ++ str l ++ " " ++ str u ++ newline, Some e)%string)
  \/ ((forall v k l u, mapM int_of argv <> Ok [v; k; l; u]) /\ screen false argv = (""%string, Some ValueError)).
Proof. exact pipe_proof. Qed.
Print Assumptions C88_pipe.
Theorem C88_terminal : forall argv, snd (screen true argv) = snd (screen false argv)
  /\ strip_ansi (fst (screen true argv)) = fst (screen false argv)
  /\ exists s, fst (screen true argv) = (escape "2J" ++ escape "1;1H" ++ s)%string.
Proof. exact terminal_proof. Qed.
Print Assumptions C88_terminal.
Theorem C88_coloured : forall argv v k l u ms, mapM int_of argv = Ok [v; k; l; u] -> main_output v k l u = Ok ms ->
  screen true argv = (escape "2J" ++ escape "1;1H" ++ str v ++ " " ++ str k ++ " " ++ str l ++ " " ++ str u ++ newline
    ++ String.concat "" (map (fun t => escape "32m" ++ t ++ escape "0m" ++ newline)
                             ("'*********** answers *************'" :: map array_repr ms)), None)%string.
Proof. exact coloured_proof. Qed.
Print Assumptions C88_coloured.

Example C88_ex : screen false ["5"; "2"; "1"; "1"]%string = (("5 2 1 1" ++ newline)%string, Some AssertionError)
  /\ screen false ["5"; "2"]%string = (""%string, Some ValueError)
  /\ (exists t, main_program ["5"; "2"; "0"; "1"]%string = Ok t)
  /\ strip_ansi (escape "32m" ++ "x" ++ escape "0m")%string = "x"%string
  /\ screen true ["5"; "2"; "1"; "1"]%string = ((escape "2J" ++ escape "1;1H" ++ "5 2 1 1" ++ newline)%string, Some AssertionError).
Proof. split; [reflexivity|]. split; [reflexivity|]. split; [eexists; vm_compute; reflexivity|]. split; reflexivity. Qed.

(** ** C89: the text of a question, and what [debug] writes *)
From Verif Require Import ModelRepr ReprSpec ReprProps.
Theorem C89_question_text : forall Q, legible Q -> numbers (question_repr Q) = question_numbers Q.
Proof. exact question_text_proof. Qed.
Print Assumptions C89_question_text.
Theorem C89_question_distinct : forall Q Q', legible Q -> legible Q' -> question_repr Q = question_repr Q' -> Q = Q'.
Proof. exact question_text_inj. Qed.
Print Assumptions C89_question_distinct.
Theorem C89_legible : forall Q, question_ok Q -> alen (qans Q) <= 1000 -> legible Q.
Proof. exact ok_legible. Qed.
Print Assumptions C89_legible.
Theorem C89_limit : exists a a', a <> a' /\ Z.of_nat (length (av a)) = 1001 /\ answer_repr a = answer_repr a'.
Proof. exact limit_proof. Qed.
Print Assumptions C89_limit.
Theorem C89_line_width : forall l x, (forall a, In a l -> (String.length (str a) <= 66)%nat) ->
  In x (lines (vector_str l)) \/ In x (lines (vector_repr_int8 l)) \/ In x (lines (vector_repr_int64 l)) -> (String.length x <= 75)%nat.
Proof. exact vector_lines_proof. Qed.
Print Assumptions C89_line_width.
(** the matrices of C60 are written in the same way *)
Theorem C89_matrix : forall m, mrows m <> [] -> mcols m <> 0%nat -> (forall r, In r (mrows m) -> bits r) -> matrix_repr_int8 m = array_repr m.
Proof. exact matrix_same. Qed.
Print Assumptions C89_matrix.
Theorem C89_debug_result : forall tty name f Q, snd (debug_text tty name f Q) = debug f Q
  /\ ((forall Q', f Q <> Ok Q') -> fst (debug_text tty name f Q) = EmptyString).
Proof. exact debug_both_proof. Qed.
Print Assumptions C89_debug_result.
Theorem C89_debug_pipe : forall name f Q Q', no_escape name -> question_copy Q = Ok Q -> f Q = Ok Q' ->
  fst (debug_text false name f Q)
  = ((if question_eqb Q' Q then debug_line name "No change"
      else question_repr Q ++ newline ++ debug_line name "reduce to" ++ question_repr Q' ++ newline)
     ++ match debug f Q with
        | Ok _ => ""
        | _ => question_repr Q ++ newline ++ debug_line name "AssertionError!" ++ question_repr Q' ++ newline ++ newline
        end)%string.
Proof. exact debug_pipe_proof. Qed.
Print Assumptions C89_debug_pipe.
Theorem C89_debug_terminal : forall name f Q, no_escape name -> strip_ansi (fst (debug_text true name f Q)) = fst (debug_text false name f Q).
Proof. exact debug_terminal_proof. Qed.
Print Assumptions C89_debug_terminal.
Theorem C89_debug_numbers : forall name f Q Q', no_escape name -> legible Q -> legible Q' -> question_copy Q = Ok Q -> f Q = Ok Q' -> Q' <> Q ->
  debug f Q = Ok Q' -> numbers (fst (debug_text false name f Q)) = question_numbers Q ++ numbers name ++ question_numbers Q'.
Proof. exact debug_numbers_proof. Qed.
Print Assumptions C89_debug_numbers.
Theorem C89_self_texts :
  self_srg_text = Ok (String.concat newline
    ["matrix form"; "[[0 1 1 1 1 1 1 0 0 0]"; " [1 0 1 1 1 0 0 1 1 0]]"; "transform into problem space";
     "b" ++ tab ++ "A_(3x7)"; "2" ++ tab ++ "[1 1 1 1 0 0 0]"; "2" ++ tab ++ "[1 1 0 0 1 1 0]"; "4" ++ tab ++ "[1 1 1 1 1 1 1]";
     "x=" ++ tab ++ "[? ? ? ? ? ? ?]_(7x1)" ++ tab ++ "quota=sum(x)=4"; "bnd" ++ tab ++ "[1 1 1 1 1 1 1]";
     "Answer(value=array([-1, -1, -1, -1, -1, -1, -1], dtype=int8), "; "    location=array([0, 1, 2, 3, 4, 5, 6]), len=7)"; ""])%string
  /\ self_unique_text = Ok (String.concat newline
    ["[[1 1 0 0]"; " [1 0 1 0]"; " [1 1 1 1]]"; "bounds [2 2 2 1]"; "unique_loc [0 2 4 6]";
     "[[1 1 1 1 0 0 0]"; " [1 1 0 0 1 1 0]"; " [1 1 1 1 1 1 1]]"; ""])%string.
Proof. exact self_texts_proof. Qed.
Print Assumptions C89_self_texts.

(** lines are broken as late as possible; a step that changes the question *)
Example C89_ex : vector_str (repeat 12 25) = ("[" ++ String.concat " " (repeat "12" 24) ++ newline ++ " 12]")%string
  /\ vector_repr_int8 (repeat (-1) 18) = ("array([" ++ String.concat ", " (repeat "-1" 17) ++ "," ++ newline ++ "       -1], dtype=int8)")%string
  /\ exists m Q Q', seed 10 6 3 4 = Ok m /\ from_matrix m = Ok Q /\ reduce_col Q = Ok Q' /\ legible Q /\ legible Q' /\ Q' <> Q
       /\ question_copy Q = Ok Q /\ debug reduce_col Q = Ok Q' /\ no_escape "reduce_col".
Proof. exact repr_example. Qed.

(** ** C90: unknowns that occur in no equation *)
From Verif Require Import NoStop.
Theorem C90_solve_question_runs : forall C A b q bd, (C <= 63)%nat -> A <> [] ->
  (forall row, In row A -> length row = C /\ bits row) ->
  (forall j, (j < C)%nat -> exists row, In row A /\ nth j row 0 = 1) -> (forall x, In x bd -> x <= 127) ->
  (Q <- mk_question (Mat C A) b q bd None ;; solve_question Q) = Raise AssertionError
  \/ exists xs, (Q <- mk_question (Mat C A) b q bd None ;; solve_question Q) = Ok xs.
Proof. exact solve_question_runs_proof. Qed.
Print Assumptions C90_solve_question_runs.
Theorem C90_leading_columns : forall A b z, (mcols A <= 63)%nat -> (z < mcols A)%nat -> length b = mnrows A ->
  (forall row, In row (mrows A) -> length row = mcols A /\ bits row) -> (forall x, In x b -> 0 <= x) ->
  (forall row j, In row (mrows A) -> (j < z)%nat -> nth j row 0 = 0) ->
  elim A b = elim (Mat (mcols A - z) (map (skipn z) (mrows A))) b.
Proof. exact elim_leading_proof. Qed.
Print Assumptions C90_leading_columns.
Theorem C90_no_entry : forall A b, (1 <= mcols A <= 63)%nat -> length b = mnrows A ->
  (forall row, In row (mrows A) -> length row = mcols A /\ bits row) -> (forall x, In x b -> 0 <= x) ->
  (elim A b = Raise StopIteration <-> forall row j, In row (mrows A) -> nth j row 0 = 0).
Proof. exact elim_stop_proof. Qed.
Print Assumptions C90_no_entry.
Theorem C90_eliminate_first_column : forall Q, (1 <= mcols (qA Q) <= 63)%nat -> length (qb Q) = mnrows (qA Q) ->
  length (qbounds Q) = mcols (qA Q) ->
  (forall row, In row (mrows (qA Q)) -> length row = mcols (qA Q) /\ bits row) -> (forall x, In x (qb Q) -> 0 <= x) ->
  (forall row, In row (mrows (qA Q)) -> nth 0 row 0 = 0) ->
  if forallb (forallb (Z.eqb 0)) (mrows (qA Q)) then eliminate Q = Raise StopIteration else eliminate Q = Raise AssertionError.
Proof. exact eliminate_first_exact. Qed.
Print Assumptions C90_eliminate_first_column.

(** an unknown in no equation: the first, the last or the only one *)
Example C90_ex :
  (Q <- mk_question (Mat 1 [[0]]) [0] 1 [1] None ;; solve_question Q) = Raise StopIteration
  /\ (Q <- mk_question (Mat 2 [[0;1]]) [1] 1 [1;1] None ;; solve_question Q) = Raise AssertionError
  /\ (Q <- mk_question (Mat 2 [[1;0]]) [1] 1 [1;1] None ;; solve_question Q) = Raise StopIteration
  /\ (Q <- mk_question (Mat 3 [[1;1;0]; [0;1;1]]) [1; 1] 1 [1;1;1] None ;; solve_question Q) = Ok [[0;1;0]]
  /\ elim (Mat 3 [[0;1;1]; [0;0;1]]) [2; 1] = Ok (Mat 2 [[0;1]; [1;0]], [1; 1]).
Proof. vm_compute. repeat split. Qed.

(** ** C91: arguments that are not the parameters of a graph *)
From Verif Require Import OddArgs.
Theorem C91_printed_graph : forall v k l u ms m k' l' u', (3 <= v <= 67)%nat ->
  run_main (Z.of_nat v) k l u = Ok ms -> In m ms -> 1 <= k' -> srg v k' l' u' (mrows m) ->
  1 <= k' < Z.of_nat v /\ 0 <= l' < k' /\ (Z.of_nat v - k' - 1) * u' = k' * (k' - l' - 1)
  /\ seed (Z.of_nat v) k' l' u' = seed (Z.of_nat v) k l u /\ run_main (Z.of_nat v) k' l' u' = Ok ms.
Proof. exact odd_graph_proof. Qed.
Print Assumptions C91_printed_graph.
Theorem C91_balanced_seed : forall v k l u r0 r1 u', (3 <= v)%nat -> (Z.of_nat v - k - 1) * u = k * (k - l - 1) ->
  seed (Z.of_nat v) k l u = Ok (Mat v [r0; r1]) -> 1 <= zsum r0 -> zsum r1 = zsum r0 ->
  (Z.of_nat v - zsum r0 - 1) * u' = zsum r0 * (zsum r0 - dot r0 r1 - 1) ->
  1 <= zsum r0 < Z.of_nat v /\ 0 <= dot r0 r1 < zsum r0
  /\ seed (Z.of_nat v) (zsum r0) (dot r0 r1) u' = Ok (Mat v [r0; r1])
  /\ run_main (Z.of_nat v) k l u = run_main (Z.of_nat v) (zsum r0) (dot r0 r1) u'.
Proof. exact odd_balanced_proof. Qed.
Print Assumptions C91_balanced_seed.
Theorem C91_empty_first_row : forall v k l u r0 r1, (3 <= v <= 67)%nat -> (Z.of_nat v - k - 1) * u = k * (k - l - 1) ->
  seed (Z.of_nat v) k l u = Ok (Mat v [r0; r1]) -> zsum r0 = 0 ->
  r0 = repeat 0 v /\ (k = 0 \/ k = -1 \/ k <= - Z.of_nat v)
  /\ run_main (Z.of_nat v) k l u
     = Ok (if forallb (Z.eqb 0) (skipn 2 r1) then [Mat v (r0 :: r1 :: repeat (repeat 0 v) (v - 2))] else []).
Proof. exact odd_zero_proof. Qed.
Print Assumptions C91_empty_first_row.

(** (4,2,-1,4) repeats (4,2,0,2); (5,0,-2,0) has an empty first row *)
Example C91_ex : (4 - 2 - 1) * 4 = 2 * (2 - -1 - 1) /\ (4 - 2 - 1) * 2 = 2 * (2 - 0 - 1)
  /\ seed 4 2 (-1) 4 = Ok (Mat 4 [[0;1;1;0]; [1;0;0;1]])
  /\ run_main 4 2 (-1) 4 = Ok [Mat 4 square4] /\ srg 4 2 0 2 square4
  /\ seed 5 0 (-2) 0 = Ok (Mat 5 [[0;0;0;0;0]; [0;1;0;0;0]]).
Proof.
  split; [reflexivity|]. split; [reflexivity|]. split; [reflexivity|]. split; [apply outside_printed|].
  split; [|reflexivity]. now apply srgb_ok.
Qed.

(** ** C92: the in-place search *)
From Verif Require Import ModelHeap HeapSpec HeapProps.
Theorem C92_in_place : forall w i, separate w i -> solve_question (seen w i) <> Raise OutOfFuel ->
  exists w', solve_question_h w i = Ok (w', solve_question (seen w i))
  /\ (forall p, (p < length (arrs w))%nat -> p <> hb (obj w i) -> p <> hbounds (obj w i) -> p <> hv (hans (obj w i)) ->
        rd (arrs w') p = rd (arrs w) p)
  /\ (forall j, (j < length (objs w))%nat -> j <> i -> obj w' j = obj w j)
  /\ separate w' i
  /\ (forall Q', refine (seen w i) = Ok Q' -> seen w' i = Q').
Proof. exact in_place_proof. Qed.
Print Assumptions C92_in_place.
Theorem C92_answers : forall w i, separate w i -> sane (seen w i) ->
  exists w', solve_question_h w i = Ok (w', solve_question (seen w i)).
Proof. exact in_place_sane. Qed.
Print Assumptions C92_answers.

(** two objects in memory: the second is asked, the first keeps its arrays *)
Definition two_objects : store :=
  Store [[1; 1]; [1; 1; 1]; [-1; -1; -1]; [1; 1]; [1; 1; 1]; [-1; -1; -1]]
        [HQ (Mat 3 [[1;1;0]; [0;1;1]]) 0 1 1 (HAns 2 [0; 1; 2] 3); HQ (Mat 3 [[1;1;0]; [0;1;1]]) 3 2 4 (HAns 5 [0; 1; 2] 3)].
Example C92_ex : separate two_objects 1 /\ solve_question (seen two_objects 1) = Ok [[1;0;1]]
  /\ match solve_question_h two_objects 1 with
     | Ok (w, r) => r = Ok [[1;0;1]] /\ firstn 3 (arrs w) = firstn 3 (arrs two_objects) /\ obj w 0 = obj two_objects 0
                    /\ seen w 1 <> seen two_objects 1
     | _ => False
     end.
Proof. split; [unfold separate; cbn; lia|]. split; [vm_compute; reflexivity|]. vm_compute. repeat split. discriminate. Qed.

(** ** C93: asking the same object again *)
Theorem C93_again : forall w i Q' w' r, separate w i -> sane (seen w i) -> refine (seen w i) = Ok Q' ->
  solve_question_h w i = Ok (w', r) -> exists w'', solve_question_h w' i = Ok (w'', r).
Proof. exact again_sane. Qed.
Print Assumptions C93_again.
Theorem C93_refined : forall Q Q', sane Q -> refine Q = Ok Q' -> refine Q' = Ok Q' /\ solve_question Q' = solve_question Q.
Proof. exact refined_same_sane. Qed.
Print Assumptions C93_refined.
Theorem C93_again_always_refuted :
  ~ (forall w i w' r, separate w i -> sane (seen w i) -> solve_question_h w i = Ok (w', r) ->
       exists w'', solve_question_h w' i = Ok (w'', r)).
Proof. exact again_refuted_proof. Qed.
Print Assumptions C93_again_always_refuted.

(** the hypotheses of the refutation are met: no answer the first time, one the second *)
Example C93_ex : separate used_up 0 /\ sane (seen used_up 0) /\ solve_question (seen used_up 0) = Ok []
  /\ exists w' w'', solve_question_h used_up 0 = Ok (w', Ok []) /\ solve_question_h w' 0 = Ok (w'', Ok [[1; 0; 0]]).
Proof. exact (conj used_up_separate (conj used_up_sane used_up_answers)). Qed.
Example C93_ex2 : match refine (seen two_objects 1) with Ok _ => True | _ => False end.
Proof. vm_compute. exact I. Qed.

(** ** C94: a question that turned out to have no solution *)
Theorem C94_step : forall h q, let s := (h, q) in
  (hb q < length h)%nat -> (hbounds q < length h)%nat -> (hv (hans q) < length h)%nat ->
  hb q <> hbounds q -> hb q <> hv (hans q) -> hbounds q <> hv (hans q) ->
  forall f g, In (f, g) [(reduce_col_h, reduce_col_body); (eliminate_h, eliminate_body); (zero_in_b_h, zero_in_b_body); (only_1_h, only_1_body)] ->
  forall s', f s = (s', NoSolution) ->
  match g (view h q) with
  | NoSolution => view (fst s') (snd s') = view h q
  | Ok Q1 => post_check Q1 = NoSolution /\ view (fst s') (snd s') = Q1
  | Raise _ => False
  end.
Proof. exact step_leaves_proof. Qed.
Print Assumptions C94_step.
Theorem C94_half_refined : forall w i w' r, separate w i -> sane (seen w i) -> refine (seen w i) = NoSolution ->
  solve_question_h w i = Ok (w', r) -> r = Ok [] /\ left_half_refined (seen w i) (seen w' i).
Proof. exact half_refined_proof. Qed.
Print Assumptions C94_half_refined.

Example C94_ex : separate used_up 0 /\ sane (seen used_up 0) /\ refine (seen used_up 0) = NoSolution
  /\ match solve_question_h used_up 0 with
     | Ok (w, r) => r = Ok [] /\ seen w 0 = Qst (Mat 1 [[0]; [1]; [1]]) [0; 1; 2] 1 [1] (Ans [-1; 0; 0] [0; 1; 2] 3)
     | _ => False
     end.
Proof.
  split; [exact used_up_separate|]. split; [exact used_up_sane|]. split; [vm_compute; reflexivity|].
  vm_compute. split; reflexivity.
Qed.
(** each of the two ways a step can raise *)
Example C94_ex2 : only_1_body (Qst (Mat 1 [[1]]) [2] 5 [1] (Ans [-1] [0] 1)) = NoSolution
  /\ match only_1_h ([[2]; [1]; [-1]], HQ (Mat 1 [[1]]) 0 5 1 (HAns 2 [0] 1)) with
     | (s, NoSolution) => fst s = [[2]; [1]; [-1]]
     | _ => False
     end
  /\ match zero_in_b_h ([[0; 1]; [1]; [-1]], HQ (Mat 1 [[1]; [1]]) 0 1 1 (HAns 2 [0] 1)) with
     | (s, NoSolution) => view (fst s) (snd s) = Qst (Mat 0 [[]; []]) [0; 1] 1 [] (Ans [0] [0] 1)
     | _ => False
     end.
Proof. vm_compute. repeat split. Qed.

(** ** C95: the whole program changes nothing that existed before *)
Theorem C95_program : forall w v k l u, exists w', run_main_h w v k l u = (w', run_main v k l u)
  /\ (forall p, (p < length (arrs w))%nat -> rd (arrs w') p = rd (arrs w) p)
  /\ (forall j, (j < length (objs w))%nat -> obj w' j = obj w j).
Proof. exact program_proof. Qed.
Print Assumptions C95_program.
Theorem C95_solve_twice : forall w m, exists w' w'', solve_h w m = (w', solve m) /\ solve_h w' m = (w'', solve m).
Proof. exact solve_twice_proof. Qed.
Print Assumptions C95_solve_twice.

Example C95_ex : run_main 5 2 0 1 = Ok [Mat 5 [[0;1;1;0;0]; [1;0;0;1;0]; [1;0;0;0;1]; [0;1;0;0;1]; [0;0;1;1;0]]]
  /\ match run_main_h two_objects 5 2 0 1 with
     | (w, Ok ms) => ms = [Mat 5 [[0;1;1;0;0]; [1;0;0;1;0]; [1;0;0;0;1]; [0;1;0;0;1]; [0;0;1;1;0]]] /\ firstn 6 (arrs w) = arrs two_objects /\ firstn 2 (objs w) = objs two_objects
                     /\ (2 < length (objs w))%nat
     | _ => False
     end.
Proof. vm_compute. repeat split. repeat constructor. Qed.

(** ** C96: heapq on the array *)
From Verif Require Import ModelHeapq HeapqSpec HeapqProps.
Theorem C96_heappop : forall (T : Type) (lt : T -> T -> bool) (d : T) (h : list T), strict_order lt -> is_heap lt h -> h <> [] ->
  exists x h', heappop lt d h = Some (x, h') /\ Permutation h (x :: h') /\ is_heap lt h' /\ forall y, In y h' -> lt y x = false.
Proof. exact @heappop_proof. Qed.
Print Assumptions C96_heappop.
Theorem C96_pop_all : forall (T : Type) (lt : T -> T -> bool) (d : T) (h : list T), strict_order lt -> is_heap lt h ->
  Permutation h (pop_all lt d (length h) h) /\ StronglySorted (fun x y => lt y x = false) (pop_all lt d (length h) h).
Proof. exact @pop_all_proof. Qed.
Print Assumptions C96_pop_all.
Theorem C96_merge : forall ls, (length ls <= 3)%nat -> Forall (StronglySorted (fun x y => entry_leb x y = true)) ls ->
  Permutation (concat ls) (merge ls) /\ StronglySorted (fun x y => entry_leb x y = true) (merge ls).
Proof. exact merge_proof. Qed.
Print Assumptions C96_merge.
Theorem C96_elim : forall A b, elim_q A b = elim A b.
Proof. exact elim_same_proof. Qed.
Print Assumptions C96_elim.

(** a heap that is not sorted; after one pop it is another one *)
Example C96_ex : strict_order entry_ltb /\ is_heap Z.ltb [1; 5; 2; 7; 6; 3]
  /\ heappop Z.ltb 0 [1; 5; 2; 7; 6; 3] = Some (1, [2; 5; 3; 7; 6])
  /\ pop_all Z.ltb 0 6 [1; 5; 2; 7; 6; 3] = [1; 2; 3; 5; 6; 7]
  /\ merge [[(2, 0, 1); (9, 3, 0)]; [(1, 1, 4)]; [(2, 0, 0); (2, 0, 1)]] = [(1, 1, 4); (2, 0, 0); (2, 0, 1); (2, 0, 1); (9, 3, 0)]
  /\ elim_q (Mat 5 [[1;1;1;1;1]; [1;1;0;0;0]; [0;0;1;1;0]; [1;1;1;1;0]; [1;0;1;0;1]]) [5; 2; 2; 4; 3]
     = Ok (Mat 5 [[0;0;0;0;1]; [0;0;1;1;0]; [1;0;1;0;0]; [1;1;0;0;0]], [1; 2; 2; 2]).
Proof.
  split; [exact entry_strict|]. split; [|vm_compute; repeat split; reflexivity].
  intros k c x y H Hx Hy. destruct k as [|[|[|k]]].
  1-3: destruct H as [-> | ->]; cbn in Hx, Hy; try discriminate Hy; injection Hx as <-; injection Hy as <-; reflexivity.
  destruct H as [-> | ->]; exfalso; revert Hy; (replace (nth_error _ _) with (@None Z); [discriminate|]);
    symmetry; apply nth_error_None; cbn; Lia.lia.
Qed.

(** ** C97: the generators value by value *)
From Verif Require Import ModelGen GenProps.
Theorem C97_solve : forall m ms, solve m = Ok ms ->
  forall n, nexts search_next n (Begin m) = firstn n (map Yielded ms ++ repeat Stopped n).
Proof. exact search_values_proof. Qed.
Print Assumptions C97_solve.
Theorem C97_solve_raises : forall m e, solve m = Raise e ->
  forall n, nexts search_next (S n) (Begin m) = Raised e :: repeat Stopped n.
Proof. exact search_raises_proof. Qed.
Print Assumptions C97_solve_raises.
Theorem C97_solve_first : forall m x g, search_next (Begin m) = (Yielded x, g) -> exists ds f, g = Among ds [] f.
Proof. exact search_first_proof. Qed.
Print Assumptions C97_solve_first.
Theorem C97_question : forall Q xs, solve_question Q = Ok xs ->
  forall n, nexts (question_next (question_fuel Q)) n (Some [Q]) = firstn n (map Yielded xs ++ repeat Stopped n).
Proof. exact question_values_proof. Qed.
Print Assumptions C97_question.
Theorem C97_question_raises : forall Q e, solve_question Q = Raise e -> e <> OutOfFuel -> exists xs,
  forall n, nexts (question_next (question_fuel Q)) n (Some [Q]) = firstn n (map Yielded xs ++ [Raised e] ++ repeat Stopped n).
Proof. exact question_raises_proof. Qed.
Print Assumptions C97_question_raises.

Example C97_ex : let Q := Qst (Mat 4 [[1;1;0;0]; [0;1;1;0]; [0;0;1;1]]) [1; 1; 1] 2 [1; 1; 1; 1] (Ans [-1; -1; -1; -1] [0; 1; 2; 3] 4) in
  solve_question Q = Ok [[1; 0; 1; 0]; [0; 1; 0; 1]]
  /\ nexts (question_next (question_fuel Q)) 4 (Some [Q]) = [Yielded [1; 0; 1; 0]; Yielded [0; 1; 0; 1]; Stopped; Stopped].
Proof. vm_compute. split; reflexivity. Qed.
Example C97_ex2 : let m := Mat 5 [[0;1;1;0;0]; [1;0;0;1;0]] in let s := Mat 5 [[0;1;1;0;0]; [1;0;0;1;0]; [1;0;0;0;1]; [0;1;0;0;1]; [0;0;1;1;0]] in
  solve m = Ok [s] /\ search_next (Begin m) = (Yielded s, Among [] [] 1) /\ nexts search_next 3 (Begin m) = [Yielded s; Stopped; Stopped].
Proof. vm_compute. repeat split; reflexivity. Qed.
Example C97_ex3 : let Q := Qst (Mat 2 [[0;0]]) [0] 1 [1; 1] (Ans [-1; -1] [0; 1] 2) in let m := Mat 1 [[0]] in
  solve_question Q = Raise StopIteration /\ nexts (question_next (question_fuel Q)) 2 (Some [Q]) = [Raised StopIteration; Stopped]
  /\ solve m = Raise AssertionError /\ nexts search_next 2 (Begin m) = [Raised AssertionError; Stopped].
Proof. vm_compute. repeat split; reflexivity. Qed.

(** ** C98: [fork_enum] value by value; with [next] the split is exhaustive and
    disjoint without C17's hypothesis, which only says whether it raises after
    the last question *)
From Verif Require Import ForkGen.
Theorem C98_fork : forall Q, question_ok Q -> (1 <= mcols (qA Q))%nat ->
  (fork_call Q = NoSolution /\ forall w, ~ solution Q w)
  \/ exists g qs m vals e, fork_call Q = Ok g /\ first_minimum (qbounds Q) m
     /\ (forall n, nexts fork_next n g = firstn n (map Yielded qs ++ e ++ repeat Stopped n))
     /\ StronglySorted Z.lt vals
     /\ Forall2 (fun q Q' => question_ok Q'
          /\ nth (nth m (open (qans Q)) 0%nat) (av (qans Q')) 0 = q
          /\ forall w, solution Q' w <-> solution Q w /\ nth (nth m (open (qans Q)) 0%nat) w 0 = q) vals qs
     /\ (forall w, solution Q w -> In (nth (nth m (open (qans Q)) 0%nat) w 0) vals)
     /\ (e = [] \/ e = [Raised AssertionError])
     /\ (e = [Raised AssertionError] <-> qquota Q < nth m (qbounds Q) 0
          /\ forall i, (i < length (qb Q))%nat -> cell (mrows (qA Q)) i m = 1 -> qquota Q < nth i (qb Q) 0).
Proof. exact fork_generator_proof. Qed.
Print Assumptions C98_fork.
Theorem C98_list : forall Q qs, fork_enum Q = Ok qs -> exists g, fork_call Q = Ok g
  /\ forall n, nexts fork_next n g = firstn n (map Yielded qs ++ repeat Stopped n).
Proof. exact fork_list_proof. Qed.
Print Assumptions C98_list.
Theorem C98_raise : forall Q e, fork_enum Q = Raise e -> fork_call Q = Raise e \/ exists g qs, fork_call Q = Ok g
  /\ forall n, nexts fork_next n g = firstn n (map Yielded qs ++ [Raised e] ++ repeat Stopped n).
Proof. exact fork_list_raise_proof. Qed.
Print Assumptions C98_raise.

(** the call raises in the cases of C64 *)
Theorem C98_call : forall Q, question_ok Q ->
  (refused Q -> fork_call Q = NoSolution /\ fork_enum Q = NoSolution) /\ (~ refused Q -> exists g, fork_call Q = Ok g).
Proof. exact fork_refused_proof. Qed.
Print Assumptions C98_call.

(** three questions come out of C17's counterexample before the exception *)
Example C98_ex : question_ok loose_question /\ (1 <= mcols (qA loose_question))%nat
  /\ fork_enum loose_question = Raise AssertionError
  /\ exists g, fork_call loose_question = Ok g
  /\ nexts fork_next 5 g = [Yielded (Qst (Mat 1 [[1]]) [1] 2 [4] (Ans [0;-1] [0;3] 7));
       Yielded (Qst (Mat 1 [[1]]) [1] 1 [4] (Ans [1;-1] [0;3] 7)); Yielded (Qst (Mat 1 [[1]]) [1] 0 [4] (Ans [2;-1] [0;3] 7));
       Raised AssertionError; Stopped].
Proof. split; [exact loose_question_ok|]. split; [simpl; lia|]. split; [reflexivity|]. eexists. split; reflexivity. Qed.
Example C98_ex2 : question_ok ex_question /\ exists q1 q2 g, fork_enum ex_question = Ok [q1; q2] /\ fork_call ex_question = Ok g
  /\ nexts fork_next 3 g = [Yielded q1; Yielded q2; Stopped].
Proof. split; [exact ex_question_ok|]. eexists _, _, _. repeat split; reflexivity. Qed.

(** ** C99: the promotion rules of NumPy 1 and NumPy 2; [run_main_2] is the
    program under NumPy 2 *)
From Verif Require Import ModelNumpy2 Numpy2Props Numpy2More.
Theorem C99_program : forall v k l u, v <= 383 -> run_main_2 v k l u = run_main v k l u.
Proof. exact run_main_2_wide. Qed.
Print Assumptions C99_program.
Theorem C99_solve : forall m, (mcols m <= 127 + mnrows m)%nat -> solve_2 m = solve m.
Proof. exact solve_2_proof. Qed.
Print Assumptions C99_solve.
Theorem C99_solve_bits : forall m, (2 <= mnrows m <= mcols m)%nat -> (forall row, In row (mrows m) -> length row = mcols m /\ bits row) ->
  (mcols m <= 381 + mnrows m)%nat -> solve_2 m = solve m.
Proof. exact solve_2_wide. Qed.
Print Assumptions C99_solve_bits.
(** only a smallest bound of 127 makes a difference ... *)
Theorem C99_fork : forall Q, (forall x, In x (qbounds Q) -> 0 <= x <= 127) ->
  (forall m, first_minimum (qbounds Q) m -> nth m (qbounds Q) 0 <= 126) -> fork_enum_2 Q = fork_enum Q.
Proof. exact fork_enum_2_proof. Qed.
Print Assumptions C99_fork.
(** ... and then it does: the only solution is lost *)
Theorem C99_bound_127 : exists Q w, question_ok Q /\ solution Q w
  /\ solve_question Q = Ok [repeat 0 127 ++ repeat 1 127 ++ repeat 0 127] /\ solve_question_2 Q = Ok [].
Proof. exact wide_proof. Qed.
Print Assumptions C99_bound_127.

Example C99_ex : match run_main_2 10 6 3 4 with Ok ms => length ms = 2%nat | _ => False end
  /\ let m := Mat 5 [[0;1;1;0;0]; [1;0;0;1;0]] in (mcols m <= 127 + mnrows m)%nat /\ match solve_2 m with Ok ms => length ms = 1%nat | _ => False end.
Proof. vm_compute. repeat split; lia. Qed.
Example C99_ex2 : (forall x, In x (qbounds ex_question) -> 0 <= x <= 127)
  /\ (forall m, first_minimum (qbounds ex_question) m -> nth m (qbounds ex_question) 0 <= 126) /\ exists q1 q2, fork_enum_2 ex_question = Ok [q1; q2].
Proof.
  assert (H : forall x, In x (qbounds ex_question) -> 0 <= x <= 126) by small. split; [intros x Hx; specialize (H x Hx); lia|].
  split; [|eexists _, _; reflexivity]. intros m Hm. assert (In (nth m (qbounds ex_question) 0) (qbounds ex_question)) as Hin by (apply nth_In; apply Hm).
  now apply H in Hin.
Qed.

(** ** C100: [partition.enum] and [fork.enum] with [next] *)
From Verif Require Import ModelPart PartGen.
Theorem C100_partition : forall s bounds, 0 <= s -> bounds <> [] ->
  exists l, (forall n, nexts part_next n (PartBegin s bounds) = stream_of l [] n) /\ StronglySorted lex_lt l
    /\ forall t, In t l <->
         length t = length bounds /\ (forall i, (i < length bounds)%nat -> 0 <= nth i t 0 <= nth i bounds 0) /\ zsum t = s.
Proof. exact part_generator_proof. Qed.
Print Assumptions C100_partition.
Theorem C100_partition_rejects : forall s bounds, s < 0 \/ bounds = [] ->
  forall n, nexts part_next (S n) (PartBegin s bounds) = Raised AssertionError :: repeat Stopped n.
Proof. exact part_refused_proof. Qed.
Print Assumptions C100_partition_rejects.
Theorem C100_partition_list : forall s bounds l, partition_enum_api s bounds = Ok l ->
  forall n, nexts part_next n (PartBegin s bounds) = stream_of l [] n.
Proof. exact part_list_proof. Qed.
Print Assumptions C100_partition_list.
Theorem C100_fork_values : forall quota bounds loc, (loc < length bounds)%nat ->
  exists l, (forall n, nexts use_next n (UseBegin quota bounds loc) = stream_of l [] n)
    /\ StronglySorted (fun x y => fst x < fst y) l
    /\ forall q r, In (q, r) l <->
         q + r = quota /\ 0 <= q <= nth loc bounds 0 /\ r <= zsum bounds - nth loc bounds 0.
Proof. exact use_generator_proof. Qed.
Print Assumptions C100_fork_values.
Theorem C100_fork_rejects : forall quota bounds loc, (length bounds <= loc)%nat ->
  forall n, nexts use_next (S n) (UseBegin quota bounds loc) = Raised IndexError :: repeat Stopped n.
Proof. exact use_refused_proof. Qed.
Print Assumptions C100_fork_rejects.

(** 0 in the first bucket leaves 3 for [1; 1], so the first value has 1 there *)
Example C100_ex : nexts part_next 5 (PartBegin 3 [2; 1; 1])
    = [Yielded [1; 1; 1]; Yielded [2; 0; 1]; Yielded [2; 1; 0]; Stopped; Stopped]
  /\ nexts part_next 4 (PartBegin 1 [2; 1]) = [Yielded [0; 1]; Yielded [1; 0]; Stopped; Stopped]
  /\ nexts part_next 2 (PartBegin 3 [1; 1]) = [Stopped; Stopped]
  /\ nexts part_next 2 (PartBegin (-1) [2; 1; 1]) = [Raised AssertionError; Stopped]
  /\ nexts part_next 2 (PartBegin 1 []) = [Raised AssertionError; Stopped].
Proof. repeat split; reflexivity. Qed.
(** the calls of srg/fork.py:27-43, continued to the end *)
Example C100_ex2 : nexts use_next 3 (UseBegin 4 [2; 2; 2; 1] 3) = [Yielded (0, 4); Yielded (1, 3); Stopped]
  /\ nexts use_next 3 (UseBegin 3 [1; 1; 1] 0) = [Yielded (1, 2); Stopped; Stopped]
  /\ nexts use_next 3 (UseBegin 5 [2; 3; 1] 1) = [Yielded (2, 3); Yielded (3, 2); Stopped]
  /\ nexts use_next 2 (UseBegin 3 [1; 1; 1] 3) = [Raised IndexError; Stopped].
Proof. repeat split; reflexivity. Qed.

(** ** C101: how many questions wait on the stack of [solve_question] *)
From Verif Require Import Stack.
Theorem C101_stack : forall Q stack out, length (qbounds Q) = mcols (qA Q) -> (forall x, In x (qbounds Q) -> 0 <= x) ->
  visits question_step ([Q], []) (stack, out) -> Z.of_nat (length stack) <= 1 + zsum (qbounds Q).
Proof. exact stack_proof. Qed.
Print Assumptions C101_stack.
Theorem C101_row_stack : forall m Q stack out, from_matrix m = Ok Q ->
  visits question_step ([Q], []) (stack, out) -> (length stack <= mcols m - mnrows m)%nat.
Proof. exact row_stack_proof. Qed.
Print Assumptions C101_row_stack.

(** five questions wait after the first turn for the third row of (25,12,5,6) *)
Example C101_ex : match seed 25 12 5 6 with
  | Ok m => match from_matrix m with
            | Ok Q => (exists stack out, visits question_step ([Q], []) (stack, out) /\ length stack = 5%nat)
                      /\ length (qbounds Q) = mcols (qA Q) /\ (forall x, In x (qbounds Q) -> 0 <= x)
            | _ => False
            end
  | _ => False
  end.
Proof.
  assert (H : match seed 25 12 5 6 with
     | Ok m => match from_matrix m with
               | Ok Q => match after question_step 1 ([Q], []) with Some (stack, _) => (length stack =? 5)%nat | None => false end
                         && (length (qbounds Q) =? mcols (qA Q))%nat && forallb (Z.leb 0) (qbounds Q)
               | _ => false
               end
     | _ => false
     end = true) by (vm_compute; reflexivity).
  destruct (seed 25 12 5 6) as [m| |]; try discriminate. destruct (from_matrix m) as [Q| |]; try discriminate.
  rewrite !andb_true_iff in H. destruct H as ((H1 & H2) & H3). split; [|split].
  - destruct (after question_step 1 ([Q], [])) as [[stack out]|] eqn:E; [|discriminate]. exists stack, out.
    split; [now apply (after_visits question_step 1)|now apply Nat.eqb_eq].
  - now apply Nat.eqb_eq.
  - intros x Hx. rewrite forallb_forall in H3. now apply Z.leb_le, H3.
Qed.

(** ** C102: [solve_question] never guesses with one or two columns left *)
Theorem C102_three_columns : forall Q Q',
  (forall row, In row (mrows (qA Q)) -> length row = mcols (qA Q) /\ bits row) -> length (qb Q) = mnrows (qA Q) ->
  (forall x, In x (qb Q) -> 0 <= x) -> length (qbounds Q) = mcols (qA Q) -> (forall x, In x (qbounds Q) -> 0 <= x <= 127) ->
  (1 <= mnrows (qA Q))%nat -> length (unknown_loc (qans Q)) = mcols (qA Q) ->
  refine Q = Ok Q' -> mcols (qA Q') = 0%nat \/ (3 <= mcols (qA Q'))%nat.
Proof. exact refined_columns_proof. Qed.
Print Assumptions C102_three_columns.

(** three columns that stay, and two that end as none *)
Example C102_ex :
  (let Q := Qst (Mat 3 [[1;1;0]; [0;1;1]]) [1;1] 1 [1;1;1] (Ans [-1;-1;-1] [0;1;2] 3) in
     forallb (fun row => (length row =? mcols (qA Q))%nat && forallb (fun x => (x =? 0) || (x =? 1)) row) (mrows (qA Q)) = true
     /\ length (qb Q) = mnrows (qA Q) /\ forallb (Z.leb 0) (qb Q) = true /\ length (qbounds Q) = mcols (qA Q)
     /\ forallb (fun x => (0 <=? x) && (x <=? 127)) (qbounds Q) = true /\ (1 <=? mnrows (qA Q))%nat = true
     /\ length (unknown_loc (qans Q)) = mcols (qA Q) /\ match refine Q with Ok Q' => mcols (qA Q') = 3%nat | _ => False end)
  /\ match refine (Qst (Mat 2 [[1;1]]) [1] 1 [1;1] (Ans [-1;-1] [0;1] 2)) with Ok Q' => mcols (qA Q') = 0%nat | _ => False end.
Proof. vm_compute. repeat split. Qed.
