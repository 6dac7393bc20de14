(** Model of tests/test_solver.py and tests/test_sort.py as programs: [Ok tt]
    if they pass. *)
From Verif Require Import Np ModelGauss Model ModelDebug ModelSort.

(** tests/test_solver.py:19-26 [test_solve]; [zip] stops at the shorter list *)
Definition test_solve (v k l u : Z) (database : list mat) : res unit :=
  srg <- seed v k l u ;;
  actuals <- solve srg ;;
  let actuals_sorted := sort_matrices actuals in
  _ <- mapM (fun p => assert_ (mat_eqb (fst p) (snd p))) (combine actuals_sorted database) ;;
  Ok tt.

(** tests/test_solver.py:29-41 [test_solve_question] *)
Definition test_solve_question (v k l u : Z) (database : list mat) : res unit :=
  expected_rows <- mapM (fun exp => if (mnrows exp <=? 2)%nat then Raise IndexError
                                    else Ok (skipn 3 (nth 2 (mrows exp) []))) database ;;
  s <- seed v k l u ;;
  q <- from_matrix s ;;
  actuals <- solve_question q ;;
  if existsb (fun actual => existsb (fun exp => vec_eqb exp actual) expected_rows) actuals then Ok tt
  else Raise AssertionError.

(** tests/test_solver.py:43-57 [test2] *)
Definition test2 : res unit :=
  ans <- mk_answer [0; -1; 0; 0; -1] [0; 4; 8; 12; 16] 20 ;;
  Q <- mk_question (Mat 2 [[0;1]; [0;1]; [0;0]; [1;0]; [1;0]; [0;0]]) [4; 4; 0; 4; 4; 0] 8 [4; 4] (Some ans) ;;
  Q' <- only_1_element_in_row Q ;;
  invariant_check Q'.

(** tests/test_sort.py:7-34, 37-70, for the matrices [A] and [B] written there *)
Definition test_maximize (argsort : list Z -> list nat) (A B : list (list Z)) : res unit :=
  Amax <- maximize argsort A ;;
  assert_ (list_eqb vec_eqb Amax B).
