(** The search with the five commented-out [@debug] lines switched on
    (srg/solver.py:56, 80, 89, 112, 158). *)
From Verif Require Export Model.

(** srg/srg.py:234-244 [_invariant_check] *)
Definition invariant_check (Q : question) : res unit :=
  _ <- assert_ (nonneg (qb Q)) ;;
  _ <- assert_ (nonneg (qbounds Q)) ;;
  let R := mnrows (qA Q) in
  let C := mcols (qA Q) in
  _ <- assert_ (Nat.eqb R (length (qb Q))) ;;
  _ <- assert_ (Nat.eqb C (length (qbounds Q))) ;;
  _ <- assert_ (Nat.eqb (length (unknown_loc (qans Q))) C) ;;
  q <- answer_quota (qans Q) ;;
  _ <- assert_ (negb (any2 Z.gtb (av (qans Q)) q)) ;;
  if Nat.eqb C 0 then assert_ (forallb (fun x => x =? 0) (qb Q)) else Ok tt.

(** srg/utils.py:46-74 [debug]. Printing, and the comparison [Q == Q_before]
    that only chooses what to print, are left out. A step that raises is left
    before the check. *)
Definition debug (f : question -> res question) (Q : question) : res question :=
  _ <- question_copy Q ;;
  Q' <- f Q ;;
  _ <- invariant_check Q' ;;
  Ok Q'.
(** [fork_enum] returns a generator, whose body runs after the wrapper: what
    is checked is the unchanged question. *)
Definition debug_fork (Q : question) : res (list question) :=
  _ <- question_copy Q ;;
  _ <- post_check Q ;;
  _ <- invariant_check Q ;;
  fork_enum Q.

(** From here on as in [Model], with the wrapped steps. *)
Definition refine_step_d (Q : question) : question + res question :=
  match (Qdummy <- question_copy Q ;;
         Q1 <- debug reduce_col Q ;;
         Q2 <- debug eliminate Q1 ;;
         Q3 <- debug zero_in_b Q2 ;;
         Q4 <- debug only_1_element_in_row Q3 ;;
         Ok (Q4, question_eqb Q4 Qdummy)) with
  | Ok (Q4, true) => inr (Ok Q4)
  | Ok (Q4, false) => inl Q4
  | NoSolution => inr NoSolution
  | Raise e => inr (Raise e)
  end.
Definition refine_d (Q : question) : res question :=
  while_ (mcols (qA Q) + 3) refine_step_d Q.

Definition question_step_d (s : list question * list (list Z))
  : (list question * list (list Z)) + res (list (list Z)) :=
  let (stack, out) := s in
  match stack with
  | [] => inr (Ok (rev out))
  | Q :: rest =>
      match refine_d Q with
      | NoSolution => inl (rest, out)
      | Raise e => inr (Raise e)
      | Ok Q' =>
          if answer_unknown (qans Q') then
            match debug_fork Q' with
            | Ok qs => inl (rev qs ++ rest, out)
            | NoSolution => inl (rest, out)
            | Raise e => inr (Raise e)
            end
          else
            match binarize (qans Q') with
            | Ok x => inl (rest, x :: out)
            | NoSolution => inl (rest, out)
            | Raise e => inr (Raise e)
            end
      end
  end.
Definition solve_question_d (Q : question) : res (list (list Z)) :=
  while_ (question_fuel Q) question_step_d ([Q], []).

Definition advance_d (m : mat) : res (list mat) :=
  _ <- assert_ (negb (solved m)) ;;
  match from_matrix m with
  | NoSolution => Ok []
  | Raise e => Raise e
  | Ok q => xs <- solve_question_d q ;; mapM (append_row m) xs
  end.
Definition advance_all_d (l : list mat) : res (list mat) :=
  ls <- mapM advance_d l ;; Ok (concat ls).
Fixpoint solve_loop_d (fuel : nat) (lst : list mat) (yielded : list mat) : res (list mat) :=
  match lst with
  | [] => Ok yielded
  | _ =>
      match fuel with
      | O => Raise OutOfFuel
      | S fuel' =>
          lst' <- advance_all_d (lst_undone lst) ;;
          solve_loop_d fuel' lst' (yielded ++ lst_done lst)
      end
  end.
Definition solve_d (m : mat) : res (list mat) :=
  lst <- advance_d m ;;
  lst' <- advance_all_d (lst_undone lst) ;;
  solve_loop_d (mcols m - mnrows m) lst' (lst_done lst).
Definition run_main_d (v k l u : Z) : res (list mat) :=
  _ <- assert_srg v k l u ;;
  m <- seed v k l u ;;
  solve_d m.
