(** The search with the promotion rule of NumPy 2 (NEP 50): an operation between
    a numpy scalar and a Python int keeps the type of the scalar. [Model] has the
    rule of NumPy 1, where the result is an int64.

    In the search a scalar of an int8 array meets a Python int only in
    srg/fork.py:22, [m + 1]. (srg/srg.py:89, [ptr + c], is [0 + c] the first
    time; afterwards [ptr] is an int64. In srg/srg.py:269-271 [k] is an int64.
    The values of [range] are Python ints that fit into an int8, so
    srg/solver.py:176 and 181 are the same under both rules.) *)
From Verif Require Import Np ModelGauss Model.

(** srg/fork.py:18-24 [enum] *)
Definition fork_enum_values_2 (quota : Z) (bounds : list Z) (loc : nat) : list Z :=
  let m := nth loc bounds 0 in
  let rest := delete [loc] bounds in
  zrange (Z.max 0 (quota - zsum rest)) (i8 (m + 1)).
(** srg/solver.py:158-183 [fork_enum] *)
Definition fork_enum_2 (Q : question) : res (list question) :=
  _ <- post_check Q ;;
  _ <- assert_ (0 <? length (unknown_loc (qans Q)))%nat ;;
  minloc <- argmin (qbounds Q) ;;
  qs <- mapM (fork_one Q minloc) (fork_enum_values_2 (qquota Q) (qbounds Q) minloc) ;;
  Ok (flat_map (fun o => match o with Some q => [q] | None => [] end) qs).
(** srg/solver.py:193-214 *)
Definition question_step_2 (s : list question * list (list Z))
  : (list question * list (list Z)) + res (list (list Z)) :=
  let (stack, out) := s in
  match stack with
  | [] => inr (Ok (rev out))
  | Q :: rest =>
      match refine Q with
      | NoSolution => inl (rest, out)
      | Raise e => inr (Raise e)
      | Ok Q' =>
          if answer_unknown (qans Q') then
            match fork_enum_2 Q' with
            | Ok qs => inl (rev qs ++ rest, out)
            | NoSolution => inl (rest, out)
            | Raise e => inr (Raise e)
            end
          else
            match binarize (qans Q') with
            | Ok x => inl (rest, x :: out)
            | NoSolution => inl (rest, out)
            | Raise e => inr (Raise e)
            end
      end
  end.
(** srg/solver.py:189-214 [solve_question] *)
Definition solve_question_2 (Q : question) : res (list (list Z)) :=
  while_ (question_fuel Q) question_step_2 ([Q], []).
(** srg/solver.py:222-229 [advance] *)
Definition advance_2 (m : mat) : res (list mat) :=
  _ <- assert_ (negb (solved m)) ;;
  match from_matrix m with
  | NoSolution => Ok []
  | Raise e => Raise e
  | Ok q => xs <- solve_question_2 q ;; mapM (append_row m) xs
  end.
(** srg/solver.py:231-239 [solve] *)
Definition advance_all_2 (l : list mat) : res (list mat) :=
  ls <- mapM advance_2 l ;; Ok (concat ls).
Fixpoint solve_loop_2 (fuel : nat) (lst : list mat) (yielded : list mat) : res (list mat) :=
  match lst with
  | [] => Ok yielded
  | _ =>
      match fuel with
      | O => Raise OutOfFuel
      | S fuel' =>
          lst' <- advance_all_2 (lst_undone lst) ;;
          solve_loop_2 fuel' lst' (yielded ++ lst_done lst)
      end
  end.
Definition solve_2 (m : mat) : res (list mat) :=
  lst <- advance_2 m ;;
  lst' <- advance_all_2 (lst_undone lst) ;;
  solve_loop_2 (mcols m - mnrows m) lst' (lst_done lst).
(** srg/__main__.py:15-21 *)
Definition run_main_2 (v k l u : Z) : res (list mat) :=
  _ <- assert_srg v k l u ;;
  m <- seed v k l u ;;
  solve_2 m.
