(** Model of exp.py. *)
From Verif Require Import Np Model ModelSort ModelUtil ModelDb.

(** exp.py:10-23: the complements [t0], [t1] of the two (10,6,3,4) matrices,
    maximized to [u0], [u1], and the (10,3,0,1) matrix [v]: the script's
    variables. The script drops the two results of [np.array_equal]; here they
    are the last component. *)
Definition exp_script (argsort : list Z -> list nat) : res (list (list (list Z)) * list bool) :=
  pp <- get_solutions 10 6 3 4 ;;
  match pp with
  | [s0; s1] =>
      t0 <- complement (mrows s0) ;;
      t1 <- complement (mrows s1) ;;
      u0 <- maximize argsort t0 ;;
      u1 <- maximize argsort t1 ;;
      pn <- get_solutions 10 3 0 1 ;;
      match pn with
      | v :: _ => Ok ([t0; t1; u0; u1; mrows v], [list_eqb vec_eqb u0 (mrows v); list_eqb vec_eqb u1 (mrows v)])
      | [] => Raise IndexError
      end
  | _ => Raise ValueError
  end.
Definition exp_compare (argsort : list Z -> list nat) : res (list bool) :=
  r <- exp_script argsort ;; Ok (snd r).
