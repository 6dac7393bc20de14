(** * The generators [solve_question] and [solve] value by value
    [Model] gives all values of a generator at once. Here a generator is what it
    has still to do, and [next] resumes it. An exception other than
    StopIteration ends a generator, as does returning; after that [next] raises
    StopIteration. A StopIteration that leaves the body reaches the caller as
    RuntimeError; it is written [Raised StopIteration] here, the end [Stopped]. *)
From Coq Require Import ZArith List Bool.
From Verif Require Import Np ModelGauss Model.
Import ListNotations.
Local Open Scope Z_scope.

Inductive event (A : Type) :=
| Yielded (a : A)
| Stopped
| Raised (e : err)
| RaisedNoSolution.
Arguments Yielded {A} a.
Arguments Stopped {A}.
Arguments Raised {A} e.
Arguments RaisedNoSolution {A}.

(** [n] calls of [next] *)
Fixpoint nexts {A G} (next : G -> event A * G) (n : nat) (g : G) : list (event A) :=
  match n with
  | O => []
  | S n' => let (e, g') := next g in e :: nexts next n' g'
  end.

(** ** srg/solver.py:189-214 [solve_question] *)

(** One turn of [while stack], until something is yielded. *)
Definition question_turn (stack : list question) : list question + res (option (list Z * list question)) :=
  match stack with
  | [] => inr (Ok None)
  | Q :: rest =>
      match refine Q with
      | NoSolution => inl rest
      | Raise e => inr (Raise e)
      | Ok Q' =>
          if answer_unknown (qans Q') then
            match fork_enum Q' with
            | Ok qs => inl (rev qs ++ rest)
            | NoSolution => inl rest
            | Raise e => inr (Raise e)
            end
          else
            match binarize (qans Q') with
            | Ok x => inr (Ok (Some (x, rest)))
            | NoSolution => inl rest
            | Raise e => inr (Raise e)
            end
      end
  end.
(** [None] is a generator that has ended. [n] is loop fuel (2^n turns). *)
Definition question_next (n : nat) (g : option (list question)) : event (list Z) * option (list question) :=
  match g with
  | None => (Stopped, None)
  | Some stack =>
      match while_ n question_turn stack with
      | Ok (Some (x, stack')) => (Yielded x, Some stack')
      | Ok None => (Stopped, None)
      | NoSolution => (RaisedNoSolution, None)
      | Raise e => (Raised e, None)
      end
  end.

(** ** srg/solver.py:231-239 [solve] *)
Inductive search :=
| Begin (m : mat)                                          (* before line 232 *)
| Among (done undone : list mat) (fuel : nat)              (* inside a [yield from] *)
| Ended.
(** 236-239, from the test of [while lst] *)
Fixpoint search_loop (fuel : nat) (lst : list mat) : event mat * search :=
  match lst with
  | [] => (Stopped, Ended)
  | _ =>
      match fuel with
      | O => (Raised OutOfFuel, Ended)
      | S fuel' =>
          match lst_done lst with
          | d :: ds => (Yielded d, Among ds (lst_undone lst) fuel')
          | [] =>
              match advance_all (lst_undone lst) with
              | Ok lst' => search_loop fuel' lst'
              | NoSolution => (RaisedNoSolution, Ended)
              | Raise e => (Raised e, Ended)
              end
          end
      end
  end.
(** 235 and 239, then the loop *)
Definition search_on (undone : list mat) (fuel : nat) : event mat * search :=
  match advance_all undone with
  | Ok lst => search_loop fuel lst
  | NoSolution => (RaisedNoSolution, Ended)
  | Raise e => (Raised e, Ended)
  end.
Definition search_next (g : search) : event mat * search :=
  match g with
  | Ended => (Stopped, Ended)
  | Among (d :: ds) undone fuel => (Yielded d, Among ds undone fuel)
  | Among [] undone fuel => search_on undone fuel
  | Begin m =>
      match advance m with                                 (* 232 *)
      | NoSolution => (RaisedNoSolution, Ended)
      | Raise e => (Raised e, Ended)
      | Ok lst =>
          match lst_done lst with                          (* 233-234 *)
          | d :: ds => (Yielded d, Among ds (lst_undone lst) (mcols m - mnrows m))
          | [] => search_on (lst_undone lst) (mcols m - mnrows m)
          end
      end
  end.

(** ** srg/solver.py:156-183 [fork_enum]
    The call runs the check of the decorator on [Q] (srg/solver.py:13-40) and
    returns the generator; the body starts with the first [next]. *)
Inductive forking :=
| ForkBegin (Q : question)
| ForkAmong (Q : question) (minloc : nat) (values : list Z)     (* inside the [for] *)
| ForkEnded.
Definition fork_call (Q : question) : res forking := _ <- post_check Q ;; Ok (ForkBegin Q).
(** 173-183, from the next value *)
Fixpoint fork_loop (Q : question) (minloc : nat) (values : list Z) : event question * forking :=
  match values with
  | [] => (Stopped, ForkEnded)
  | q_used :: rest =>
      match fork_one Q minloc q_used with
      | Ok (Some Q') => (Yielded Q', ForkAmong Q minloc rest)
      | Ok None => fork_loop Q minloc rest
      | NoSolution => (RaisedNoSolution, ForkEnded)
      | Raise e => (Raised e, ForkEnded)
      end
  end.
Definition fork_next (g : forking) : event question * forking :=
  match g with
  | ForkEnded => (Stopped, ForkEnded)
  | ForkAmong Q minloc values => fork_loop Q minloc values
  | ForkBegin Q =>
      match (_ <- assert_ (0 <? length (unknown_loc (qans Q)))%nat ;; argmin (qbounds Q)) with
      | Ok minloc => fork_loop Q minloc (fork_enum_values (qquota Q) (qbounds Q) minloc)
      | NoSolution => (RaisedNoSolution, ForkEnded)
      | Raise e => (Raised e, ForkEnded)
      end
  end.
