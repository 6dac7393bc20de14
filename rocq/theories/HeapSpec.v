(** Hypotheses and witnesses of C92 and C93. *)
From Verif Require Import Np Model ModelHeap Spec.

(** the object exists; its [_b], [_bounds] and [_v] are three arrays *)
Definition separate (w : store) (i : nat) : Prop :=
  let q := obj w i in
  (i < length (objs w))%nat
  /\ (hb q < length (arrs w))%nat /\ (hbounds q < length (arrs w))%nat /\ (hv (hans q) < length (arrs w))%nat
  /\ hb q <> hbounds q /\ hb q <> hv (hans q) /\ hbounds q <> hv (hans q).

(** zero-one rows of one length, a right-hand side and bounds that fit *)
Definition sane (Q : question) : Prop :=
  (forall row, In row (mrows (qA Q)) -> length row = mcols (qA Q) /\ bits row) /\ length (qb Q) = mnrows (qA Q)
  /\ (forall x, In x (qb Q) -> 0 <= x) /\ length (qbounds Q) = mcols (qA Q) /\ (forall x, In x (qbounds Q) -> 0 <= x <= 127)
  /\ (1 <= mnrows (qA Q))%nat /\ length (unknown_loc (qans Q)) = mcols (qA Q).

(** a question without a solution that has one when it is asked again *)
Definition used_up : store :=
  Store [[0; 1; 2]; [1; 1; 1]; [-1; -1; -1]]
        [HQ (Mat 3 [[0;1;1]; [1;0;1]; [1;1;0]]) 0 1 1 (HAns 2 [0; 1; 2] 3)].

(** ** What is left of a question when refining it raises [NoSolution] (C94)
    The bodies of the four steps in order; each is followed by the check of the
    decorator (srg/solver.py:29-52). *)
Definition bodies : list (question -> res question) :=
  [reduce_col_body; eliminate_body; zero_in_b_body; only_1_body].
(** In the turn that starts at [Q] a step raises: before it changes anything, or
    in its check. [X] is the question then. *)
Fixpoint gives_up (steps : list (question -> res question)) (Q X : question) : Prop :=
  match steps with
  | [] => False
  | f :: steps' =>
      match f Q with
      | NoSolution => X = Q
      | Raise _ => False
      | Ok Q1 =>
          match post_check Q1 with
          | NoSolution => X = Q1
          | Raise _ => False
          | Ok _ => gives_up steps' Q1 X
          end
      end
  end.
(** some whole turns first *)
Inductive left_half_refined : question -> question -> Prop :=
| left_now Q X : gives_up bodies Q X -> left_half_refined Q X
| left_later Q P X : refine_step Q = inl P -> left_half_refined P X -> left_half_refined Q X.
