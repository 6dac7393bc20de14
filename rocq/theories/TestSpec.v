(** Specification for the tests of tests/test_database.py. *)
From Verif Require Import Np Spec.

(** a [v x v] matrix of zeros and ones *)
Definition zero_one (v : nat) (M : list (list Z)) : Prop :=
  shape v v M /\ forall i j, (i < v)%nat -> (j < v)%nat -> bit (cell M i j).
Definition loopless (v : nat) (M : list (list Z)) : Prop := forall i, (i < v)%nat -> cell M i i = 0.
