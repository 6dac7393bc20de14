(** * What a heap is (documentation of Python's heapq) *)
From Coq Require Import List.
Import ListNotations.

(** [heap[k] <= heap[2*k+1]] and [heap[k] <= heap[2*k+2]] wherever these exist;
    "[x <= y]" is "not [y < x]". *)
Definition is_heap {T} (lt : T -> T -> bool) (heap : list T) : Prop :=
  forall k c x y, c = 2 * k + 1 \/ c = 2 * k + 2 ->
    nth_error heap k = Some x -> nth_error heap c = Some y -> lt y x = false.

(** A strict total preorder: [<] is transitive, and so is "not [<]". *)
Definition strict_order {T} (lt : T -> T -> bool) : Prop :=
  (forall x y, lt x y = true -> lt y x = false)
  /\ (forall x y z, lt y x = false -> lt z y = false -> lt z x = false).
