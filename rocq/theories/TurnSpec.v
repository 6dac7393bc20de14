(** How often the body of a loop is executed (C87), and the states it goes through (C101). *)
From Coq Require Import List.
(** [step s] is [inl s'] when the loop goes on with [s'] and [inr r] when it
    ends with [r]; [loops step n s r]: from [s] the loop goes on exactly [n]
    times and then ends with [r]. *)
Inductive loops {S R} (step : S -> S + R) : nat -> S -> R -> Prop :=
| loops_end s r : step s = inr r -> loops step 0 s r
| loops_turn n s s' r : step s = inl s' -> loops step n s' r -> loops step (Datatypes.S n) s r.
(** [visits step s t]: a loop that starts in [s] comes to [t]. *)
Inductive visits {S R} (step : S -> S + R) (s : S) : S -> Prop :=
| visits_start : visits step s s
| visits_turn t t' : visits step s t -> step t = inl t' -> visits step s t'.
