(** Specification for the sorter: encodings, orders, argsort contracts. *)
From Coq Require Import Sorting.Permutation.
From Verif Require Import Np Spec QSpec.

(** the entries above the diagonal, row by row *)
Definition upper (v : nat) (M : list (list Z)) : list Z :=
  concat (map (fun i => map (fun j => cell M i j) (seq (S i) (v - S i))) (seq 0 v)).

Definition lex_le (x y : list Z) : Prop := x = y \/ lex_lt x y.

(** a [v x v] matrix *)
Definition square (v : nat) (m : mat) : Prop := mcols m = v /\ shape v v (mrows m).

Definition symmetric (v : nat) (M : list (list Z)) : Prop :=
  shape v v M /\ forall i j, (i < v)%nat -> (j < v)%nat -> cell M i j = cell M j i.

(** contract of [np.argsort]: the positions, in an order that sorts [l];
    nothing is said about equal entries *)
Definition argsorts (f : list Z -> list nat) : Prop :=
  forall l, Permutation (f l) (seq 0 (length l))
    /\ forall i j, (i < j < length l)%nat -> nth (nth i (f l) 0%nat) l 0 <= nth (nth j (f l) 0%nat) l 0.
(** equal entries of a vector of at most [n] entries keep their order (with
    [kind='stable'] for every [n]) *)
Definition stable_upto (n : nat) (f : list Z -> list nat) : Prop :=
  forall l i j, (length l <= n)%nat -> (i < j < length l)%nat ->
    nth (nth i (f l) 0%nat) l 0 = nth (nth j (f l) 0%nat) l 0 -> (nth i (f l) 0 < nth j (f l) 0)%nat.

(** [N] is [M] with the vertices renamed by a permutation that keeps vertex 0 *)
Definition same_graph_keeping_0 (v : nat) (M N : list (list Z)) : Prop :=
  exists f, relabelling v f /\ f 0%nat = 0%nat
    /\ forall i j, (i < v)%nat -> (j < v)%nat -> cell N i j = cell M (f i) (f j).

(** [a] with [i] and [j] exchanged *)
Definition exchange (i j a : nat) : nat :=
  if (a =? i)%nat then j else if (a =? j)%nat then i else a.
