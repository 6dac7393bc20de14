(** Isomorphism classes in a list of matrices. *)
From Verif Require Import Np Spec.
Local Open Scope Z_scope.

(** [reps] contains exactly one matrix of every isomorphism class that occurs
    in [ms] *)
Definition representatives (v : nat) (ms reps : list (list (list Z))) : Prop :=
  incl reps ms
  /\ ForallOrdPairs (fun A B => ~ isomorphic v A B) reps
  /\ forall M, In M ms -> exists R, In R reps /\ isomorphic v R M.

(** per problem file: v, k, l, u, number of matrices, number of isomorphism
    classes *)
Definition class_table : list (Z * Z * Z * Z * Z * Z) :=
  [(4, 2, 0, 2, 1, 1); (5, 2, 0, 1, 1, 1); (10, 3, 0, 1, 1, 1); (10, 6, 3, 4, 2, 1); (12, 6, 0, 6, 1, 1);
   (13, 6, 2, 3, 2, 1); (15, 6, 1, 3, 2, 1); (15, 8, 4, 4, 2, 1); (16, 5, 0, 2, 1, 1); (16, 6, 2, 2, 2, 2);
   (16, 9, 4, 6, 13, 2); (16, 10, 6, 6, 2, 1); (17, 8, 3, 4, 6, 1); (21, 10, 4, 5, 0, 0); (21, 10, 5, 4, 2, 1);
   (25, 8, 3, 2, 1, 1); (25, 12, 5, 6, 1, 1); (26, 10, 3, 4, 1, 1); (27, 10, 1, 5, 2, 1); (28, 12, 6, 4, 161, 4);
   (29, 14, 6, 7, 0, 0)].

(** the problem files with two isomorphic matrices *)
Definition repeating : list (Z * Z * Z * Z) :=
  [(10, 6, 3, 4); (13, 6, 2, 3); (15, 6, 1, 3); (15, 8, 4, 4); (16, 9, 4, 6); (16, 10, 6, 6); (17, 8, 3, 4);
   (21, 10, 5, 4); (27, 10, 1, 5); (28, 12, 6, 4)].

(** the problem files that lack a graph *)
Definition incomplete : list (Z * Z * Z * Z) := [(25, 12, 5, 6); (26, 10, 3, 4); (29, 14, 6, 7)].
