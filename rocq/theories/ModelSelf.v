(** The code of srg/ that runs only when a module is started by itself, and
    [sort] of srg/gauss_elim.py, which nothing calls. What a self test prints is
    returned as a value; for its layout see [ModelRepr]. *)
From Verif Require Import Np ModelGauss Model ModelSort.

(** srg/gauss_elim.py:136-139 [sort]: [A[:, :] = A[argsort, :]] fails with
    IndexError if [b] is longer than [A] and broadcasts a single row. *)
Definition gauss_sort (argsort : list Z -> list nat) (A : mat) (b : list Z) : res (mat * list Z) :=
  let p := argsort b in
  if (mnrows A <? length b)%nat then Raise IndexError
  else
    let rows := pick [] p (mrows A) in
    let b' := pick 0 p b in
    if (length b =? mnrows A)%nat then Ok (Mat (mcols A) rows, b')
    else if (length b =? 1)%nat then Ok (Mat (mcols A) (repeat (hd [] rows) (mnrows A)), b')
    else Raise ValueError.

(** srg/gauss_elim.py:148-165 *)
Definition self_gauss_elim : res unit :=
  let A := Mat 5 [[1;1;1;1;1]; [1;1;0;0;0]; [0;0;1;1;0]; [1;1;1;1;0]; [1;0;1;0;1]] in
  let b := [5;2;2;4;3] in
  r <- elim A b ;;
  let (Ae, be) := r in
  let At := Mat 5 [[0;0;0;0;1]; [0;0;1;1;0]; [1;0;1;0;0]; [1;1;0;0;0]] in
  let bt := [1;2;2;2] in
  _ <- assert_ (mat_eqb Ae At) ;;
  assert_ (vec_eqb be bt).

(** srg/bounds.py:51-66 [test1] (defined there, called nowhere); [rcs.pop()] on
    an empty set raises KeyError, not modelled since the set has one element *)
Definition self_bounds_test1 : res unit :=
  let A := [[0;0;0;0;1]; [0;0;1;1;0]; [1;0;1;0;0]; [1;1;0;0;0]] in
  let b := [1;1;0;1] in
  let bound := lower_upper_bound A b [1;1;1;1;1] in
  _ <- assert_ (vec_eqb bound [0;1;0;1;1]) ;;
  match one_element_row_locs A with
  | [(r, c)] => assert_ ((r =? 0)%nat && (c =? 4)%nat)
  | _ => Raise AssertionError
  end.
(** srg/bounds.py:69-78: the bounds and the set it prints *)
Definition self_bounds : list Z * list (nat * nat) :=
  let A := [[0;1]; [0;1]; [0;0]; [1;0]; [1;0]; [0;0]] in
  let b := [4;4;0;4;4;0] in
  (lower_upper_bound A b [4;4], one_element_row_locs A).

(** [next(g)] number [n] of a generator, compared with [x] *)
Definition assert_next (g : list (Z * Z)) (n : nat) (x : Z * Z) : res unit :=
  match nth_error g n with
  | Some (a, b) => assert_ ((a =? fst x) && (b =? snd x))
  | None => Raise StopIteration
  end.
(** srg/fork.py:27-43 *)
Definition self_fork : res unit :=
  minloc <- argmin [2;2;2;1] ;;
  let g := fork_enum_pairs 4 [2;2;2;1] minloc in
  _ <- assert_next g 0 (0, 4) ;;
  _ <- assert_next g 1 (1, 3) ;;
  minloc' <- argmin [1;1;1] ;;
  assert_next (fork_enum_pairs 3 [1;1;1] minloc') 0 (1, 2).

(** srg/partition.py:25-27: the tuples it prints *)
Definition self_partition : res (list (list Z)) := partition_enum_api 3 [1;1;1;1;1].

(** srg/unique.py:47-61: the three values it prints before the assertion *)
Definition self_unique : res (mat * list Z * list nat) :=
  let A := Mat 7 [[1;1;1;1;0;0;0]; [1;1;0;0;1;1;0]; [1;1;1;1;1;1;1]] in
  r <- unique_reduce A ;;
  let '(A_reduced, bnds, unique_loc) := r in
  _ <- assert_ (mat_eqb (unique_expand A_reduced bnds) A) ;;
  Ok (A_reduced, bnds, unique_loc).

(** srg/srg.py:275-285: the matrix and the question it prints *)
Definition self_srg : res (mat * question) :=
  s <- seed 10 6 3 4 ;;
  q <- from_matrix s ;;
  Ok (s, q).
