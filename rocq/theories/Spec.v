(** The specification: graphs, strong regularity, isomorphism, linear
    systems. It uses nothing of the model except [zsum] and [dot] (sum of a
    list, inner product). *)
From Verif Require Import Np.

(** entry (i, j) of a matrix given as a list of rows *)
Definition cell (M : list (list Z)) (i j : nat) : Z := nth j (nth i M []) 0.

(** sum of [f 0 .. f (n-1)] *)
Definition sumn (n : nat) (f : nat -> Z) : Z := zsum (map f (seq 0 n)).

(** [n x c] matrix *)
Definition shape (n c : nat) (M : list (list Z)) : Prop :=
  length M = n /\ forall row, In row M -> length row = c.

Definition bit (x : Z) : Prop := x = 0 \/ x = 1.

(** adjacency matrix of a simple graph on [v] vertices *)
Definition adjacency (v : nat) (M : list (list Z)) : Prop :=
  shape v v M
  /\ (forall i j, (i < v)%nat -> (j < v)%nat -> bit (cell M i j))
  /\ (forall i j, (i < v)%nat -> (j < v)%nat -> cell M i j = cell M j i)
  /\ (forall i, (i < v)%nat -> cell M i i = 0).

(** number of neighbours; number of common neighbours *)
Definition degree (v : nat) (M : list (list Z)) (i : nat) : Z :=
  sumn v (fun w => cell M i w).
Definition common (v : nat) (M : list (list Z)) (i j : nat) : Z :=
  sumn v (fun w => cell M i w * cell M j w).

(** strongly regular graph with parameters (v,k,l,u) *)
Definition srg (v : nat) (k l u : Z) (M : list (list Z)) : Prop :=
  adjacency v M
  /\ (forall i, (i < v)%nat -> degree v M i = k)
  /\ (forall i j, (i < v)%nat -> (j < v)%nat -> i <> j ->
        common v M i j = if cell M i j =? 1 then l else u).

(** a relabelling of [0..v-1] *)
Definition relabelling (v : nat) (f : nat -> nat) : Prop :=
  (forall i, (i < v)%nat -> (f i < v)%nat)
  /\ (forall i j, (i < v)%nat -> (j < v)%nat -> f i = f j -> i = j).
Definition isomorphic (v : nat) (M N : list (list Z)) : Prop :=
  exists f, relabelling v f
    /\ forall i j, (i < v)%nat -> (j < v)%nat -> cell N i j = cell M (f i) (f j).

(** parameters accepted by the command line for a graph with an edge *)
Definition admissible (v : nat) (k l u : Z) : Prop :=
  (3 <= v)%nat /\ 1 <= k < Z.of_nat v /\ 0 <= l < k /\ 0 <= u
  /\ (Z.of_nat v - k - 1) * u = k * (k - l - 1).

(** [x] solves the system [A x = b] *)
Definition solves (A : list (list Z)) (b x : list Z) : Prop :=
  length A = length b
  /\ forall i, (i < length A)%nat -> dot (nth i A []) x = nth i b 0.
(** ... or only stays below [b] *)
Definition stays_below (A : list (list Z)) (b x : list Z) : Prop :=
  length A = length b
  /\ forall i, (i < length A)%nat -> dot (nth i A []) x <= nth i b 0.

Definition bits (x : list Z) : Prop := forall a, In a x -> bit a.

(** [x] puts ones before zeros inside every group of equal columns of [A] *)
Definition ones_first (A : list (list Z)) (x : list Z) : Prop :=
  forall j j', (j < j' < length x)%nat ->
    (forall row, In row A -> nth j row 0 = nth j' row 0) ->
    nth j' x 0 <= nth j x 0.

(** equal columns of [A] are adjacent to each other *)
Definition equal_columns_adjacent (C : nat) (A : list (list Z)) : Prop :=
  forall i j k, (i < j < k)%nat -> (k < C)%nat ->
    (forall row, In row A -> nth i row 0 = nth k row 0) ->
    (forall row, In row A -> nth i row 0 = nth j row 0).

(** canonical column order: columns after [r] that agree above row [r] have
    the ones of row [r] first *)
Definition canonical (v : nat) (M : list (list Z)) : Prop :=
  forall r j j', (r < j < j')%nat -> (j' < v)%nat ->
    (forall i, (i < r)%nat -> cell M i j = cell M i j') -> cell M r j' <= cell M r j.

(** first [R] rows of an adjacency matrix on [v] vertices *)
Record partial_matrix (v R : nat) (M : list (list Z)) : Prop := {
  lv_shape : shape R v M;
  lv_R : (2 <= R <= v)%nat;
  lv_bit : forall i j, (i < R)%nat -> (j < v)%nat -> bit (cell M i j);
  lv_sym : forall i j, (i < R)%nat -> (j < R)%nat -> cell M i j = cell M j i;
  lv_diag : forall i, (i < R)%nat -> cell M i i = 0 }.

(** ... in canonical column order *)
Record level (v R : nat) (M : list (list Z)) : Prop := {
  lv_partial :> partial_matrix v R M;
  lv_canon : forall r j j', (r < R)%nat -> (r < j < j')%nat -> (j' < v)%nat ->
     (forall i, (i < r)%nat -> cell M i j = cell M i j') -> cell M r j' <= cell M r j }.

(** the row appended to a partial matrix for a tail [x]: the entries forced by
    symmetry, the diagonal zero, [x] *)
Definition next_row (M : list (list Z)) (x : list Z) : list Z :=
  map (fun i => cell M i (length M)) (seq 0 (length M)) ++ 0 :: x.
(** ... has [k] ones and meets every earlier row as strong regularity says *)
Definition fits_row (k l u : Z) (M : list (list Z)) (x : list Z) : Prop :=
  zsum (next_row M x) = k
  /\ forall i, (i < length M)%nat ->
       dot (nth i M []) (next_row M x) = if cell M i (length M) =? 1 then l else u.
