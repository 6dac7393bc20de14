(** Specification at the level of one question: what a well-formed question
    is and what its solutions are. Of the model it uses the records
    [question] and [answer] only (as data). *)
From Coq Require Import Sorting.Sorted.
From Verif Require Import Np Model Spec.

(** ** Answers: buckets [edges i .. edges (i+1)] of a vector of length [alen] *)
Definition edges (a : answer) : list Z := aloc a ++ [alen a].
Definition room (a : answer) (i : nat) : Z := nth (S i) (edges a) 0 - nth i (edges a) 0.
(** positions of the buckets whose value is not known (-1) *)
Definition open (a : answer) : list nat :=
  filter (fun i => nth i (av a) 0 =? -1) (seq 0 (length (av a))).

(** one value per bucket, buckets cover [0 .. alen) and are not empty *)
Definition answer_ok (a : answer) : Prop :=
  length (av a) = length (aloc a) /\ hd 0 (edges a) = 0 /\ StronglySorted Z.lt (edges a).

(** ** Questions: a 0/1 system with one column per open bucket; all numbers
    fit into an int8 *)
Record question_ok (Q : question) : Prop := {
  q_shape : shape (length (qb Q)) (mcols (qA Q)) (mrows (qA Q));
  q_bits : forall row, In row (mrows (qA Q)) -> bits row;
  q_b : forall x, In x (qb Q) -> 0 <= x <= 127;
  q_quota : 0 <= qquota Q <= 127;
  q_bounds : length (qbounds Q) = mcols (qA Q) /\ forall x, In x (qbounds Q) -> 0 <= x <= 127;
  q_answer : answer_ok (qans Q);
  q_open : length (open (qans Q)) = mcols (qA Q) }.

(** values of the open buckets *)
Definition open_values (Q : question) (w : list Z) : list Z :=
  map (fun i => nth i w 0) (open (qans Q)).

(** [w] gives every bucket a value *)
Record solution (Q : question) (w : list Z) : Prop := {
  s_length : length w = length (av (qans Q));
  s_known : forall i, (i < length w)%nat -> nth i (av (qans Q)) 0 <> -1 -> nth i w 0 = nth i (av (qans Q)) 0;
  s_room : forall i, (i < length w)%nat -> 0 <= nth i w 0 <= room (qans Q) i;
  s_system : solves (mrows (qA Q)) (qb Q) (open_values Q w);
  s_quota : zsum (open_values Q w) = qquota Q;
  s_bounds : forall j, (j < mcols (qA Q))%nat -> nth j (open_values Q w) 0 <= nth j (qbounds Q) 0 }.

(** [c] is the only column with a non-zero entry in [row] *)
Definition only_entry (row : list Z) (c : nat) : Prop :=
  (c < length row)%nat /\ nth c row 0 <> 0 /\ forall j, j <> c -> nth j row 0 = 0.

(** first position of the minimum of [l] *)
Definition first_minimum (l : list Z) (m : nat) : Prop :=
  (m < length l)%nat
  /\ forall j, (j < length l)%nat -> nth m l 0 <= nth j l 0 /\ ((j < m)%nat -> nth m l 0 < nth j l 0).

(** lexicographic order on vectors of one length *)
Fixpoint lex_lt (x y : list Z) : Prop :=
  match x, y with
  | a :: x', b :: y' => a < b \/ (a = b /\ lex_lt x' y')
  | _, _ => False
  end.

(** adjacent columns of a matrix with [C] columns differ *)
Definition neighbours_differ (C : nat) (A : list (list Z)) : Prop :=
  forall j, (S j < C)%nat -> exists row, In row A /\ nth j row 0 <> nth (S j) row 0.

(** sums over consecutive groups of sizes [ns]; every entry repeated as often
    as its group is large *)
Fixpoint group_sums (ns : list nat) (x : list Z) : list Z :=
  match ns with
  | [] => []
  | n :: t => zsum (firstn n x) :: group_sums t (skipn n x)
  end.
Fixpoint repeat_each (ns : list nat) (x : list Z) : list Z :=
  match ns, x with
  | n :: t, a :: x' => repeat a n ++ repeat_each t x'
  | _, _ => []
  end.

(** what the merged question [Q'] is: [ns] are the sizes of the groups of
    columns, [ms] those of the groups of buckets *)
Record col_reduced (Q Q' : question) (ns ms : list nat) : Prop := {
  rd_ok : question_ok Q';
  rd_sizes : (forall n, In n (ns ++ ms) -> (1 <= n)%nat) /\ length ns = mcols (qA Q');
  rd_rows : mrows (qA Q) = map (repeat_each ns) (mrows (qA Q'));
  rd_distinct : forall i j, (i < j < mcols (qA Q'))%nat ->
    exists row, In row (mrows (qA Q')) /\ nth i row 0 <> nth j row 0;
  rd_b : qb Q' = qb Q /\ qquota Q' = qquota Q;
  rd_bounds : qbounds Q' = group_sums ns (qbounds Q);
  rd_room : map (room (qans Q')) (open (qans Q')) = group_sums ns (map (room (qans Q)) (open (qans Q)));
  rd_forth : forall w, solution Q w -> solution Q' (group_sums ms w)
    /\ open_values Q' (group_sums ms w) = group_sums ns (open_values Q w);
  rd_back : forall w', solution Q' w' -> exists w, solution Q w /\ group_sums ms w = w' }.

(** a question whose equal columns can be merged: they are adjacent, stand for
    neighbouring buckets, and the machine integers hold what is computed *)
Record reducible (Q : question) : Prop := {
  rb_ok : question_ok Q;
  rb_adjacent : equal_columns_adjacent (mcols (qA Q)) (mrows (qA Q));
  rb_rows : (2 <= mcols (qA Q))%nat -> (1 <= length (qb Q) <= 64)%nat;
  rb_sum : zsum (qbounds Q) <= 127;
  rb_room : forall j, (j < mcols (qA Q))%nat -> nth j (qbounds Q) 0 <= room (qans Q) (nth j (open (qans Q)) 0%nat);
  rb_next : forall j, (S j < mcols (qA Q))%nat -> (forall row, In row (mrows (qA Q)) -> nth j row 0 = nth (S j) row 0) ->
    nth (S j) (open (qans Q)) 0%nat = S (nth j (open (qans Q)) 0%nat) }.
