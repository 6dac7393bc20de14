(** Specification for single steps of [solve_question]. *)
From Coq Require Import Sorting.Sorted.
From Verif Require Import Np Model Spec QSpec ElimProps.

(** nothing more can be read off: columns differ, no unknown is zero, no
    bound exceeds the right-hand side of a row it occurs in, every row has two
    unknowns, no row can be subtracted from a later one, and the bounds allow
    the quota *)
Record settled (Q : question) : Prop := {
  sd_columns : forall i j, (i < j < mcols (qA Q))%nat ->
    exists row, In row (mrows (qA Q)) /\ nth i row 0 <> nth j row 0;
  sd_bounds : forall j, (j < mcols (qA Q))%nat -> 1 <= nth j (qbounds Q) 0
    /\ forall i, (i < length (qb Q))%nat -> cell (mrows (qA Q)) i j <> 0 -> nth j (qbounds Q) 0 <= nth i (qb Q) 0;
  sd_rows : (1 <= mcols (qA Q))%nat -> forall row, In row (mrows (qA Q)) ->
    exists j j', (j < j' < mcols (qA Q))%nat /\ nth j row 0 = 1 /\ nth j' row 0 = 1;
  sd_apart : (1 <= mcols (qA Q))%nat -> no_row_below_another (mrows (qA Q)) (qb Q);
  sd_quota : (1 <= mcols (qA Q))%nat -> qquota Q <= zsum (qbounds Q);
  sd_empty : mcols (qA Q) = 0%nat -> forall x, In x (qb Q) -> x = 0 }.

(** [Q] is refused at once: equations between nothing and a non-zero number,
    bounds that cannot reach the quota, a known value that does not fit *)
Definition refused (Q : question) : Prop :=
  (mcols (qA Q) = 0%nat /\ exists x, In x (qb Q) /\ x <> 0)
  \/ ((1 <= mcols (qA Q))%nat /\ zsum (qbounds Q) < qquota Q)
  \/ exists i, (i < length (av (qans Q)))%nat /\ room (qans Q) i < nth i (av (qans Q)) 0.

(** the largest value the equations allow the unknown of column [j] *)
Definition tightest (Q : question) (j : nat) (z : Z) : Prop :=
  z <= nth j (qbounds Q) 0
  /\ (forall i, (i < length (qb Q))%nat -> cell (mrows (qA Q)) i j <> 0 -> z <= nth i (qb Q) 0)
  /\ (z = nth j (qbounds Q) 0
      \/ exists i, (i < length (qb Q))%nat /\ cell (mrows (qA Q)) i j <> 0 /\ z = nth i (qb Q) 0).

(** [Q'] is [Q] without the unknowns that must be zero, with tight bounds;
    [cols] are the remaining columns *)
Record zeros_removed (Q Q' : question) (cols : list nat) : Prop := {
  zr_cols : StronglySorted lt cols /\ forall j, In j cols <->
    (j < mcols (qA Q))%nat /\ exists z, tightest Q j z /\ z <> 0;
  zr_A : qA Q' = Mat (length cols) (map (fun row => map (fun j => nth j row 0) cols) (mrows (qA Q)));
  zr_b : qb Q' = qb Q /\ qquota Q' = qquota Q;
  zr_bounds : length (qbounds Q') = length cols
    /\ forall i, (i < length cols)%nat -> tightest Q (nth i cols 0%nat) (nth i (qbounds Q') 0);
  zr_ans : aloc (qans Q') = aloc (qans Q) /\ alen (qans Q') = alen (qans Q) /\ length (av (qans Q')) = length (av (qans Q));
  zr_open : open (qans Q') = map (fun j => nth j (open (qans Q)) 0%nat) cols;
  zr_values : forall i, (i < length (av (qans Q)))%nat -> ~ In i (open (qans Q')) ->
    nth i (av (qans Q')) 0 = if nth i (av (qans Q)) 0 =? -1 then 0 else nth i (av (qans Q)) 0 }.

(** depth-first search: the questions a fork produces are searched starting
    with the last one *)
Inductive search : question -> list (list Z) -> Prop :=
| search_none : forall Q, refine Q = NoSolution -> search Q []
| search_found : forall Q Q' x, refine Q = Ok Q' -> answer_unknown (qans Q') = false ->
    binarize (qans Q') = Ok x -> search Q [x]
| search_dead : forall Q Q', refine Q = Ok Q' -> answer_unknown (qans Q') = true ->
    fork_enum Q' = NoSolution -> search Q []
| search_fork : forall Q Q' qs xs, refine Q = Ok Q' -> answer_unknown (qans Q') = true ->
    fork_enum Q' = Ok qs -> search_all (rev qs) xs -> search Q xs
with search_all : list question -> list (list Z) -> Prop :=
| search_nil : search_all [] []
| search_cons : forall Q qs xs ys, search Q xs -> search_all qs ys -> search_all (Q :: qs) (xs ++ ys).

(** the unknowns that stand alone in a row, with the right-hand side of the
    last such row *)
Definition alone (Q : question) (c : nat) (x : Z) : Prop :=
  exists r, (r < length (mrows (qA Q)))%nat /\ only_entry (nth r (mrows (qA Q)) []) c /\ x = nth r (qb Q) 0
    /\ forall r', (r < r' < length (mrows (qA Q)))%nat -> ~ only_entry (nth r' (mrows (qA Q)) []) c.
(** what these contribute to row [i] *)
Definition contribution (Q : question) (fixed : list (nat * Z)) (i : nat) : Z :=
  zsum (map (fun cx => cell (mrows (qA Q)) i (fst cx) * snd cx) fixed).
(** they exceed a bound, the quota or a right-hand side *)
Definition exceeded (Q : question) (fixed : list (nat * Z)) : Prop :=
  (exists c x, In (c, x) fixed /\ nth c (qbounds Q) 0 < x)
  \/ qquota Q < zsum (map snd fixed)
  \/ exists i, (i < length (qb Q))%nat /\ nth i (qb Q) 0 < contribution Q fixed i.
(** [Q'] is [Q] with the values [fixed] filled in; [cols] are the remaining
    columns *)
Record filled_in (Q Q' : question) (fixed : list (nat * Z)) (cols : list nat) : Prop := {
  fi_cols : StronglySorted lt cols /\ forall j, In j cols <-> (j < mcols (qA Q))%nat /\ ~ In j (map fst fixed);
  fi_A : qA Q' = Mat (length cols) (map (fun row => map (fun j => nth j row 0) cols) (mrows (qA Q)));
  fi_b : length (qb Q') = length (qb Q)
    /\ forall i, (i < length (qb Q))%nat -> nth i (qb Q') 0 = nth i (qb Q) 0 - contribution Q fixed i;
  fi_quota : qquota Q' = qquota Q - zsum (map snd fixed);
  fi_bounds : qbounds Q' = map (fun j => nth j (qbounds Q) 0) cols;
  fi_ans : aloc (qans Q') = aloc (qans Q) /\ alen (qans Q') = alen (qans Q) /\ length (av (qans Q')) = length (av (qans Q));
  fi_open : open (qans Q') = map (fun j => nth j (open (qans Q)) 0%nat) cols;
  fi_fixed : forall c x, In (c, x) fixed -> nth (nth c (open (qans Q)) 0%nat) (av (qans Q')) 0 = x;
  fi_known : forall i, (i < length (av (qans Q)))%nat -> nth i (av (qans Q)) 0 <> -1 ->
    nth i (av (qans Q')) 0 = nth i (av (qans Q)) 0 }.
