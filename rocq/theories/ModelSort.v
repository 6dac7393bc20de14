(** Model of srg/sorter.py and of the sorted output of srg/__main__.py.

    Matrices are lists of rows. [AdjMat] is modelled for square matrices; the
    entries are not given a width ([-a] and [a - b] cannot overflow for the
    0/1 matrices the program works with). Python's [sorted] is a stable sort
    (srg/sorter.py:105-106). numpy's [argsort] is not stable by default; it is
    a parameter of the model ([argsort]) of which only the documented contract
    is assumed (see [SortSpec.argsorts]). *)
From Verif Require Import Np ModelGauss Model.

(** ** srg/sorter.py:91-106: comparing and sorting *)

(** srg/sorter.py:97-98 [_encode]: upper triangle, row by row (at least one
    row: [np.hstack] of an empty list raises ValueError) *)
Fixpoint upper_from (r : nat) (M : list (list Z)) : list Z :=
  match M with
  | [] => []
  | row :: t => skipn (S r) row ++ upper_from (S r) t
  end.
Definition sort_encode (M : list (list Z)) : list Z := upper_from 0 M.

(** srg/sorter.py:91-95 [_cmp_1d_bin_array]: difference at the first position
    where the vectors differ, 0 if there is none ([zip] stops at the shorter) *)
Fixpoint cmp_1d (x y : list Z) : Z :=
  match x, y with
  | a :: x', b :: y' => if a =? b then cmp_1d x' y' else a - b
  | _, _ => 0
  end.
(** srg/sorter.py:100-103 [_cmp_srg_matrix] *)
Definition cmp_matrix (m1 m2 : mat) : Z :=
  cmp_1d (sort_encode (mrows m1)) (sort_encode (mrows m2)).

(** srg/sorter.py:105-106 [sort]: [sorted] with [cmp_to_key]; "less" is a
    negative comparison, elements that are not less keep their order *)
Fixpoint insert_matrix (m : mat) (l : list mat) : list mat :=
  match l with
  | [] => [m]
  | y :: t => if cmp_matrix y m <? 0 then y :: insert_matrix m t else m :: y :: t
  end.
Definition sort_matrices (l : list mat) : list mat := fold_right insert_matrix [] l.

(** srg/__main__.py:12-25: the matrices printed for [v k l u] *)
Definition main_output (v k l u : Z) : res (list mat) :=
  ms <- run_main v k l u ;; Ok (sort_matrices ms).

(** ** srg/sorter.py:9-88: AdjMat and maximize *)

(** [M[:, ii][ii, :]] (srg/sorter.py:66-68, 112) *)
Definition reindex (ii : list nat) (M : list (list Z)) : list (list Z) :=
  pick [] ii (map (pick 0 ii) M).
(** [np.array_equal(S, S.T)] for a square matrix *)
Definition symmetricb (M : list (list Z)) : bool :=
  list_eqb vec_eqb M (map (fun j => column j M) (seq 0 (length M))).

Definition segment (c0 c1 : nat) (row : list Z) : list Z :=
  firstn (c1 - c0) (skipn c0 row).

Section argsort.
  Variable argsort : list Z -> list nat.

  (** srg/sorter.py:53-79 [_sort]: sort the columns (and rows) [c0 .. c1) by
      row [row], large entries first; returns the new matrix and the position
      of the first zero of that row in the range *)
  Definition sort_range (row c0 c1 : nat) (M : list (list Z))
    : res (list (list Z) * option nat) :=
    if (c0 <=? row)%nat then Ok (M, None)
    else if (c1 <=? c0)%nat then Ok (M, None)
    else
      let a := segment c0 c1 (nth row M []) in
      let i := argsort (map Z.opp a) in
      let ii := seq 0 c0 ++ map (Nat.add c0) i ++ seq c1 (length M - c1) in
      let S := reindex ii M in
      _ <- assert_ (symmetricb S) ;;
      let s := segment c0 c1 (nth row S []) in
      Ok (S, option_map (Nat.add c0) (hd_error (where_ (fun x => x =? 0) s))).

  (** srg/sorter.py:9 [SortInstruct] *)
  Record instr := Ins { irow : nat; ic0 : nat; ic1 : nat; idiv : option nat }.

  (** [if di: ... out.append(si)]: [None] and 0 are false *)
  Definition queue_if (row c0 c1 : nat) (di : option nat) : list instr :=
    match di with
    | Some (S d) => [Ins row c0 c1 (Some (S d))]
    | _ => []
    end.

  (** srg/sorter.py:29-51 [_div_sort]. With [div_index = None] one of the
      comparisons [colrange[0] >= None], [row >= None] raises TypeError. *)
  Definition div_sort (si : instr) (M : list (list Z))
    : res (list (list Z) * list instr) :=
    match idiv si with
    | None => Raise TypeError
    | Some di =>
        let row := S (irow si) in
        let c0 := if (row =? ic0 si)%nat then S (ic0 si) else ic0 si in
        r1 <- sort_range row c0 di M ;;
        r2 <- sort_range row di (ic1 si) (fst r1) ;;
        Ok (fst r2, queue_if row c0 di (snd r1) ++ queue_if row di (ic1 si) (snd r2))
    end.

  (** srg/sorter.py:17-27 [sort]: breadth-first; [2^(v+1)] steps are enough
      (proved) *)
  Definition sort_step (st : list (list Z) * list instr)
    : (list (list Z) * list instr) + res (list (list Z)) :=
    let '(M, q) := st in
    match q with
    | [] => inr (Ok M)
    | si :: q' =>
        match div_sort si M with
        | Ok (M', out) => inl (M', q' ++ out)
        | NoSolution => inr NoSolution
        | Raise e => inr (Raise e)
        end
    end.
  (** srg/sorter.py:82-88 [maximize] *)
  Definition maximize (M : list (list Z)) : res (list (list Z)) :=
    let v := length M in
    r <- sort_range 0 1 v M ;;
    while_ (S v) sort_step (fst r, [Ins 0 1 v (snd r)]).
End argsort.

(** ** srg/sorter.py:109-118 [swap], [swap_and_verify] for indices [i, j] in
    [0 .. v-1] *)
Definition swap_cols (v i j : nat) : list nat :=
  set_nth j i (set_nth i j (seq 0 v)).
Definition swap (M : list (list Z)) (i j : nat) : res (list (list Z)) :=
  if ((length M <=? i) || (length M <=? j))%nat then Raise IndexError
  else Ok (reindex (swap_cols (length M) i j) M).
Definition trace (M : list (list Z)) : Z :=
  zsum (map (fun i => nth i (nth i M []) 0) (seq 0 (length M))).
Definition swap_and_verify (M : list (list Z)) (i j : nat) : res (list (list Z)) :=
  M' <- swap M i j ;;
  _ <- assert_ (trace M' =? 0) ;;
  _ <- assert_ (symmetricb M') ;;
  Ok M'.
