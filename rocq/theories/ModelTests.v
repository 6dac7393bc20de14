(** Model of the tests of tests/test_database.py as programs: [Ok tt] if they
    pass. The matrices are the int8 arrays of the problem files, given by their
    rows and assumed to be square. Scalars follow NumPy 1.x: an int8 array
    times a Python int stays int8 if the int fits, and becomes wider
    otherwise. *)
From Coq Require Import QArith.
From Verif Require Import Np ModelUtil ModelFloat.
Local Open Scope Z_scope.

(** an array: is it int8, its rows *)
Definition arr : Type := bool * list (list Z).
Definition narrow (b : bool) (z : Z) : Z := if b then i8 z else z.
(** [c * a] *)
Definition np_scale (c : Z) (a : arr) : arr :=
  let b := fst a && (-128 <=? c) && (c <=? 127) in (b, map (map (fun x => narrow b (c * x))) (snd a)).
(** [a + b], [a - b] *)
Definition np_bin (op : Z -> Z -> Z) (a a' : arr) : arr :=
  let b := fst a && fst a' in (b, map2 (map2 (fun x y => narrow b (op x y))) (snd a) (snd a')).
(** [a @ a'] for square matrices *)
Definition np_matmul (a a' : arr) : arr :=
  let b := fst a && fst a' in
  (b, map (fun row => map (fun j => narrow b (dot row (map (fun r => nth j r 0) (snd a')))) (seq 0 (length (snd a')))) (snd a)).
(** [np.array_equal] *)
Definition rows_equal : list (list Z) -> list (list Z) -> bool := list_eqb vec_eqb.
(** srg/srg.py:8-10 *)
Definition np_identity (v : nat) : arr := (true, map (fun i => map (fun j => if (i =? j)%nat then 1 else 0) (seq 0 v)) (seq 0 v)).
Definition np_ones (v : nat) : arr := (true, repeat (repeat 1 v) v).

(** tests/test_database.py:20-45 [test_matrix_property] *)
Definition test_matrix_property (v : nat) (k l u : Z) (mats : list (list (list Z))) : res unit :=
  _ <- mapM (fun M => mapM (fun ri =>
    let mr := firstn ri M in
    let pivot := map (fun r => nth ri r 0) mr in
    let lu := map (fun e => if e =? 0 then u else l) pivot in
    let solution := skipn (S ri) (nth ri M []) in
    assert_ (vec_eqb (map (fun r => i8 (i8 (dot (firstn ri r) pivot) + i8 (dot (skipn (S ri) r) solution))) mr) lu))
    (seq 1 (v - 2))) mats ;;
  Ok tt.

(** tests/test_database.py:69-81 [test_srg_matrix_identity]; [utils.complement]
    returns an int64 array *)
Definition test_srg_matrix_identity (v : nat) (k l u : Z) (mats : list (list (list Z))) : res unit :=
  let I := np_identity v in
  let J := np_ones v in
  let const := np_bin Z.add (np_scale (k - u) I) (np_scale u J) in
  _ <- mapM (fun M => let mat := (true, M) in
    assert_ (rows_equal (snd (np_bin Z.sub (np_matmul mat mat) (np_scale (l - u) mat))) (snd const))) mats ;;
  let '(_, ck, cl, cu) := complement_vklu (Z.of_nat v) k l u in
  let cconst := np_bin Z.add (np_scale (ck - cu) I) (np_scale cu J) in
  _ <- mapM (fun M => N <- complement M ;; let mat := (false, N) in
    assert_ (rows_equal (snd (np_bin Z.sub (np_matmul mat mat) (np_scale (cl - cu) mat))) (snd cconst))) mats ;;
  Ok tt.

(** tests/test_database.py:48-66 [test_determinant]; [eigvals] is the first
    result of [np.linalg.eig] (real numbers), [prod] is [np.prod] of floats;
    [np.prod] of Python ints is computed in int64 *)
Definition test_determinant (rnd sqrt : Q -> Q) (pow : Q -> Z -> Q) (eigvals : list (list Z) -> list Q) (prod : list Q -> Q)
    (v : nat) (k l u : Z) (mats : list (list (list Z))) : res unit :=
  expected <- determinant_float rnd sqrt pow (Z.of_nat v) k l u ;;
  _ <- mapM (fun M =>
    let d := if conference (Z.of_nat v) k l u =? 0 then round_half_even (prod (eigvals M))
             else fold_left (fun p e => i64 (p * e)) (map round_half_even (eigvals M)) 1 in
    assert_ (d =? expected)) mats ;;
  Ok tt.
