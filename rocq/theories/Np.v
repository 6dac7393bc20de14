(** Python / numpy vocabulary used by the model.

    Nothing in this file is specific to two_dist_set; it fixes how Python
    values, exceptions, numpy integer widths, slices and unbounded loops are
    represented. *)
From Coq Require Export ZArith List Bool Lia.
Export ListNotations.
Open Scope Z_scope.

(** ** Exceptions as values.
    [NoSolution] is srg/srg.py:12; it is kept apart from all other exceptions
    because srg/solver.py:213 and :226 catch only that one. [OutOfFuel] is not
    a Python exception: it marks a model loop that ran out of fuel. Neither is
    [Overflow], which only the checked copy of the model (ModelWidth.v) raises,
    where numpy would silently wrap around. *)
Inductive err :=
| AssertionError | IndexError | StopIteration | TypeError | ValueError
| ZeroDivisionError | ImportError | OutOfFuel | Overflow.

Inductive res (A : Type) :=
| Ok (a : A)
| NoSolution
| Raise (e : err).
Arguments Ok {A} a.
Arguments NoSolution {A}.
Arguments Raise {A} e.

Definition bind {A B} (x : res A) (f : A -> res B) : res B :=
  match x with
  | Ok a => f a
  | NoSolution => NoSolution
  | Raise e => Raise e
  end.
Notation "x <- e1 ;; e2" := (bind e1 (fun x => e2))
  (at level 61, e1 at next level, right associativity).

(** Python [assert c]. *)
Definition assert_ (c : bool) : res unit :=
  if c then Ok tt else Raise AssertionError.

(** All results or the first exception, left to right ([list(map(f, l))]). *)
Fixpoint mapM {A B} (f : A -> res B) (l : list A) : res (list B) :=
  match l with
  | [] => Ok []
  | x :: t => y <- f x ;; ys <- mapM f t ;; Ok (y :: ys)
  end.

(** ** Machine integers (two's complement wrap-around of numpy int8 / int64;
    [half] is 2^7 resp. 2^63). *)
Definition wrap (half z : Z) : Z :=
  if (- half <=? z) && (z <? half) then z
  else (z + half) mod (2 * half) - half.
Definition i8 (z : Z) : Z := wrap 128 z.
Definition i64 (z : Z) : Z := wrap 9223372036854775808 z.

(** ** Vectors ([list Z]) *)
Definition zsum (l : list Z) : Z := fold_right Z.add 0 l.

Fixpoint dot (x y : list Z) : Z :=
  match x, y with
  | a :: x', b :: y' => a * b + dot x' y'
  | _, _ => 0
  end.

Fixpoint map2 {A B C} (f : A -> B -> C) (x : list A) (y : list B) : list C :=
  match x, y with
  | a :: x', b :: y' => f a b :: map2 f x' y'
  | _, _ => []
  end.

Definition matvec (A : list (list Z)) (x : list Z) : list Z :=
  map (fun row => dot row x) A.

(** [np.where(p(l))[0]] *)
Fixpoint where_from {A} (i : nat) (p : A -> bool) (l : list A) : list nat :=
  match l with
  | [] => []
  | x :: t => if p x then i :: where_from (S i) p t else where_from (S i) p t
  end.
Definition where_ {A} (p : A -> bool) (l : list A) : list nat := where_from 0 p l.

Definition memn (i : nat) (l : list nat) : bool := existsb (Nat.eqb i) l.

(** [np.delete(l, idxs)] for in-range non-negative indices *)
Fixpoint delete_from {A} (i : nat) (idxs : list nat) (l : list A) : list A :=
  match l with
  | [] => []
  | x :: t => if memn i idxs then delete_from (S i) idxs t
              else x :: delete_from (S i) idxs t
  end.
Definition delete {A} (idxs : list nat) (l : list A) : list A := delete_from 0 idxs l.

(** fancy indexing [l[idxs]] for in-range indices *)
Definition pick {A} (d : A) (idxs : list nat) (l : list A) : list A :=
  map (fun i => nth i l d) idxs.

(** [l[i] = x] for an in-range index *)
Fixpoint set_nth {A} (i : nat) (x : A) (l : list A) : list A :=
  match l, i with
  | [], _ => []
  | _ :: t, O => x :: t
  | y :: t, S i' => y :: set_nth i' x t
  end.

(** [np.diff] *)
Fixpoint diff (l : list Z) : list Z :=
  match l with
  | a :: ((b :: _) as t) => (b - a) :: diff t
  | _ => []
  end.

(** [np.array_equal] on vectors and matrices *)
Fixpoint list_eqb {A} (eqb : A -> A -> bool) (x y : list A) : bool :=
  match x, y with
  | [], [] => true
  | a :: x', b :: y' => eqb a b && list_eqb eqb x' y'
  | _, _ => false
  end.
Definition vec_eqb : list Z -> list Z -> bool := list_eqb Z.eqb.

(** Python slice bound [i] on a sequence of length [n]: negative counts from
    the end, out of range is clipped. *)
Definition norm_idx (n : nat) (i : Z) : Z :=
  if i <? 0 then Z.max 0 (i + Z.of_nat n) else Z.min i (Z.of_nat n).

(** [l[lo:hi] = x] for a scalar [x] *)
Definition slice_set (lo hi x : Z) (l : list Z) : list Z :=
  let n := length l in
  let lo' := norm_idx n lo in
  let hi' := norm_idx n hi in
  map2 (fun i y => if (lo' <=? Z.of_nat i) && (Z.of_nat i <? hi') then x else y)
       (seq 0 n) l.

(** Python [range(a, b)] *)
Definition zrange (a b : Z) : list Z :=
  map (fun i => a + Z.of_nat i) (seq 0 (Z.to_nat (b - a))).

(** ** Matrices: column count and rows, so that [R x 0] arrays keep R. *)
Record mat := Mat { mcols : nat; mrows : list (list Z) }.
Definition mnrows (m : mat) : nat := length (mrows m).
Definition column (j : nat) (rows : list (list Z)) : list Z :=
  map (fun row => nth j row 0) rows.
Definition mat_eqb (a b : mat) : bool :=
  Nat.eqb (mcols a) (mcols b) && list_eqb vec_eqb (mrows a) (mrows b).

(** ** Loops
    [iter2 n step s] runs [step] at most [2^n] times, stopping at the first
    [inr]. *)
Fixpoint iter2 {S R} (n : nat) (step : S -> S + R) (s : S) : S + R :=
  match n with
  | O => step s
  | Datatypes.S n' =>
      match iter2 n' step s with
      | inl s' => iter2 n' step s'
      | inr r => inr r
      end
  end.

(** a [while] loop whose body may raise *)
Definition while_ {S A} (n : nat) (step : S -> S + res A) (s : S) : res A :=
  match iter2 n step s with
  | inl _ => Raise OutOfFuel
  | inr r => r
  end.
