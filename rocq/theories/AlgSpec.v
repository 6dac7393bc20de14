(** Specification: determinants and spectra of integer matrices. *)
From Verif Require Import Np Spec.

Definition zprod (l : list Z) : Z := fold_right Z.mul 1 l.

(** sign of a sequence of indices: the product of the signs of all
    differences, 0 if an index occurs twice *)
Fixpoint sign (s : list nat) : Z :=
  match s with
  | [] => 1
  | a :: t => zprod (map (fun b => Z.sgn (Z.of_nat b - Z.of_nat a)) t) * sign t
  end.
(** all sequences of [m] indices below [n] *)
Fixpoint sequences (n m : nat) : list (list nat) :=
  match m with
  | O => [[]]
  | S m' => flat_map (fun a => map (cons a) (sequences n m')) (seq 0 n)
  end.
(** Leibniz formula *)
Definition det (n : nat) (M : list (list Z)) : Z :=
  zsum (map (fun s => sign s * zprod (map (fun i => cell M i (nth i s 0%nat)) (seq 0 n))) (sequences n n)).

(** [es] (eigenvalues, each as often as its multiplicity) is the spectrum of
    [M]: there is a basis of eigenvectors (the columns of [P]) with these
    eigenvalues *)
Definition spectrum (n : nat) (M : list (list Z)) (es : list Z) : Prop :=
  length es = n
  /\ exists P, shape n n P /\ det n P <> 0
    /\ forall i j, (i < n)%nat -> (j < n)%nat -> sumn n (fun w => cell M i w * cell P w j) = nth j es 0 * cell P i j.
(** the list with multiplicities written out *)
Definition with_multiplicity (es : list (Z * Z)) : list Z :=
  concat (map (fun em => repeat (fst em) (Z.to_nat (snd em))) es).
(** the matrix [x I - M] *)
Definition char_matrix (n : nat) (M : list (list Z)) (x : Z) : list (list Z) :=
  map (fun i => map (fun j => (if (i =? j)%nat then x else 0) - cell M i j) (seq 0 n)) (seq 0 n).
