(** Model of srg/utils.py, srg/pprint.py [compose] and the names of
    srg/database/__init__.py. *)
From Coq Require Import String Ascii DecimalString DecimalZ.
From Verif Require Import Np Model.
Open Scope list_scope.
Open Scope Z_scope.

(** ** srg/utils.py:34-43 complement *)

(** srg/utils.py:34-35 *)
Definition complement_vklu (v k l u : Z) : Z * Z * Z * Z :=
  (v, v - k - 1, v - 2 - 2 * k + u, v - 2 * k + l).
(** srg/utils.py:37-38 [_invert]: [np.vectorize] refuses empty input *)
Definition invert (M : list (list Z)) : res (list (list Z)) :=
  if (length (concat M) =? 0)%nat then Raise ValueError
  else Ok (map (map (fun t => if t =? 0 then 1 else 0)) M).
(** srg/utils.py:40-43 [complement] of a square matrix *)
Definition complement (M : list (list Z)) : res (list (list Z)) :=
  J <- invert M ;;
  Ok (map2 (fun i row => map2 (fun j x => x - (if Nat.eqb i j then 1 else 0)) (seq 0 (length row)) row)
           (seq 0 (length J)) J).

(** ** srg/utils.py:9-29 eigenvalues.
    Floats are read as exact rationals: [D] is the root of the discriminant
    when that is a perfect square, [int(p / q)] is division rounded towards
    zero. Only the branch [conf != 0] is modelled (in the other one the values
    stay floats; ModelFloat has both). [int(np.sqrt(d))] is [Z.sqrt d]; a negative discriminant
    gives nan, and [int(nan)] raises ValueError; [D = 0] makes [conf / D]
    raise ZeroDivisionError. *)
Definition conference (v k l u : Z) : Z := 2 * k + (v - 1) * (l - u).
Definition eig (v k l u : Z) : res (list (Z * Z)) :=
  let conf := conference v k l u in
  let disc := (l - u) ^ 2 + 4 * (k - u) in
  if disc <? 0 then Raise ValueError
  else
    let D := Z.sqrt disc in
    if D =? 0 then Raise ZeroDivisionError
    else Ok [ (k, 1);
              (Z.quot ((l - u) + D) 2, Z.quot ((v - 1) * D - conf) (2 * D));
              (Z.quot ((l - u) - D) 2, Z.quot ((v - 1) * D + conf) (2 * D)) ].
(** srg/utils.py:24-29 [determinant] (for non-negative multiplicities) *)
Definition determinant (v k l u : Z) : res Z :=
  es <- eig v k l u ;;
  Ok (fold_left (fun prod em => prod * fst em ^ snd em) es 1).

(** ** srg/pprint.py:7-12 [compose]: [reduce] of a non-empty sequence; an
    empty one raises TypeError *)
Definition compose2 {A} (f g : A -> A) : A -> A := fun x => f (g x).
Definition compose {A} (fs : list (A -> A)) : res (A -> A) :=
  match fs with
  | [] => Raise TypeError
  | f :: t => Ok (fold_left compose2 t f)
  end.

(** ** srg/database/__init__.py: names of the problem modules *)
Definition underscore : ascii := "_"%char.
(** [s.split('_')] *)
Fixpoint split (s : string) : list string :=
  match s with
  | EmptyString => [EmptyString]
  | String c t =>
      if Ascii.eqb c underscore then EmptyString :: split t
      else match split t with
           | [] => [String c EmptyString]
           | w :: ws => String c w :: ws
           end
  end.
(** [str(z)] *)
Definition str (z : Z) : string := NilZero.string_of_int (Z.to_int z).
(** [int(s)] for a string of ASCII characters (CPython's [PyLong_FromString]
    with base 10): blanks, a sign, digits with single underscores between
    them, blanks. Python's limit of 4300 digits is not modelled. *)
Definition blank (c : ascii) : bool :=
  let n := nat_of_ascii c in ((9 <=? n) && (n <=? 13) || (n =? 32))%nat.
Definition digit_of (c : ascii) : option Z :=
  let n := nat_of_ascii c in
  if ((48 <=? n) && (n <=? 57))%nat then Some (Z.of_nat n - 48) else None.
Fixpoint all_blank (s : string) : bool :=
  match s with
  | EmptyString => true
  | String c t => if blank c then all_blank t else false
  end.
(** after a digit; [acc] is the value so far *)
Fixpoint more_digits (acc : Z) (s : string) : res Z :=
  match s with
  | EmptyString => Ok acc
  | String c t =>
      match digit_of c with
      | Some d => more_digits (10 * acc + d) t
      | None =>
          if Ascii.eqb c underscore then
            match t with
            | String c' t' => match digit_of c' with
                              | Some d => more_digits (10 * acc + d) t'
                              | None => Raise ValueError
                              end
            | EmptyString => Raise ValueError
            end
          else if all_blank s then Ok acc else Raise ValueError
      end
  end.
Definition digits_first (s : string) : res Z :=
  match s with
  | String c t => match digit_of c with Some d => more_digits d t | None => Raise ValueError end
  | EmptyString => Raise ValueError
  end.
Fixpoint int_of (s : string) : res Z :=
  match s with
  | EmptyString => Raise ValueError
  | String c t =>
      if blank c then int_of t
      else if Ascii.eqb c "-" then z <- digits_first t ;; Ok (- z)
      else if Ascii.eqb c "+" then digits_first t
      else digits_first s
  end.
(** the module name built in [get_solutions] (line 41, without the package) *)
Definition problem_name (v k l u : Z) : string :=
  ("problem_" ++ str v ++ "_" ++ str k ++ "_" ++ str l ++ "_" ++ str u)%string.
(** lines 34-36 [extract_vklu]: the first word is dropped *)
Definition extract_vklu (problem : string) : res (list Z) :=
  mapM int_of (tl (split problem)).
