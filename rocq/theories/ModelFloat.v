(** Model of [eig] and [determinant] (srg/utils.py:9-29) with Python's and
    numpy's numbers: ints are unbounded, floats are doubles. The operations of
    the floating point unit are parameters; the theorems assume only the
    contracts of FloatSpec. Not modelled: overflow to infinity, subnormal
    numbers, numpy's warnings, and [np.sqrt] of integers beyond int64 (which
    raises). *)
From Coq Require Import QArith Qround.
From Verif Require Import Np ModelUtil.
Local Open Scope Z_scope.

(** a Python int, a double, or nan *)
Inductive num := PInt (z : Z) | PFloat (q : Q) | PNan.

(** Python's [int(q)]: towards zero *)
Definition truncate (q : Q) : Z := if Qle_bool 0 q then Qfloor q else - Qfloor (- q).
(** Python's [round(q)]: to the nearest integer, ties to even *)
Definition round_half_even (q : Q) : Z :=
  let f := Qfloor q in
  match Qcompare (q - inject_Z f) (1 # 2) with
  | Lt => f
  | Gt => f + 1
  | Eq => if Z.even f then f else f + 1
  end.

Section Double.
  (** rounding of an exact result, [np.sqrt], [float ** int] *)
  Variables (rnd sqrt : Q -> Q) (pow : Q -> Z -> Q).

  (** an int meets a float: it is converted *)
  Definition to_float (x : num) : option Q :=
    match x with PInt z => Some (rnd (inject_Z z)) | PFloat q => Some q | PNan => None end.
  Definition float_op (op : Q -> Q -> Q) (x y : num) : num :=
    match to_float x, to_float y with Some a, Some b => PFloat (rnd (op a b)) | _, _ => PNan end.
  Definition num_add (x y : num) : num :=
    match x, y with PInt a, PInt b => PInt (a + b) | _, _ => float_op Qplus x y end.
  Definition num_sub (x y : num) : num :=
    match x, y with PInt a, PInt b => PInt (a - b) | _, _ => float_op Qminus x y end.
  Definition num_mul (x y : num) : num :=
    match x, y with PInt a, PInt b => PInt (a * b) | _, _ => float_op Qmult x y end.
  (** [x / y]: two ints give the rounded quotient; a numpy float 0 as divisor
      gives nan (only 0 is divided by it here) *)
  Definition num_div (x y : num) : res num :=
    match x, y with
    | PInt a, PInt b => if b =? 0 then Raise ZeroDivisionError else Ok (PFloat (rnd (inject_Z a / inject_Z b)))
    | _, PFloat q => if Qeq_bool q 0 then Ok PNan else Ok (float_op Qdiv x y)
    | _, _ => Ok (float_op Qdiv x y)
    end.
  (** [int(x)] *)
  Definition num_int (x : num) : res Z :=
    match x with PInt z => Ok z | PFloat q => Ok (truncate q) | PNan => Raise ValueError end.
  (** [e ** m] *)
  Definition num_pow (e : num) (m : Z) : res num :=
    match e with
    | PInt a =>
        if 0 <=? m then Ok (PInt (a ^ m))
        else if a =? 0 then Raise ZeroDivisionError else Ok (PFloat (pow (rnd (inject_Z a)) m))
    | PFloat q => Ok (PFloat (pow q m))
    | PNan => Ok PNan
    end.
  (** [int(round(x))] *)
  Definition num_round (x : num) : res Z :=
    match x with PInt z => Ok z | PFloat q => Ok (round_half_even q) | PNan => Raise ValueError end.

  (** srg/utils.py:9-19 *)
  Definition eig_float (v k l u : Z) : res (list (num * Z)) :=
    let conf := conference v k l u in
    let disc := (l - u) ^ 2 + 4 * (k - u) in
    let D0 := if disc <? 0 then PNan else PFloat (sqrt (rnd (inject_Z disc))) in
    D <- (if conf =? 0 then Ok D0 else z <- num_int D0 ;; Ok (PInt z)) ;;
    x1 <- num_div (num_add (PInt (l - u)) D) (PInt 2) ;;
    x2 <- num_div (num_sub (PInt (l - u)) D) (PInt 2) ;;
    e1 <- (if conf =? 0 then Ok x1 else z <- num_int x1 ;; Ok (PInt z)) ;;
    e2 <- (if conf =? 0 then Ok x2 else z <- num_int x2 ;; Ok (PInt z)) ;;
    q1 <- num_div (PInt conf) D ;;
    y1 <- num_div (num_sub (PInt (v - 1)) q1) (PInt 2) ;;
    m1 <- num_int y1 ;;
    q2 <- num_div (PInt conf) D ;;
    y2 <- num_div (num_add (PInt (v - 1)) q2) (PInt 2) ;;
    m2 <- num_int y2 ;;
    Ok [ (PInt k, 1); (e1, m1); (e2, m2) ].
  (** srg/utils.py:24-29 *)
  Definition determinant_float (v k l u : Z) : res Z :=
    es <- eig_float v k l u ;;
    p <- fold_left (fun p em => prod <- p ;; x <- num_pow (fst em) (snd em) ;; Ok (num_mul prod x)) es (Ok (PInt 1)) ;;
    num_round p.
End Double.
