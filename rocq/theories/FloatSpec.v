(** Specification: double precision numbers and what their operations promise.
    The exponent is unbounded: overflow, subnormal numbers and signed zeros are
    not represented. *)
From Coq Require Import QArith Qabs.
From Verif Require Import Np.
Local Open Scope Q_scope.

(** [q] is an integer below 2^53 times a power of two *)
Definition is_double (q : Q) : Prop :=
  exists m e : Z, (Z.abs m < 2 ^ 53)%Z /\ q == inject_Z m * 2 ^ e.

(** rounding in any direction: the result is a double and no double lies
    strictly between it and the exact value *)
Definition faithful (rnd : Q -> Q) : Prop :=
  forall q, is_double (rnd q)
    /\ forall d, is_double d -> (d <= q -> d <= rnd q) /\ (q <= d -> rnd q <= d).
(** the same for the square root of a double *)
Definition faithful_sqrt (sqrt : Q -> Q) : Prop :=
  forall x, is_double x -> 0 <= x -> is_double (sqrt x) /\ 0 <= sqrt x
    /\ forall d, is_double d -> 0 <= d -> (d * d <= x -> d <= sqrt x) /\ (x <= d * d -> sqrt x <= d).
(** a power function that returns doubles *)
Definition double_pow (pow : Q -> Z -> Q) : Prop := forall q m, is_double (pow q m).
(** and one with a relative error of at most 2^-52 (so one whose error is at most one unit in the
    last place) for exponents that are not negative *)
Definition accurate_pow (pow : Q -> Z -> Q) : Prop :=
  forall q m, is_double q -> (0 <= m)%Z -> Qabs (pow q m - q ^ m) <= 2 ^ (-52) * Qabs (q ^ m).
