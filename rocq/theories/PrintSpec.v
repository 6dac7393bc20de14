(** Specification for the printed text. *)
From Coq Require Import String Ascii.
From Verif Require Import Np Spec.
Local Open Scope list_scope.

(** the zeros and ones of a text, in reading order *)
Fixpoint binary_digits (s : string) : list Z :=
  match s with
  | EmptyString => []
  | String c t =>
      if Ascii.eqb c "0"%char then 0 :: binary_digits t
      else if Ascii.eqb c "1"%char then 1 :: binary_digits t
      else binary_digits t
  end.
(** all entries of a list of matrices, row by row *)
Definition entries (ms : list mat) : list Z := concat (map (fun m => concat (mrows m)) ms).
(** among the first or last three of [0 .. v-1] *)
Definition outer (v i : nat) : Prop := (i < 3 \/ v - 3 <= i < v)%nat.

(** ** the layout of a printed matrix *)
Definition eol : string := String (ascii_of_nat 10) EmptyString.
Definition bit_text (a : Z) : string := if (a =? 0)%Z then "0" else "1".
Definition bits_text (row : list Z) : string := String.concat ", " (map bit_text row).
(** at most 22 entries to a line, later lines are indented by 8 *)
Definition row_layout (row : list Z) : string :=
  ("[" ++ (if (List.length row <=? 22)%nat then bits_text row
           else bits_text (firstn 22 row) ++ "," ++ eol ++ "        " ++ bits_text (skipn 22 row)) ++ "]")%string.
(** the first and last three entries only *)
Definition short_row (row : list Z) : string :=
  ("[" ++ bits_text (firstn 3 row) ++ ", ..., " ++ bits_text (skipn (List.length row - 3) row) ++ "]")%string.
Definition layout_rows (v : nat) (M : list (list Z)) : list string :=
  if (v <=? 31)%nat then map row_layout M
  else map short_row (firstn 3 M) ++ ["..."%string] ++ map short_row (skipn (v - 3) M).
(** a [v x v] matrix; the last line takes the dtype if it has room for it *)
Definition layout (v : nat) (M : list (list Z)) : string :=
  ("array([" ++ String.concat ("," ++ eol ++ "       ") (layout_rows v M) ++ "],"
   ++ (if ((19 <=? v) && (v <=? 22))%nat%bool then eol ++ "      " else " ") ++ "dtype=int8)")%string.
