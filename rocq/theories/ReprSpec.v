(** Reading the numbers in a text. *)
From Coq Require Import String Ascii.
From Verif Require Import Np Model QSpec NumeralSpec.
Local Open Scope list_scope.
Local Open Scope Z_scope.

(** the value of a digit *)
Definition digit_value (c : ascii) : option Z :=
  let n := nat_of_ascii c in
  if ((48 <=? n) && (n <=? 57))%nat%bool then Some (Z.of_nat n - 48) else None.
(** The numbers of a text from left to right: the longest runs of digits, with
    the sign in front. [cur] is the number being read: its sign and value. *)
Definition finish (cur : option (bool * Z)) : list Z :=
  match cur with
  | None => []
  | Some (neg, z) => [if (neg : bool) then - z else z]
  end.
Fixpoint numbers_from (cur : option (bool * Z)) (s : string) : list Z :=
  match s with
  | EmptyString => finish cur
  | String c t =>
      match digit_value c with
      | Some d => numbers_from (match cur with
                                | None => Some (false, d)
                                | Some (neg, z) => Some (neg, 10 * z + d)
                                end) t
      | None => finish cur ++ numbers_from (if Ascii.eqb c "-"%char then Some (true, 0) else None) t
      end
  end.
Definition numbers (s : string) : list Z := numbers_from None s.

(** a question with arrays of matching lengths, none of more than 1000 entries *)
Record legible (Q : question) : Prop := {
  g_rows : forall r, In r (mrows (qA Q)) -> length r = mcols (qA Q);
  g_b : length (qb Q) = length (mrows (qA Q));
  g_bounds : length (qbounds Q) = mcols (qA Q);
  g_loc : length (aloc (qans Q)) = length (av (qans Q));
  g_columns : Z.of_nat (mcols (qA Q)) <= 1000;
  g_buckets : Z.of_nat (length (av (qans Q))) <= 1000 }.
(** what the text of a question contains: the shape, the equations, [(Cx1)],
    the quota, the bounds, the values, int8, the locations (of type int64 if
    there are none) and the length *)
Definition question_numbers (Q : question) : list Z :=
  let C := Z.of_nat (mcols (qA Q)) in
  [Z.of_nat (length (mrows (qA Q))); C]
  ++ concat (map (fun ba => fst ba :: snd ba) (combine (qb Q) (mrows (qA Q))))
  ++ [C; 1; qquota Q] ++ qbounds Q
  ++ av (qans Q) ++ [8] ++ aloc (qans Q) ++ (if (length (aloc (qans Q)) =? 0)%nat then [64] else []) ++ [alen (qans Q)].

(** a text without escape characters *)
Definition no_escape (s : string) : Prop := ~ In (ascii_of_nat 27) (list_ascii_of_string s).
(** a line of [debug] *)
Definition debug_line (name what : string) : string :=
  ("'performing " ++ name ++ ". " ++ what ++ "'" ++ String (ascii_of_nat 10) EmptyString)%string.
(** the lines of a text *)
Fixpoint lines (s : string) : list string :=
  match s with
  | EmptyString => [EmptyString]
  | String c t =>
      if Ascii.eqb c (ascii_of_nat 10) then EmptyString :: lines t
      else match lines t with
           | x :: r => String c x :: r
           | [] => [String c EmptyString]
           end
  end.
