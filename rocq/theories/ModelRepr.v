(** The text of questions and answers: srg/srg.py:57-58, 109-135, what
    [utils.debug] writes (srg/utils.py:46-74) and what the self tests of
    srg/srg.py and srg/unique.py write.

    The layout of [str] and [repr] of an integer array is numpy's
    (numpy/core/arrayprint.py, numpy 1.14 or later) with the default print
    options: linewidth 75, threshold 1000, edgeitems 3. The values of an answer
    are int8 (srg/srg.py:32; [np.delete] and [copy] keep that), its locations
    are [np.arange], int64 as on Linux. *)
From Coq Require Import String Ascii.
From Verif Require Import Np ModelGauss Model ModelSort ModelUtil ModelPrint ModelScreen ModelDebug ModelSelf.
Local Open Scope string_scope.
Local Open Scope list_scope.
Local Open Scope Z_scope.

(** numpy's [IntegerFormat]: all entries shown are as wide as the wider of the
    greatest and the least *)
Definition entry_width (l : list Z) : nat :=
  Nat.max (String.length (str (fold_right Z.max (hd 0 l) l))) (String.length (str (fold_right Z.min (hd 0 l) l))).
Definition pad (w : nat) (s : string) : string := (spaces (w - String.length s) ++ s)%string.
(** [_leading_trailing], one axis: what is shown *)
Definition edge {A} (summary : bool) (l : list A) : list A :=
  if (summary && (6 <? List.length l)%nat)%bool then firstn 3 l ++ skipn (List.length l - 3) l else l.

(** [_formatArray], the innermost axis, with any separator
    ([ModelPrint.row_words] is the case [', ']) *)
Fixpoint words (sep : string) (st : string * string) (ws : list string) (width : nat) (indent : string) : string :=
  match ws with
  | [] => (fst st ++ snd st)%string
  | [w] => let '(s, line) := extend_line st w width indent in (s ++ line)%string
  | w :: ws' => let '(s, line) := extend_line st w width indent in words sep (s, (line ++ sep)%string) ws' width indent
  end.
(** one row whose entries are [w] wide, [n] columns to the right *)
Definition row_text (sep : string) (width n w : nat) (summary : bool) (l : list Z) : string :=
  ("[" ++ drop n (words sep (EmptyString, spaces n) (outer_items summary (map (fun a => pad w (str a)) l)) width (spaces n)) ++ "]")%string.
(** [array2string] of an array with one axis *)
Definition vector_text (sep : string) (width n : nat) (l : list Z) : string :=
  match l with
  | [] => "[]"
  | _ =>
      let summary := (1000 <? Z.of_nat (List.length l)) in
      row_text sep width n (entry_width (edge summary l)) summary l
  end.
(** [array2string] of an array with two axes; [rowsep] is the separator
    without trailing blanks *)
Definition matrix_text (sep rowsep : string) (width n : nat) (m : mat) : string :=
  if (mnrows m * mcols m =? 0)%nat then "[]"
  else
    let summary := (1000 <? Z.of_nat (mnrows m) * Z.of_nat (mcols m)) in
    let w := entry_width (concat (map (edge summary) (edge summary (mrows m)))) in
    ("[" ++ drop n (String.concat (rowsep ++ newline)
                     (map (fun x => spaces n ++ x)%string
                       (outer_items summary (map (row_text sep width (S n) w summary) (mrows m))))) ++ "]")%string.

(** [str] of an array: blanks between the entries, lines of 75 columns, one of
    them kept for each closing bracket *)
Definition vector_str (l : list Z) : string := vector_text " " 74 1 l.
Definition matrix_str (m : mat) : string := matrix_text " " "" 73 1 m.
(** [array_repr]: the dtype goes to a new line if it does not fit *)
Definition with_dtype (s dtype : string) : string :=
  if (75 <? last_line 0 s + String.length dtype + 1)%nat
  then (s ++ newline ++ spaces 6 ++ dtype)%string
  else (s ++ " " ++ dtype)%string.
Definition vector_repr_int8 (l : list Z) : string :=
  with_dtype ("array(" ++ vector_text ", " 73 7 l ++ ",")%string "dtype=int8)".
(** int64 is the default: not shown unless the array is empty *)
Definition vector_repr_int64 (l : list Z) : string :=
  match l with
  | [] => with_dtype ("array(" ++ vector_text ", " 73 7 l ++ ",")%string "dtype=int64)"
  | _ => ("array(" ++ vector_text ", " 73 7 l ++ ")")%string
  end.
(** [repr] of an int8 matrix that is not empty, any entries *)
Definition matrix_repr_int8 (m : mat) : string :=
  with_dtype ("array(" ++ matrix_text ", " "," 72 7 m ++ ",")%string "dtype=int8)".

(** srg/srg.py:57-58 [Answer.__repr__] *)
Definition answer_repr (a : answer) : string :=
  ("Answer(value=" ++ vector_repr_int8 (av a) ++ ", " ++ newline
   ++ "    location=" ++ vector_repr_int64 (aloc a) ++ ", len=" ++ str (alen a) ++ ")")%string.
Definition tab : string := String (ascii_of_nat 9) EmptyString.
(** srg/srg.py:109-135 [Question.__repr__], which is also its [__str__] *)
Definition question_marks (n : nat) : string := String.concat " " (repeat "?" n).
Definition question_repr (Q : question) : string :=
  let R := str (Z.of_nat (mnrows (qA Q))) in
  let C := str (Z.of_nat (mcols (qA Q))) in
  ("b" ++ tab ++ "A_(" ++ R ++ "x" ++ C ++ ")" ++ newline
   ++ String.concat "" (map (fun ba => str (fst ba) ++ tab ++ vector_str (snd ba) ++ newline)%string
                            (combine (qb Q) (mrows (qA Q))))
   ++ "x=" ++ tab ++ "[" ++ question_marks (mcols (qA Q)) ++ "]_(" ++ C ++ "x1)" ++ tab ++ "quota=sum(x)=" ++ str (qquota Q) ++ newline
   ++ "bnd" ++ tab ++ vector_str (qbounds Q) ++ newline
   ++ answer_repr (qans Q))%string.

(** srg/pprint.py:19-20 *)
Definition blue (tty : bool) (s : string) : string := echo tty (escape "34m" ++ s ++ escape "0m" ++ newline)%string.
Definition red (tty : bool) (s : string) : string := echo tty (escape "31m" ++ s ++ escape "0m" ++ newline)%string.
(** [repr] of a text without quotes, backslashes and control characters *)
Definition quoted (s : string) : string := ("'" ++ s ++ "'")%string.
(** srg/utils.py:46-74 [debug] with its text: what is written and the result.
    [name] is [func.__name__]. *)
Definition debug_text (tty : bool) (name : string) (f : question -> res question) (Q : question) : string * res question :=
  match question_copy Q with
  | NoSolution => (EmptyString, NoSolution)
  | Raise e => (EmptyString, Raise e)
  | Ok before =>
      match f Q with
      | NoSolution => (EmptyString, NoSolution)
      | Raise e => (EmptyString, Raise e)
      | Ok Q' =>
          let step :=
            if question_eqb Q' before then blue tty (quoted ("performing " ++ name ++ ". No change"))
            else (question_repr before ++ newline
                  ++ green tty (quoted ("performing " ++ name ++ ". reduce to"))
                  ++ question_repr Q' ++ newline)%string in
          match invariant_check Q' with
          | Ok _ => (step, Ok Q')
          | NoSolution => (step, NoSolution)
          | Raise AssertionError =>
              ((step ++ question_repr before ++ newline
                ++ red tty (quoted ("performing " ++ name ++ ". AssertionError!"))
                ++ question_repr Q' ++ newline ++ newline)%string, Raise AssertionError)
          | Raise e => (step, Raise e)
          end
      end
  end.

(** srg/srg.py:275-285: the text *)
Definition self_srg_text : res string :=
  r <- self_srg ;;
  let (s, q) := r in
  Ok ("matrix form" ++ newline ++ matrix_str s ++ newline
      ++ "transform into problem space" ++ newline ++ question_repr q ++ newline)%string.
(** srg/unique.py:47-61: the text *)
Definition self_unique_text : res string :=
  r <- self_unique ;;
  let '(A, bnds, locs) := r in
  Ok (matrix_str A ++ newline ++ "bounds " ++ vector_str bnds ++ newline
      ++ "unique_loc " ++ vector_str (map Z.of_nat locs) ++ newline
      ++ matrix_str (unique_expand A bnds) ++ newline)%string.
