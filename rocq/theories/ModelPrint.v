(** Model of the text [python -m srg v k l u] writes: srg/__main__.py:12-24
    and srg/pprint.py:16-18.

    The text is the one written to a file or pipe: to a terminal [click] adds
    colour codes around each answer and clears the screen first. The layout of
    [repr] of an array is numpy's (numpy/core/arrayprint.py, numpy 1.14 or
    later) with its default print options, which the project nowhere changes:
    linewidth 75, threshold 1000, edgeitems 3. Entries are 0 or 1 (one
    character each), dtype is int8. numpy 2.2 also writes [shape=] when it
    summarises an array; that is left out. *)
From Coq Require Import String Ascii.
From Verif Require Import Np Model ModelSort ModelUtil.
Local Open Scope string_scope.
Local Open Scope list_scope.
Local Open Scope Z_scope.

Definition newline : string := String (ascii_of_nat 10) EmptyString.
Fixpoint spaces (n : nat) : string :=
  match n with O => EmptyString | S n' => String " "%char (spaces n') end.
(** [s.rstrip()] (of the white space characters only blanks occur) *)
Fixpoint rstrip (s : string) : string :=
  match s with
  | EmptyString => EmptyString
  | String c t =>
      match rstrip t with
      | EmptyString => if Ascii.eqb c " "%char then EmptyString else String c EmptyString
      | t' => String c t'
      end
  end.
(** [s[n:]] *)
Fixpoint drop (n : nat) (s : string) : string :=
  match n, s with
  | S n', String _ t => drop n' t
  | _, _ => s
  end.
(** length of the part after the last line break *)
Fixpoint last_line (n : nat) (s : string) : nat :=
  match s with
  | EmptyString => n
  | String c t => last_line (if Ascii.eqb c (ascii_of_nat 10) then 0 else S n)%nat t
  end.

(** numpy/core/arrayprint.py [_extendLine] *)
Definition extend_line (st : string * string) (word : string) (width : nat) (indent : string) : string * string :=
  let '(s, line) := st in
  if ((width <? String.length line + String.length word) && (String.length indent <? String.length line))%nat%bool
  then ((s ++ rstrip line ++ newline)%string, (indent ++ word)%string)
  else (s, (line ++ word)%string).
(** [_formatArray], one row; the separator is [', '] *)
Fixpoint row_words (st : string * string) (ws : list string) (width : nat) (indent : string) : string :=
  match ws with
  | [] => (fst st ++ snd st)%string
  | [w] => let '(s, line) := extend_line st w width indent in (s ++ line)%string
  | w :: ws' => let '(s, line) := extend_line st w width indent in row_words (s, (line ++ ", ")%string) ws' width indent
  end.
Definition digit (a : Z) : string := if a =? 0 then "0"%string else "1"%string.
(** the first and last three items, or all *)
Definition outer_items (summary : bool) (l : list string) : list string :=
  if (summary && (6 <? List.length l)%nat)%bool
  then firstn 3 l ++ ["..."%string] ++ skipn (List.length l - 3) l
  else l.
(** a row stands 8 columns to the right; of the 75 columns one is kept for
    each closing bracket and one for the comma *)
Definition format_row (summary : bool) (row : list Z) : string :=
  let indent := spaces 8 in
  ("[" ++ drop 8 (row_words (EmptyString, indent) (outer_items summary (map digit row)) 72 indent) ++ "]")%string.
Definition format_matrix (summary : bool) (rows : list (list Z)) : string :=
  let indent := spaces 7 in
  ("[" ++ drop 7 (String.concat ("," ++ newline)
                   (map (fun x => indent ++ x)%string (outer_items summary (map (format_row summary) rows)))) ++ "]")%string.
(** [repr] of an int8 array that is not empty *)
Definition array_repr (m : mat) : string :=
  let summary := (1000 <? Z.of_nat (mnrows m) * Z.of_nat (mcols m)) in
  let s := ("array(" ++ format_matrix summary (mrows m) ++ ",")%string in
  let dtype := "dtype=int8)"%string in
  if (75 <? last_line 0 s + String.length dtype + 1)%nat
  then (s ++ newline ++ spaces 6 ++ dtype)%string
  else (s ++ " " ++ dtype)%string.

(** srg/__main__.py:15-16, 22-24 and srg/pprint.py:16: [repr] of the heading
    and of every matrix, each followed by a line break *)
Definition heading (v k l u : Z) : string :=
  (str v ++ " " ++ str k ++ " " ++ str l ++ " " ++ str u ++ newline
   ++ "'*********** answers *************'" ++ newline)%string.
Definition answers_text (ms : list mat) : string :=
  fold_right (fun m t => array_repr m ++ newline ++ t)%string EmptyString ms.
Definition main_text (v k l u : Z) : res string :=
  ms <- main_output v k l u ;; Ok (heading v k l u ++ answers_text ms)%string.
(** srg/__main__.py:15: the four arguments; [v, k, l, u = ...] raises
    ValueError for any other number of them *)
Definition main_program (argv : list string) : res string :=
  match mapM int_of argv with
  | Ok [v; k; l; u] => main_text v k l u
  | Ok _ => Raise ValueError
  | NoSolution => NoSolution
  | Raise e => Raise e
  end.
