(** What [python -m srg] writes, also when it ends in an exception and when the
    output is a terminal: srg/__main__.py:12-25, srg/pprint.py:16-22 and, of
    click, [style], [echo], [clear] and [strip_ansi] (click 7 and 8, not on
    Windows). Exceptions are reported on another stream, which is not part of
    the text. *)
From Coq Require Import String Ascii.
From Verif Require Import Np Model ModelSort ModelUtil ModelPrint.
Local Open Scope string_scope.
Local Open Scope list_scope.
Local Open Scope Z_scope.

(** an escape sequence: ESC, a bracket and [s] *)
Definition escape (s : string) : string := String (ascii_of_nat 27) (String "["%char s).
(** click's [strip_ansi]: removes all matches of ESC \[ [;?0-9]* [a-zA-Z]. The
    two character classes are disjoint, so there is nothing to backtrack. *)
Definition char_between (a b : ascii) (c : ascii) : bool :=
  ((nat_of_ascii a <=? nat_of_ascii c) && (nat_of_ascii c <=? nat_of_ascii b))%nat%bool.
Definition is_parameter (c : ascii) : bool :=
  Ascii.eqb c ";"%char || Ascii.eqb c "?"%char || char_between "0"%char "9"%char c.
Definition is_letter (c : ascii) : bool := char_between "a"%char "z"%char c || char_between "A"%char "Z"%char c.
Fixpoint after_parameters (s : string) : option string :=
  match s with
  | EmptyString => None
  | String c t => if is_parameter c then after_parameters t else if is_letter c then Some t else None
  end.
Definition after_sequence (s : string) : option string :=
  match s with
  | String c (String d t) =>
      if Ascii.eqb c (ascii_of_nat 27) && Ascii.eqb d "["%char then after_parameters t else None
  | _ => None
  end.
Fixpoint strip_from (n : nat) (s : string) : string :=
  match n, s with
  | S n', String c t =>
      match after_sequence s with
      | Some t' => strip_from n' t'
      | None => String c (strip_from n' t)
      end
  | _, _ => s
  end.
Definition strip_ansi (s : string) : string := strip_from (String.length s) s.

(** [click.echo]: codes reach a terminal only *)
Definition echo (tty : bool) (s : string) : string := if tty then s else strip_ansi s.
(** srg/pprint.py:16-18 [green], applied to the text of [repr] *)
Definition green (tty : bool) (s : string) : string := echo tty (escape "32m" ++ s ++ escape "0m" ++ newline)%string.
(** srg/pprint.py:22 [clear] does nothing unless the output is a terminal *)
Definition clear (tty : bool) : string := if tty then echo tty (escape "2J" ++ escape "1;1H")%string else EmptyString.

(** srg/__main__.py:13-25: the text written and the exception, if any
    ([NoSolution] does not occur here, see C85) *)
Definition first_line (v k l u : Z) : string :=
  (str v ++ " " ++ str k ++ " " ++ str l ++ " " ++ str u ++ newline)%string.
Definition screen (tty : bool) (argv : list string) : string * option err :=
  match mapM int_of argv with
  | Ok [v; k; l; u] =>
      let begun := (clear tty ++ first_line v k l u)%string in
      match main_output v k l u with
      | Ok ms =>
          ((begun ++ green tty "'*********** answers *************'"
            ++ fold_right (fun m t => green tty (array_repr m) ++ t) EmptyString ms)%string, None)
      | Raise e => (begun, Some e)
      | NoSolution => (begun, Some AssertionError)
      end
  | Ok _ => (clear tty, Some ValueError)
  | Raise e => (clear tty, Some e)
  | NoSolution => (clear tty, Some AssertionError)
  end.
