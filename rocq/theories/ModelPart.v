(** * The generators [partition.enum] and [fork.enum] value by value
    [ModelGauss] gives their values as lists; see [ModelGen] for [next]. *)
From Coq Require Import ZArith List Bool.
From Verif Require Import Np ModelGauss Model ModelGen.
Import ListNotations.
Local Open Scope Z_scope.

(** srg/partition.py:4-22 [enum]. [PartAmong s v vs others inner] waits at the
    [yield] of line 18: [inner] is the generator [enum(s - v, others)] of line 17,
    [vs] are the values of [range] that are still to come. [PartEnded] has
    returned or raised. (The generator that waits at line 22 does nothing more, so
    it is [PartEnded] as well.) *)
Inductive parting :=
| PartBegin (s : Z) (bounds : list Z)
| PartAmong (s v : Z) (vs others : list Z) (inner : parting)
| PartEnded.

(** srg/partition.py:14-18, [begin] is the first [next] of [enum(rem, others)] *)
Fixpoint part_loop (begin : Z -> event (list Z) * parting) (s : Z) (others vs : list Z)
  : event (list Z) * parting :=
  match vs with
  | [] => (Stopped, PartEnded)
  | v :: vs' =>
      let (e, inner) := begin (s - v) in
      match e with
      | Yielded t => (Yielded (v :: t), PartAmong s v vs' others inner)
      | Stopped => part_loop begin s others vs'
      | Raised e => (Raised e, PartEnded)
      | RaisedNoSolution => (RaisedNoSolution, PartEnded)
      end
  end.
(** srg/partition.py:4-22, the first [next]; the assertions of lines 5 and 8 are
    in the body of the generator, so this is where they are checked. *)
Fixpoint part_begin (bounds : list Z) (s : Z) : event (list Z) * parting :=
  if s <? 0 then (Raised AssertionError, PartEnded)
  else
    match bounds with
    | [] => (Raised AssertionError, PartEnded)
    | [bound] => if s <=? bound then (Yielded [s], PartEnded) else (Stopped, PartEnded)
    | bound :: others => part_loop (part_begin others) s others (zrange 0 (Z.min bound s + 1))
    end.
Fixpoint part_next (g : parting) : event (list Z) * parting :=
  match g with
  | PartBegin s bounds => part_begin bounds s
  | PartAmong s v vs others inner =>
      let (e, inner') := part_next inner in
      match e with
      | Yielded t => (Yielded (v :: t), PartAmong s v vs others inner')
      | Stopped => part_loop (part_begin others) s others vs
      | Raised e => (Raised e, PartEnded)
      | RaisedNoSolution => (RaisedNoSolution, PartEnded)
      end
  | PartEnded => (Stopped, PartEnded)
  end.

(** srg/fork.py:18-24 [enum]; [_pop_ele] (lines 12-15) raises IndexError at the
    first [next]. [loc] is not negative, as np.argmin returns it. *)
Inductive usage :=
| UseBegin (quota : Z) (bounds : list Z) (loc : nat)
| UseAmong (quota : Z) (rest : list Z)
| UseEnded.
Definition use_among (quota : Z) (vals : list Z) : event (Z * Z) * usage :=
  match vals with
  | [] => (Stopped, UseEnded)
  | q :: rest => (Yielded (q, quota - q), UseAmong quota rest)
  end.
Definition use_next (g : usage) : event (Z * Z) * usage :=
  match g with
  | UseBegin quota bounds loc =>
      match nth_error bounds loc with
      | None => (Raised IndexError, UseEnded)
      | Some m => use_among quota (zrange (Z.max 0 (quota - zsum (delete [loc] bounds))) (m + 1))
      end
  | UseAmong quota rest => use_among quota rest
  | UseEnded => (Stopped, UseEnded)
  end.
