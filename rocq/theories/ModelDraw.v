(** Model of srg/database/__init__.py:45-69 [draw]. A picture is what is handed
    to networkx and matplotlib: file name, vertices, and the pairs given to
    [add_edge], in this order. The layout on the page is not modelled. *)
From Coq Require Import String.
From Verif Require Import Np Model ModelUtil Database ModelDb.
Open Scope list_scope.
Open Scope Z_scope.

Record picture := Pic { pic_name : string; pic_nodes : list nat; pic_edges : list (nat * nat) }.

(** line 67 *)
Definition png_name (v k l u : Z) (i : nat) : string :=
  ("srg_" ++ str v ++ "_" ++ str k ++ "_" ++ str l ++ "_" ++ str u ++ "_" ++ str (Z.of_nat i) ++ ".png")%string.
(** line 61: [zip( *matrix.nonzero())], row by row *)
Definition nonzero (m : mat) : list (nat * nat) :=
  concat (map2 (fun r row => map (fun c => (r, c)) (where_ (fun x => negb (x =? 0)) row)) (seq 0 (mnrows m)) (mrows m)).
Definition draw (v k l u : Z) : res (list picture) :=
  matrices <- get_solutions v k l u ;;
  Ok (map2 (fun i matrix => Pic (png_name v k l u i) (seq 0 (Z.to_nat v)) (nonzero matrix)) (seq 0 (length matrices)) matrices).
