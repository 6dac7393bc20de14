(** Model of srg/database/__init__.py and srg/database/__main__.py, on the
    contents of the problem files ([Database]). *)
From Coq Require Import String.
From Verif Require Import Np Model ModelUtil Database.
Open Scope list_scope.
Open Scope Z_scope.

(** a row of a problem file from its packed form (see tools/gen_database.py) *)
Definition unpack (v : nat) (n : Z) : list Z :=
  map (fun j => Z.b2z (Z.testbit n (Z.of_nat (v - 1 - j)))) (seq 0 v).
Definition entry_name (e : (nat * Z * Z * Z) * list (list Z)) : string :=
  let '((v, k, l, u), _) := e in problem_name (Z.of_nat v) k l u.
(** the variable [solutions] of a problem file *)
Definition entry_solutions (e : (nat * Z * Z * Z) * list (list Z)) : list mat :=
  let '((v, k, l, u), ms) := e in map (fun rows => Mat v (map (unpack v) rows)) ms.

(** srg/database/__init__.py:29-32 [list_problems]; the order in which
    [pkgutil] lists the modules is not modelled *)
Definition list_problems : list string := map entry_name database.

(** srg/database/__init__.py:38-42 [get_solutions]; a missing module raises
    ModuleNotFoundError, a subclass of ImportError *)
Definition get_solutions (v k l u : Z) : res (list mat) :=
  match find (fun e => String.eqb (entry_name e) (problem_name v k l u)) database with
  | Some e => Ok (entry_solutions e)
  | None => Raise ImportError
  end.

(** ** srg/database/__main__.py *)

(** what [from srg import name] can find: the submodules of the package
    (srg/__init__.py defines no names) *)
Definition srg_modules : list string :=
  ["__main__"; "bounds"; "database"; "fork"; "gauss_elim"; "partition"; "pprint"; "solver"; "sorter"; "srg";
   "unique"; "utils"]%string.
(** the names of srg/database/__init__.py *)
Definition database_names : list string :=
  ["list_problems"; "extract_vklu"; "get_solutions"; "draw"]%string.
Definition import_from (names : list string) (name : string) : res unit :=
  if existsb (String.eqb name) names then Ok tt else Raise ImportError.

(** srg/database/__main__.py:1-2, the imports made before anything else, for
    the command line [argv]; [rest] stands for everything after them *)
Definition database_main {A} (rest : list string -> res A) (argv : list string) : res A :=
  _ <- mapM (import_from database_names) ["list_problems"; "get_solutions"; "draw"]%string ;;
  _ <- import_from srg_modules "util"%string ;;
  rest argv.
