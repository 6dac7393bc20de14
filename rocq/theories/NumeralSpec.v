(** Which strings Python's [int] accepts (ASCII characters). *)
From Coq Require Import String Ascii.
From Verif Require Import Np.
Open Scope list_scope.
Open Scope Z_scope.

Definition decimal (c : ascii) (d : Z) : Prop :=
  In (c, d) [("0", 0); ("1", 1); ("2", 2); ("3", 3); ("4", 4); ("5", 5); ("6", 6); ("7", 7); ("8", 8); ("9", 9)]%char.
(** digits, single underscores between them *)
Inductive whole : string -> Z -> Prop :=
| whole_digit c d : decimal c d -> whole (String c EmptyString) d
| whole_next s z c d : whole s z -> decimal c d -> whole (s ++ String c EmptyString) (10 * z + d)
| whole_under s z c d : whole s z -> decimal c d -> whole (s ++ String "_" (String c EmptyString)) (10 * z + d).
(** tabs, line breaks, spaces *)
Definition white (s : string) : Prop :=
  forall c, In c (list_ascii_of_string s) -> In (nat_of_ascii c) [9; 10; 11; 12; 13; 32]%nat.
Inductive signed : string -> Z -> Prop :=
| signed_none s z : whole s z -> signed s z
| signed_plus s z : whole s z -> signed (String "+" s) z
| signed_minus s z : whole s z -> signed (String "-" s) (- z).
Definition numeral (s : string) (z : Z) : Prop :=
  exists w b w', s = (w ++ b ++ w')%string /\ white w /\ white w' /\ signed b z.
