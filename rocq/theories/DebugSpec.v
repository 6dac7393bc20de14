(** What [Question._invariant_check] (srg/srg.py:234-244) is there to establish. *)
From Verif Require Import Np Model QSpec.

Record consistent (Q : question) : Prop := {
  k_b : forall x, In x (qb Q) -> 0 <= x;
  k_bounds : forall x, In x (qbounds Q) -> 0 <= x;
  k_rows : length (mrows (qA Q)) = length (qb Q);
  k_columns : length (qbounds Q) = mcols (qA Q);
  (** one column for every open bucket *)
  k_open : length (open (qans Q)) = mcols (qA Q);
  (** the buckets begin at 0 *)
  k_start : hd 0 (edges (qans Q)) = 0;
  (** no bucket holds more than its size *)
  k_room : forall i, (i < length (av (qans Q)))%nat -> nth i (av (qans Q)) 0 <= room (qans Q) i;
  (** with nothing left to decide nothing is left to place *)
  k_done : mcols (qA Q) = 0%nat -> forall x, In x (qb Q) -> x = 0 }.
