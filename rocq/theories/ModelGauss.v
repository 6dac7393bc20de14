(** Model of srg/gauss_elim.py, srg/bounds.py, srg/fork.py, srg/partition.py,
    srg/unique.py. *)
From Verif Require Import Np.

(** ** Bit packing.
    srg/gauss_elim.py:90-93 (rows) and srg/unique.py:16-19 (columns):
    [_sum = last; for c in reversed(range(n-1)): _sum += x[c] << (n-1-c)],
    in int64 with wrap-around (a shift by 64 or more gives 0 in numpy, which
    is what wrapping gives). *)
Fixpoint pack (x : list Z) : Z :=
  match x with
  | [] => 0
  | a :: t => i64 (pack t + i64 (Z.shiftl a (Z.of_nat (length t))))
  end.

(** A heap entry [(key, original row index, b value)]. *)
Definition entry := (Z * Z * Z)%type.
Definition ekey (e : entry) : Z := fst (fst e).
Definition eidx (e : entry) : Z := snd (fst e).
Definition eval_ (e : entry) : Z := snd e.

(** Python tuple comparison [x <= y] on entries. *)
Definition entry_leb (x y : entry) : bool :=
  (ekey x <? ekey y)
  || ((ekey x =? ekey y)
      && ((eidx x <? eidx y)
          || ((eidx x =? eidx y) && (eval_ x <=? eval_ y)))).

(** [list.sort()] (stable). *)
Fixpoint insert_e (e : entry) (l : list entry) : list entry :=
  match l with
  | [] => [e]
  | x :: t => if entry_leb e x then e :: l else x :: insert_e e t
  end.
Definition sort_e (l : list entry) : list entry := fold_right insert_e [] l.

(** [heapq.merge] of two sorted inputs, the left one first on ties. *)
Fixpoint merge_e (a : list entry) : list entry -> list entry :=
  fix merge_a (b : list entry) : list entry :=
    match a, b with
    | [], _ => b
    | _, [] => a
    | x :: a', y :: b' =>
        if entry_leb x y then x :: merge_e a' b else y :: merge_a b'
    end.

(** srg/gauss_elim.py:8-11 [_remove_zerokeys] *)
Definition remove_zerokeys (h : list entry) : list entry :=
  filter (fun e => 0 <? ekey e) h.

(** srg/gauss_elim.py:29-32: the test and the new entry. *)
Definition reduces (m e : entry) : bool :=
  (Z.land (ekey m) (ekey e) =? ekey m) && (eval_ m <=? eval_ e).
Definition sub_entry (m e : entry) : entry :=
  (ekey e - ekey m, eidx e, eval_ e - eval_ m).

(** srg/gauss_elim.py:14-42 [_gauss_elim]. [hd] is a heap, represented by the
    sorted list of its contents, so [heappop] takes the head. Returns the new
    heap and the "reducible" flag. *)
Definition gauss_elim (hd : list entry) : res (bool * list entry) :=
  match hd with
  | [] => Raise IndexError
  | m :: rest =>
      _ <- assert_ (0 <? ekey m) ;;
      let reducible := map (sub_entry m) (filter (reduces m) rest) in
      let same := filter (fun e => negb (reduces m e)) rest in
      match reducible with
      | [] => Ok (false, merge_e [m] same)
      | _ => Ok (true, merge_e [m] (merge_e (remove_zerokeys reducible) same))
      end
  end.

(** srg/gauss_elim.py:57-66, one turn of the [while hd] loop of [_elim] on
    the pair [(hs, hd)]. *)
Definition elim_step (s : list entry * list entry)
  : (list entry * list entry) + res (list entry) :=
  let (hs, hd) := s in
  match hd with
  | [] => inr (Ok hs)                                  (* 68: hd += hs *)
  | _ =>
      match gauss_elim hd with
      | Ok (true, hd') => inl ([], merge_e hs hd')      (* 60-63 *)
      | Ok (false, hd') =>                             (* 65-66 *)
          match hd' with
          | m :: t => inl (hs ++ [m], t)
          | [] => inr (Raise IndexError)
          end
      | NoSolution => inr NoSolution
      | Raise e => inr (Raise e)
      end
  end.

(** srg/gauss_elim.py:45-68 [_elim]; [n] is loop fuel (2^n turns). *)
Definition elim_core (n : nat) (hd : list entry) : res (list entry) :=
  let hd := remove_zerokeys hd in
  if (length hd <=? 1)%nat then Ok hd
  else while_ n elim_step ([], sort_e hd).

(** srg/gauss_elim.py:71-95 [_encode] *)
Definition encode (A : mat) (b : list Z) : res (list entry) :=
  _ <- assert_ (Nat.eqb (length b) (mnrows A)) ;;
  if Nat.eqb (mcols A) 0 then Raise IndexError
  else Ok (map2 (fun ki v => (fst ki, snd ki, v))
             (map2 pair (map pack (mrows A))
                        (map Z.of_nat (seq 0 (mnrows A)))) b).

(** srg/gauss_elim.py:100-106 [_dec2bin]: binary digits, most significant
    first. (For a negative argument the Python loop does not end; keys are
    positive here, see [remove_zerokeys].) *)
Fixpoint pos_bits (p : positive) : list Z :=
  match p with
  | xH => [1]
  | xO q => pos_bits q ++ [0]
  | xI q => pos_bits q ++ [1]
  end.
Definition dec2bin (a : Z) : list Z :=
  match a with
  | Zpos p => pos_bits p
  | _ => []
  end.

(** srg/gauss_elim.py:129-130: right-aligned copy into a zero row. *)
Definition pad_left (n : nat) (x : list Z) : list Z :=
  repeat 0 (n - length x) ++ x.

Definition max_len (l : list (list Z)) : nat :=
  fold_right Nat.max 0%nat (map (@length Z) l).

(** srg/gauss_elim.py:109-133 [_decode]; [next] on the empty [zip] raises
    StopIteration; [srg.array(b)] stores int8. *)
Definition decode (hd : list entry) : res (mat * list Z) :=
  match hd with
  | [] => Raise StopIteration
  | _ =>
      let bits := map (fun e => dec2bin (ekey e)) hd in
      let C := max_len bits in
      Ok (Mat C (map (pad_left C) bits), map (fun e => i8 (eval_ e)) hd)
  end.

(** srg/gauss_elim.py:142-145 [elim]. Fuel: see [elim_fuel_ok]. *)
Definition elim (A : mat) (b : list Z) : res (mat * list Z) :=
  hd <- encode A b ;;
  hd' <- elim_core (2 * mnrows A + mcols A + 1) hd ;;
  decode hd'.

(** srg/gauss_elim.py:136-139 [sort] is never called; see [gauss_sort] in ModelSelf.v. *)

(** ** srg/bounds.py *)

(** srg/bounds.py:16-17: one row. *)
Definition tighten_row (row : list Z) (bv : Z) (bounds : list Z) : list Z :=
  map2 (fun a bd => if a =? 0 then bd else Z.min bd bv) row bounds.
(** srg/bounds.py:8-17 [lower_upper_bound] (the updated [bounds]). *)
Fixpoint lower_upper_bound (A : list (list Z)) (b : list Z) (bounds : list Z)
  : list Z :=
  match A, b with
  | row :: A', bv :: b' => lower_upper_bound A' b' (tighten_row row bv bounds)
  | _, _ => bounds
  end.

(** srg/bounds.py:20-21 [zero_bound_loc] *)
Definition zero_bound_loc (bounds : list Z) : list nat :=
  where_ (fun x => x =? 0) bounds.

(** srg/bounds.py:44: [crs[c] = r], a dict keeps the position of the first
    insertion and the value of the last. Entries are [(r, c)]. *)
Fixpoint crs_set (c r : nat) (d : list (nat * nat)) : list (nat * nat) :=
  match d with
  | [] => [(r, c)]
  | (r', c') :: t =>
      if Nat.eqb c' c then (r, c) :: t else (r', c') :: crs_set c r t
  end.

(** srg/bounds.py:38-46 [one_element_row_locs]. The code returns a Python
    set; the list is one enumeration of it (dict order). *)
Fixpoint crs_from (r : nat) (A : list (list Z)) (d : list (nat * nat))
  : list (nat * nat) :=
  match A with
  | [] => d
  | row :: A' =>
      match where_ (fun x => negb (x =? 0)) row with
      | [c] => crs_from (S r) A' (crs_set c r d)
      | _ => crs_from (S r) A' d
      end
  end.
Definition one_element_row_locs (A : list (list Z)) : list (nat * nat) :=
  crs_from 0 A [].

(** ** srg/fork.py:18-24 [enum]: the values of [quota_used] (the second
    component of each yielded pair is [quota - quota_used]). *)
Definition fork_enum_values (quota : Z) (bounds : list Z) (loc : nat) : list Z :=
  let m := nth loc bounds 0 in
  let rest := delete [loc] bounds in
  zrange (Z.max 0 (quota - zsum rest)) (m + 1).
Definition fork_enum_pairs (quota : Z) (bounds : list Z) (loc : nat)
  : list (Z * Z) :=
  map (fun q => (q, quota - q)) (fork_enum_values quota bounds loc).

(** ** srg/partition.py:4-22 [enum] *)
Fixpoint partition_enum (bounds : list Z) (s : Z) : list (list Z) :=
  match bounds with
  | [] => []
  | [bound] => if s <=? bound then [[s]] else []
  | bound :: others =>
      flat_map (fun v => map (cons v) (partition_enum others (s - v)))
               (zrange 0 (Z.min bound s + 1))
  end.
(** with the two assertions of srg/partition.py:5,8 *)
Definition partition_enum_api (s : Z) (bounds : list Z) : res (list (list Z)) :=
  _ <- assert_ (0 <=? s) ;;
  _ <- assert_ (1 <=? length bounds)%nat ;;
  Ok (partition_enum bounds s).

(** ** srg/unique.py *)

(** srg/unique.py:7-21 [_encode]: one key per column. *)
Definition unique_encode (A : mat) : res (list Z) :=
  if Nat.eqb (mnrows A) 0 then Raise IndexError
  else Ok (map (fun j => pack (column j (mrows A))) (seq 0 (mcols A))).

(** srg/unique.py:24-32 [reduce]: (kept columns, run lengths, run starts). *)
Definition unique_reduce (A : mat) : res (mat * list Z * list nat) :=
  enc <- unique_encode A ;;
  let diff_enc := diff enc in
  let unique_loc := 0%nat :: map S (where_ (fun d => negb (i64 d =? 0)) diff_enc) in
  let bnds := diff (map Z.of_nat unique_loc) in
  let bnds := bnds ++ [Z.of_nat (length enc) - zsum bnds] in
  if (mcols A =? 0)%nat then Raise IndexError
  else Ok (Mat (length unique_loc) (map (pick 0 unique_loc) (mrows A)),
           bnds, unique_loc).

(** srg/unique.py:35-44 [expand] *)
Definition expand_row (row : list Z) (bnds : list Z) : list Z :=
  concat (map2 (fun a n => repeat a (Z.to_nat n)) row bnds).
Definition unique_expand (A : mat) (bnds : list Z) : mat :=
  Mat (Z.to_nat (zsum bnds)) (map (fun row => expand_row row bnds) (mrows A)).
