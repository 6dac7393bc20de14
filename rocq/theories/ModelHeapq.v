(** * Python's heapq as it works on the array (standard library, Lib/heapq.py)
    [ModelGauss] represents a heap by the sorted list of its contents. Here the
    list is the array itself, with the moves of Lib/heapq.py (CPython 3.8; the C
    version moves the same items), and srg/gauss_elim.py is written on top of it.
    [lt] is the comparison [<] of the items, [d] fills positions outside the list
    (none is read). *)
From Coq Require Import ZArith List Bool.
From Verif Require Import Np ModelGauss.
Import ListNotations.
Local Open Scope Z_scope.

(** heapq.py [_siftdown(heap, startpos, pos)] with [startpos = 0]; [new] is
    [newitem]. [n] bounds the number of moves: [pos] halves. *)
Fixpoint siftdown {T} (lt : T -> T -> bool) (d : T) (n : nat) (heap : list T) (pos : nat) (new : T) : list T :=
  match n with
  | O => set_nth pos new heap
  | S n' =>
      if (0 <? pos)%nat then
        let parentpos := Nat.div2 (pos - 1) in
        let parent := nth parentpos heap d in
        if lt new parent then siftdown lt d n' (set_nth pos parent heap) parentpos new
        else set_nth pos new heap
      else set_nth pos new heap
  end.

(** heapq.py [_siftup(heap, 0)]: the smaller child moves up until a leaf is
    reached, then [_siftdown] places [newitem]. [pos] is the present position of
    the hole, [n] bounds the number of moves: [pos] grows. *)
Fixpoint siftup {T} (lt : T -> T -> bool) (d : T) (n : nat) (heap : list T) (pos : nat) (new : T) : list T :=
  match n with
  | O => siftdown lt d pos heap pos new
  | S n' =>
      let childpos := (2 * pos + 1)%nat in
      if (childpos <? length heap)%nat then
        let rightpos := (childpos + 1)%nat in
        let c := if (rightpos <? length heap)%nat && negb (lt (nth childpos heap d) (nth rightpos heap d))
                 then rightpos else childpos in
        siftup lt d n' (set_nth pos (nth c heap d) heap) c new
      else siftdown lt d pos heap pos new
  end.

(** heapq.py [heapreplace(heap, item)] on a heap that is not empty; the item
    returned is [heap[0]]. *)
Definition heapreplace {T} (lt : T -> T -> bool) (d : T) (heap : list T) (item : T) : list T :=
  siftup lt d (length heap) heap 0 item.

(** heapq.py [heappop(heap)]; [None] is the IndexError of [heap.pop()]. *)
Definition heappop {T} (lt : T -> T -> bool) (d : T) (heap : list T) : option (T * list T) :=
  match heap with
  | [] => None
  | _ =>
      let lastelt := last heap d in
      let heap := removelast heap in
      match heap with
      | [] => Some (lastelt, [])
      | returnitem :: _ => Some (returnitem, heapreplace lt d heap lastelt)
      end
  end.

(** [while hd: heappop(hd)]: the items in the order they come out. *)
Fixpoint pop_all {T} (lt : T -> T -> bool) (d : T) (n : nat) (heap : list T) : list T :=
  match n with
  | O => []
  | S n' =>
      match heappop lt d heap with
      | None => []
      | Some (x, heap') => x :: pop_all lt d n' heap'
      end
  end.

(** ** heapq.merge
    An item of its heap is [[value, order, next]]: [value], the number of the
    input, what this input has left. The numbers differ, so [next] is never
    compared. *)
Definition stream := (entry * nat * list entry)%type.
Definition entry_ltb (x y : entry) : bool := negb (entry_leb y x).
Definition entry_eqb (x y : entry) : bool := entry_leb x y && entry_leb y x.
Definition stream_ltb (s t : stream) : bool :=
  entry_ltb (fst (fst s)) (fst (fst t))
  || (entry_eqb (fst (fst s)) (fst (fst t)) && (snd (fst s) <? snd (fst t))%nat).
Definition no_entry : entry := (0, 0, 0).
Definition no_stream : stream := (no_entry, O, []).

(** heapq.py [merge], the first loop: inputs that are empty are left out. *)
Fixpoint streams (order : nat) (inputs : list (list entry)) : list stream :=
  match inputs with
  | [] => []
  | [] :: rest => streams (S order) rest
  | (x :: t) :: rest => (x, order, t) :: streams (S order) rest
  end.
(** heapq.py [heapify] of at most three items: [_siftup(x, 0)] when there are
    two or three, nothing otherwise ([range(n//2)] reversed). *)
Definition heapify3 (h : list stream) : list stream :=
  match h with
  | [] => []
  | [x] => [x]
  | x :: _ => siftup stream_ltb no_stream (length h) h 0 x
  end.
(** heapq.py [merge], the second loop and the end; [n] bounds the number of items. *)
Fixpoint merge_loop (n : nat) (h : list stream) : list entry :=
  match n with
  | O => []
  | S n' =>
      match h with
      | [] => []
      | [(value, _, rest)] => value :: rest
      | (value, order, []) :: _ =>
          match heappop stream_ltb no_stream h with
          | Some (_, h') => value :: merge_loop n' h'
          | None => [value]
          end
      | (value, order, next :: rest) :: _ =>
          value :: merge_loop n' (heapreplace stream_ltb no_stream h (next, order, rest))
      end
  end.
Definition merge (inputs : list (list entry)) : list entry :=
  merge_loop (S (length (concat inputs))) (heapify3 (streams 0 inputs)).

(** ** srg/gauss_elim.py with these *)

(** srg/gauss_elim.py:14-42 *)
Definition gauss_elim_q (hd : list entry) : res (bool * list entry) :=
  match heappop entry_ltb no_entry hd with
  | None => Raise IndexError
  | Some (m, hd1) =>
      _ <- assert_ (0 <? ekey m) ;;
      let popped := pop_all entry_ltb no_entry (length hd1) hd1 in
      let reducible := map (sub_entry m) (filter (reduces m) popped) in
      let same := filter (fun e => negb (reduces m e)) popped in
      match reducible with
      | [] => Ok (false, merge [[m]; same])
      | _ => Ok (true, merge [[m]; remove_zerokeys reducible; same])
      end
  end.
(** srg/gauss_elim.py:57-66 *)
Definition elim_step_q (s : list entry * list entry)
  : (list entry * list entry) + res (list entry) :=
  let (hs, hd) := s in
  match hd with
  | [] => inr (Ok hs)
  | _ =>
      match gauss_elim_q hd with
      | Ok (true, hd') => inl ([], merge [hs; hd'])
      | Ok (false, hd') =>
          match heappop entry_ltb no_entry hd' with
          | Some (m, hd'') => inl (hs ++ [m], hd'')
          | None => inr (Raise IndexError)
          end
      | NoSolution => inr NoSolution
      | Raise e => inr (Raise e)
      end
  end.
(** srg/gauss_elim.py:45-68 *)
Definition elim_core_q (n : nat) (hd : list entry) : res (list entry) :=
  let hd := remove_zerokeys hd in
  if (length hd <=? 1)%nat then Ok hd
  else while_ n elim_step_q ([], sort_e hd).
(** srg/gauss_elim.py:142-145 *)
Definition elim_q (A : mat) (b : list Z) : res (mat * list Z) :=
  hd <- encode A b ;;
  hd' <- elim_core_q (2 * mnrows A + mcols A + 1) hd ;;
  decode hd'.
