(** The search with mutable objects: srg/solver.py changes [Question]s and the
    arrays they refer to in place. [Model] returns new values instead; here
    arrays have addresses and objects have fields. *)
From Verif Require Import Np ModelGauss Model.

(** ** arrays and objects
    An address is a position in a list of arrays; allocation appends. Three
    arrays of a question are written in place somewhere: [_b] (solver.py:153),
    [_bounds] (bounds.py:17) and [_v] of its answer (solver.py:105, 149, 181).
    [A] and [_loc] are only ever replaced, so they are values here. An [Answer]
    never gets a new [_v], [_loc] or [_len] after its construction
    (srg.py:17-27), so it is the address of [_v] with the other two. *)
Definition heap := list (list Z).
Definition rd (h : heap) (p : nat) : list Z := nth p h [].
Definition wr (h : heap) (p : nat) (x : list Z) : heap := set_nth p x h.

(** srg/srg.py:24-26 *)
Record hanswer := HAns { hv : nat; hloc : list Z; hlen : Z }.
(** srg/srg.py:105-107 *)
Record hquestion := HQ { hA : mat; hb : nat; hquota : Z; hbounds : nat; hans : hanswer }.

(** what an object looks like from outside *)
Definition view (h : heap) (q : hquestion) : question :=
  Qst (hA q) (rd h (hb q)) (hquota q) (rd h (hbounds q))
      (Ans (rd h (hv (hans q))) (hloc (hans q)) (hlen (hans q))).

(** A method that changes the object [q]: the heap and the fields afterwards,
    also if it raises. *)
Definition st := (heap * hquestion)%type.
Definition out (A : Type) := (st * res A)%type.
Definition obind {A B} (x : out A) (f : st -> A -> out B) : out B :=
  match x with
  | (s, Ok a) => f s a
  | (s, NoSolution) => (s, NoSolution)
  | (s, Raise e) => (s, Raise e)
  end.

Definition set_A (A : mat) (q : hquestion) : hquestion := HQ A (hb q) (hquota q) (hbounds q) (hans q).
Definition set_b (p : nat) (q : hquestion) : hquestion := HQ (hA q) p (hquota q) (hbounds q) (hans q).
Definition set_quota (z : Z) (q : hquestion) : hquestion := HQ (hA q) (hb q) z (hbounds q) (hans q).
Definition set_bounds (p : nat) (q : hquestion) : hquestion := HQ (hA q) (hb q) (hquota q) p (hans q).
Definition set_ans (a : hanswer) (q : hquestion) : hquestion := HQ (hA q) (hb q) (hquota q) (hbounds q) a.

(** srg/solver.py:35-49: the decorator only reads *)
Definition checked (x : out unit) : out unit :=
  obind x (fun s _ => (s, _ <- post_check (view (fst s) (snd s)) ;; Ok tt)).

(** srg/solver.py:58-77. [np.delete] and [srg.array] make new arrays. The
    setters assert before they assign (srg.py:178-183, 228-231). *)
Definition reduce_col_body_h (s : st) : out unit :=
  let (h, q) := s in
  let Q := view h q in
  let A := qA Q in
  let C := mcols A in
  if (C <? 2)%nat then (s, Ok tt)
  else
    match unique_encode A with
    | NoSolution => (s, NoSolution)
    | Raise e => (s, Raise e)
    | Ok enc =>
        let gs := groups enc in
        if (length (qbounds Q) <? C)%nat then (s, Raise IndexError)
        else
          let keep := map (fun ls => hd 0%nat ls) gs in
          let drop := concat (map (@tl nat) gs) in
          let bounds_new := map (fun ls => zsum (pick 0 ls (qbounds Q))) gs in
          let ul := unknown_loc (qans Q) in
          if existsb (fun j => (length ul <=? j)%nat) drop then (s, Raise IndexError)
          else
            let drop_in_ans := pick 0%nat drop ul in
            let pv := length h in
            let h1 := h ++ [delete drop_in_ans (av (qans Q))] in
            let loc' := delete drop_in_ans (aloc (qans Q)) in
            let q1 := set_A (Mat (length keep) (map (pick 0 keep) (mrows A))) q in
            let pbd := length h1 in
            let h2 := h1 ++ [map i8 bounds_new] in
            if nonneg (rd h2 pbd) then
              let q2 := set_bounds pbd q1 in
              match mk_answer (rd h2 pv) loc' (alen (qans Q)) with
              | NoSolution => ((h2, q2), NoSolution)
              | Raise e => ((h2, q2), Raise e)
              | Ok a =>
                  if answer_fits (hA q2) a then ((h2, set_ans (HAns pv loc' (alen (qans Q))) q2), Ok tt)
                  else ((h2, q2), Raise AssertionError)
              end
            else ((h2, q1), Raise AssertionError)
    end.
Definition reduce_col_h (s : st) : out unit := checked (reduce_col_body_h s).

(** srg/solver.py:82-86; [Q.A] is assigned before the setter of [b] asserts *)
Definition eliminate_body_h (s : st) : out unit :=
  let (h, q) := s in
  if Nat.eqb (mcols (hA q)) 0 then (s, Ok tt)
  else
    match elim (hA q) (rd h (hb q)) with
    | NoSolution => (s, NoSolution)
    | Raise e => (s, Raise e)
    | Ok (Ae, be) =>
        let pb := length h in
        let h1 := h ++ [be] in
        let q1 := set_A Ae q in
        if nonneg (rd h1 pb) then ((h1, set_b pb q1), Ok tt) else ((h1, q1), Raise AssertionError)
    end.
Definition eliminate_h (s : st) : out unit := checked (eliminate_body_h s).

(** srg/bounds.py:8-17: [bounds] is written row by row, [b] is read as the
    loop goes; the inner loop over the entries of a row is one write *)
Fixpoint lower_upper_bound_h (pb pbd : nat) (i : nat) (rows : list (list Z)) (h : heap) : heap :=
  match rows with
  | [] => h
  | row :: rows' =>
      match nth_error (rd h pb) i with
      | None => h
      | Some x => lower_upper_bound_h pb pbd (S i) rows' (wr h pbd (tighten_row row x (rd h pbd)))
      end
  end.

(** srg/solver.py:91-108 *)
Definition zero_in_b_body_h (s : st) : out unit :=
  let (h, q) := s in
  let h1 := lower_upper_bound_h (hb q) (hbounds q) 0 (mrows (hA q)) h in
  let pv := hv (hans q) in
  let ul := where_ is_unknown (rd h1 pv) in
  if Nat.eqb (length ul) (length (rd h1 (hbounds q))) then
    let zbls := zero_bound_loc (rd h1 (hbounds q)) in
    let h2 := fold_left (fun h j => wr h pv (set_nth (nth j ul 0%nat) 0 (rd h pv))) zbls h1 in
    let pbd := length h2 in
    let h3 := h2 ++ [delete zbls (rd h2 (hbounds q))] in
    let q1 := set_A (Mat (mcols (hA q) - length zbls) (map (delete zbls) (mrows (hA q)))) q in
    if nonneg (rd h3 pbd) then ((h3, set_bounds pbd q1), Ok tt) else ((h3, q1), Raise AssertionError)
  else ((h1, q), Raise AssertionError).
Definition zero_in_b_h (s : st) : out unit := checked (zero_in_b_body_h s).

(** srg/solver.py:147-150: the answer is written, then the quota, pair by pair *)
Fixpoint assign_h (ul : list nat) (rcs : list (nat * nat)) (s : st) : out unit :=
  match rcs with
  | [] => (s, Ok tt)
  | (r, c) :: rcs' =>
      let (h, q) := s in
      let pv := hv (hans q) in
      let h1 := wr h pv (set_nth (nth c ul 0%nat) (nth r (rd h (hb q)) 0) (rd h pv)) in
      let z := hquota q - nth r (rd h1 (hb q)) 0 in
      if 0 <=? z then assign_h ul rcs' (h1, set_quota z q) else ((h1, q), Raise AssertionError)
  end.

(** srg/solver.py:112-155, for the enumeration of the set at line 125 that
    [Model] uses (C16: the order does not matter). [Q.b -= ...] writes the
    array before the setter asserts. *)
Definition only_1_body_h (s : st) : out unit :=
  let (h, q) := s in
  let rcs := one_element_row_locs (mrows (hA q)) in
  let ul := where_ is_unknown (rd h (hv (hans q))) in
  if Nat.eqb (length ul) (length (rd h (hbounds q))) then
    match rcs with
    | [] => (s, Ok tt)
    | _ =>
        let cs := map snd rcs in
        let b := rd h (hb q) in
        let subx := pick 0 (map fst rcs) b in
        let b_to_update := map i8 (matvec (map (pick 0 cs) (mrows (hA q))) subx) in
        if existsb (fun rc => nth (snd rc) (rd h (hbounds q)) 0 <? nth (fst rc) b 0) rcs then (s, NoSolution)
        else if hquota q <? zsum subx then (s, NoSolution)
        else if any2 Z.gtb b_to_update b then (s, NoSolution)
        else
          obind (assign_h ul rcs s) (fun s1 _ =>
            let (h1, q1) := s1 in
            let h2 := wr h1 (hb q1) (map2 (fun x y => i8 (x - y)) (rd h1 (hb q1)) b_to_update) in
            if nonneg (rd h2 (hb q1)) then
              let q2 := set_A (Mat (mcols (hA q1) - length cs) (map (delete cs) (mrows (hA q1)))) q1 in
              let pbd := length h2 in
              let h3 := h2 ++ [delete cs (rd h2 (hbounds q1))] in
              if nonneg (rd h3 pbd) then ((h3, set_bounds pbd q2), Ok tt) else ((h3, q2), Raise AssertionError)
            else ((h2, q1), Raise AssertionError))
    end
  else (s, Raise AssertionError).
Definition only_1_h (s : st) : out unit := checked (only_1_body_h s).

(** srg/srg.py:48-49, 194-195: [copy] with new arrays. A copy whose
    constructor raises is not seen by anybody; only its arrays are left. *)
Definition copy_h (h : heap) (q : hquestion) : heap * res hquestion :=
  let pb := length h in
  let h1 := h ++ [rd h (hb q)] in
  let pbd := length h1 in
  let h2 := h1 ++ [rd h1 (hbounds q)] in
  let pv := length h2 in
  let h3 := h2 ++ [rd h2 (hv (hans q))] in
  (h3, _ <- question_copy (view h3 q) ;;
       Ok (HQ (hA q) pb (hquota q) pbd (HAns pv (hloc (hans q)) (hlen (hans q))))).

(** srg/solver.py:198-204: one turn of [while True] *)
Definition refine_step_h (s : st) : st + res (out unit) :=
  match copy_h (fst s) (snd s) with
  | (h, NoSolution) => inr (Ok ((h, snd s), NoSolution))
  | (h, Raise e) => inr (Ok ((h, snd s), Raise e))
  | (h, Ok dummy) =>
      match obind (reduce_col_h (h, snd s)) (fun s1 _ =>
            obind (eliminate_h s1) (fun s2 _ => obind (zero_in_b_h s2) (fun s3 _ => only_1_h s3))) with
      | (s', Ok _) =>
          if question_eqb (view (fst s') (snd s')) (view (fst s') dummy) then inr (Ok (s', Ok tt)) else inl s'
      | (s', NoSolution) => inr (Ok (s', NoSolution))
      | (s', Raise e) => inr (Ok (s', Raise e))
      end
  end.
Definition refine_h (s : st) : res (out unit) := while_ (mcols (hA (snd s)) + 3) refine_step_h s.

(** srg/solver.py:173-183: the body of the loop for one value. [new_ans] is a
    copy that is written to; [new_b], [new_bound.copy()] are new. *)
Definition fork_one_h (q : hquestion) (minloc : nat) (h : heap) (q_used : Z) : heap * res (option hquestion) :=
  let new_b := map2 (fun bv row => i8 (bv - i8 (nth minloc row 0 * q_used))) (rd h (hb q)) (mrows (hA q)) in
  if existsb (fun x => x <? 0) new_b then (h, Ok None)
  else
    let a := hans q in
    let pv := length h in
    let h1 := h ++ [rd h (hv a)] in
    match mk_answer (rd h1 pv) (hloc a) (hlen a) with
    | NoSolution => (h1, NoSolution)
    | Raise e => (h1, Raise e)
    | Ok _ =>
        let ul := where_ is_unknown (rd h1 (hv a)) in
        let h2 := wr h1 pv (set_nth (nth minloc ul 0%nat) q_used (rd h1 pv)) in
        let pb := length h2 in
        let h3 := h2 ++ [new_b] in
        let pbd := length h3 in
        let h4 := h3 ++ [delete [minloc] (rd h3 (hbounds q))] in
        let A' := Mat (mcols (hA q) - 1) (map (delete [minloc]) (mrows (hA q))) in
        (h4, _ <- mk_question A' (rd h4 pb) (hquota q - q_used) (rd h4 pbd) (Some (Ans (rd h4 pv) (hloc a) (hlen a))) ;;
             Ok (Some (HQ A' pb (hquota q - q_used) pbd (HAns pv (hloc a) (hlen a)))))
    end.
Fixpoint fork_all_h (q : hquestion) (minloc : nat) (h : heap) (vals : list Z) : heap * res (list hquestion) :=
  match vals with
  | [] => (h, Ok [])
  | x :: vals' =>
      match fork_one_h q minloc h x with
      | (h1, NoSolution) => (h1, NoSolution)
      | (h1, Raise e) => (h1, Raise e)
      | (h1, Ok o) =>
          match fork_all_h q minloc h1 vals' with
          | (h2, Ok qs) => (h2, Ok (match o with Some c => c :: qs | None => qs end))
          | (h2, NoSolution) => (h2, NoSolution)
          | (h2, Raise e) => (h2, Raise e)
          end
      end
  end.
(** srg/solver.py:158-183 *)
Definition fork_h (h : heap) (q : hquestion) : heap * res (list hquestion) :=
  match (_ <- post_check (view h q) ;;
         _ <- assert_ (0 <? length (unknown_loc (qans (view h q))))%nat ;; argmin (rd h (hbounds q))) with
  | NoSolution => (h, NoSolution)
  | Raise e => (h, Raise e)
  | Ok minloc => fork_all_h q minloc h (fork_enum_values (hquota q) (rd h (hbounds q)) minloc)
  end.

(** ** srg/solver.py:189-214: the stack holds references to objects *)
Record store := Store { arrs : heap; objs : list hquestion }.
Definition no_object : hquestion := HQ (Mat 0 []) 0 0 0 (HAns 0 [] 0).
Definition obj (w : store) (i : nat) : hquestion := nth i (objs w) no_object.
(** the object [i] as a question *)
Definition seen (w : store) (i : nat) : question := view (arrs w) (obj w i).

Definition question_step_h (x : store * list nat * list (list Z))
  : (store * list nat * list (list Z)) + res (store * res (list (list Z))) :=
  let '(w, stack, ys) := x in
  match stack with
  | [] => inr (Ok (w, Ok (rev ys)))
  | i :: rest =>
      match refine_h (arrs w, obj w i) with
      | NoSolution => inr NoSolution
      | Raise e => inr (Raise e)
      | Ok ((h, q), r) =>
          let w1 := Store h (set_nth i q (objs w)) in
          match r with
          | NoSolution => inl (w1, rest, ys)
          | Raise e => inr (Ok (w1, Raise e))
          | Ok _ =>
              if answer_unknown (qans (seen w1 i)) then
                match fork_h (arrs w1) (obj w1 i) with
                | (h2, Ok qs) =>
                    inl (Store h2 (objs w1 ++ qs), rev (seq (length (objs w1)) (length qs)) ++ rest, ys)
                | (h2, NoSolution) => inl (Store h2 (objs w1), rest, ys)
                | (h2, Raise e) => inr (Ok (Store h2 (objs w1), Raise e))
                end
              else
                match binarize (qans (seen w1 i)) with
                | Ok x => inl (w1, rest, x :: ys)
                | NoSolution => inl (w1, rest, ys)
                | Raise e => inr (Ok (w1, Raise e))
                end
          end
      end
  end.
(** [list(solve_question(Q))] for the object [i]: the memory afterwards and the
    answers or the exception *)
Definition solve_question_h (w : store) (i : nat) : res (store * res (list (list Z))) :=
  while_ (question_fuel (seen w i)) question_step_h (w, [i], []).

(** ** The whole program with one memory
    Matrices are values: no line writes to the array of an [SRG] object
    (srg.py:254-258 stacks a new one). *)
Definition run_question (w : store) (i : nat) : store * res (list (list Z)) :=
  match solve_question_h w i with
  | Ok x => x
  | NoSolution => (w, NoSolution)
  | Raise e => (w, Raise e)
  end.
(** srg/srg.py:144-171: [b] (line 166), [a_k] (line 163, the bounds) and the
    values of the default answer (line 31) are new arrays; line 165 copies [a_k]
    into [A]. *)
Definition from_matrix_h (w : store) (m : mat) : store * res nat :=
  match from_matrix m with
  | NoSolution => (w, NoSolution)
  | Raise e => (w, Raise e)
  | Ok Q =>
      let n := length (arrs w) in
      (Store (arrs w ++ [qb Q; qbounds Q; av (qans Q)])
             (objs w ++ [HQ (qA Q) n (qquota Q) (n + 1) (HAns (n + 2) (aloc (qans Q)) (alen (qans Q)))]),
       Ok (length (objs w)))
  end.
(** srg/solver.py:222-229 *)
Definition advance_h (w : store) (m : mat) : store * res (list mat) :=
  if solved m then (w, Raise AssertionError)
  else
    match from_matrix_h w m with
    | (w1, NoSolution) => (w1, Ok [])
    | (w1, Raise e) => (w1, Raise e)
    | (w1, Ok i) =>
        match run_question w1 i with
        | (w2, NoSolution) => (w2, NoSolution)
        | (w2, Raise e) => (w2, Raise e)
        | (w2, Ok xs) => (w2, mapM (append_row m) xs)
        end
    end.
(** srg/solver.py:235 and 239 *)
Fixpoint advance_all_h (w : store) (l : list mat) : store * res (list mat) :=
  match l with
  | [] => (w, Ok [])
  | m :: l' =>
      match advance_h w m with
      | (w1, NoSolution) => (w1, NoSolution)
      | (w1, Raise e) => (w1, Raise e)
      | (w1, Ok xs) =>
          match advance_all_h w1 l' with
          | (w2, Ok ys) => (w2, Ok (xs ++ ys))
          | (w2, NoSolution) => (w2, NoSolution)
          | (w2, Raise e) => (w2, Raise e)
          end
      end
  end.
(** srg/solver.py:236-239 *)
Fixpoint solve_loop_h (fuel : nat) (w : store) (lst yielded : list mat) : store * res (list mat) :=
  match lst with
  | [] => (w, Ok yielded)
  | _ =>
      match fuel with
      | O => (w, Raise OutOfFuel)
      | S fuel' =>
          match advance_all_h w (lst_undone lst) with
          | (w1, NoSolution) => (w1, NoSolution)
          | (w1, Raise e) => (w1, Raise e)
          | (w1, Ok lst') => solve_loop_h fuel' w1 lst' (yielded ++ lst_done lst)
          end
      end
  end.
(** srg/solver.py:231-239 *)
Definition solve_h (w : store) (m : mat) : store * res (list mat) :=
  match advance_h w m with
  | (w1, NoSolution) => (w1, NoSolution)
  | (w1, Raise e) => (w1, Raise e)
  | (w1, Ok lst) =>
      match advance_all_h w1 (lst_undone lst) with
      | (w2, NoSolution) => (w2, NoSolution)
      | (w2, Raise e) => (w2, Raise e)
      | (w2, Ok lst') => solve_loop_h (mcols m - mnrows m) w2 lst' (lst_done lst)
      end
  end.
(** srg/__main__.py:15-21, as [run_main] *)
Definition run_main_h (w : store) (v k l u : Z) : store * res (list mat) :=
  match (_ <- assert_srg v k l u ;; seed v k l u) with
  | NoSolution => (w, NoSolution)
  | Raise e => (w, Raise e)
  | Ok m => solve_h w m
  end.
