(** Model of srg/srg.py and srg/solver.py. *)
From Verif Require Export Np ModelGauss.

(** ** srg/srg.py: class Answer *)
Record answer := Ans { av : list Z; aloc : list Z; alen : Z }.

Definition UNKNOWN : Z := -1.                              (* srg/srg.py:15 *)
Definition is_unknown (x : Z) : bool := x =? UNKNOWN.

(** srg/srg.py:17-27 [Answer.__init__] *)
Definition mk_answer (v loc : list Z) (len : Z) : res answer :=
  _ <- assert_ (Nat.eqb (length v) (length loc)) ;;
  _ <- (match loc with
        | [] => Ok tt
        | l0 :: _ =>
            _ <- assert_ (l0 =? 0) ;;
            _ <- assert_ (forallb (fun d => negb (d =? 0)) (diff loc)) ;;
            assert_ (last loc 0 <? len)
        end) ;;
  Ok (Ans v loc len).

(** srg/srg.py:29-31 [Answer.default] (goes through [__init__]) *)
Definition default_answer (C : nat) : res answer :=
  mk_answer (repeat UNKNOWN C) (map Z.of_nat (seq 0 C)) (Z.of_nat C).

(** srg/srg.py:33-38 [Answer.quota] *)
Definition quota_of (loc : list Z) (len : Z) : list Z := diff (loc ++ [len]).
Definition answer_quota (a : answer) : res (list Z) :=
  let q := quota_of (aloc a) (alen a) in
  _ <- assert_ (zsum q =? alen a) ;;
  Ok q.

(** srg/srg.py:40-46 [unknown_loc], [unknown] *)
Definition unknown_loc (a : answer) : list nat := where_ is_unknown (av a).
Definition answer_unknown (a : answer) : bool := existsb is_unknown (av a).

(** srg/srg.py:48-49 [copy] re-runs the constructor checks. *)
Definition answer_copy (a : answer) : res answer :=
  mk_answer (av a) (aloc a) (alen a).

(** srg/srg.py:51-55 [__eq__] *)
Definition answer_eqb (a b : answer) : bool :=
  vec_eqb (av a) (av b) && vec_eqb (aloc a) (aloc b) && (alen a =? alen b).

(** srg/srg.py:87-90: the loop of [binarize]. *)
Fixpoint binarize_loop (v quota : list Z) (ptr : Z) (ans : list Z) : list Z :=
  match v, quota with
  | c :: v', b :: quota' =>
      binarize_loop v' quota' (ptr + b) (slice_set ptr (ptr + c) 1 ans)
  | _, _ => ans
  end.

Definition any2 (f : Z -> Z -> bool) (x y : list Z) : bool :=
  existsb (fun c => c) (map2 f x y).

(** srg/srg.py:63-92 [binarize] *)
Definition binarize (a : answer) : res (list Z) :=
  _ <- assert_ (forallb (fun x => negb (is_unknown x)) (av a)) ;;
  q <- answer_quota a ;;
  _ <- assert_ (negb (any2 Z.gtb (av a) q)) ;;
  Ok (binarize_loop (av a) q 0 (repeat 0 (Z.to_nat (alen a)))).

(** ** srg/srg.py: class Question *)
Record question := Qst {
  qA : mat;
  qb : list Z;
  qquota : Z;
  qbounds : list Z;
  qans : answer }.

Definition nonneg (l : list Z) : bool := forallb (fun x => 0 <=? x) l.

(** srg/srg.py:100-107 [__init__], with the setters of [b] (210-213),
    [quota] (219-222) and [bounds] (228-231). *)
Definition mk_question (A : mat) (b : list Z) (quota : Z) (bounds : list Z)
    (ans : option answer) : res question :=
  _ <- assert_ (Nat.eqb (mnrows A) (length b)) ;;
  _ <- assert_ (Nat.eqb (mcols A) (length bounds)) ;;
  _ <- assert_ (nonneg b) ;;
  _ <- assert_ (0 <=? quota) ;;
  _ <- assert_ (nonneg bounds) ;;
  a <- (match ans with
        | None => default_answer (mcols A)
        | Some a => Ok a
        end) ;;
  Ok (Qst A b quota bounds a).

(** srg/srg.py:267-272 [vklu]: [k] is an int64 sum, [l] an int8 dot product,
    and numpy's [//] by zero gives 0 (with a warning). *)
Definition np_floordiv (a b : Z) : Z := if b =? 0 then 0 else a / b.
Definition vklu (m : mat) : res (Z * Z * Z * Z) :=
  match mrows m with
  | r0 :: r1 :: _ =>
      let v := Z.of_nat (mcols m) in
      let k := zsum r0 in
      let l := i8 (dot r0 r1) in
      let u := np_floordiv (k * (k - l - 1)) (v - k - 1) in
      Ok (v, k, l, u)
  | _ => Raise IndexError
  end.

(** srg/srg.py:144-171 [Question.from_matrix]. The assertion at 148 is
    [C == v] with [v] defined as [C]; it cannot fail and is not modelled. *)
Definition from_matrix (m : mat) : res question :=
  vk <- vklu m ;;
  let '(v, k, l, u) := vk in
  let R := mnrows m in
  if (mcols m <=? R)%nat then Raise IndexError             (* 149: m[:, R] *)
  else
    let known := column R (mrows m) ++ [0] in
    let quota_used := map (fun row => i8 (dot (firstn (R + 1) row) known)) (mrows m) in
    let quota := map (fun e => i8 (if e =? 0 then u else l)) (column R (mrows m)) in
    let b0 := map2 (fun x y => i8 (x - y)) quota quota_used in
    let A0 := map (skipn (R + 1)) (mrows m) in
    let unknown_len := (mcols m - R - 1)%nat in
    let b_k := k - zsum known in
    let a_k := repeat 1 unknown_len in
    let A := Mat unknown_len (A0 ++ [a_k]) in
    let b := b0 ++ [b_k] in
    if existsb (fun x => x <? 0) b then NoSolution
    else mk_question A b b_k a_k None.

(** srg/srg.py:194-195 [copy] *)
Definition question_copy (Q : question) : res question :=
  a <- answer_copy (qans Q) ;;
  mk_question (qA Q) (qb Q) (qquota Q) (qbounds Q) (Some a).

(** srg/srg.py:197-204 [__eq__] *)
Definition question_eqb (p q : question) : bool :=
  mat_eqb (qA p) (qA q) && vec_eqb (qb p) (qb q) && (qquota p =? qquota q)
  && vec_eqb (qbounds p) (qbounds q) && answer_eqb (qans p) (qans q).

(** srg/srg.py:177-183: the [answer] setter check. *)
Definition answer_fits (A : mat) (a : answer) : bool :=
  Nat.eqb (length (unknown_loc a)) (mcols A).

(** srg/srg.py:246-262: class SRG is its matrix. *)
Definition append_row (m : mat) (ans_essential : list Z) : res mat :=
  let R := mnrows m in
  if (mcols m <=? R)%nat then Raise IndexError
  else
    let ans_row := column R (mrows m) ++ [0] ++ ans_essential in
    _ <- assert_ (Nat.eqb (length ans_row) (mcols m)) ;;
    Ok (Mat (mcols m) (mrows m ++ [ans_row])).
Definition solved (m : mat) : bool := Nat.eqb (mnrows m) (mcols m).

(** ** srg/solver.py *)

(** srg/solver.py:16-26 [_seed]. [u] is not used by the code. *)
Definition seed (v k l u : Z) : res mat :=
  let remain_ones_number := k - l - 1 in
  if v <? 0 then Raise ValueError                          (* np.zeros *)
  else
    let z := repeat 0 (Z.to_nat v) in
    let s0 := slice_set 1 (k + 1) 1 z in
    let s1 := slice_set 2 (l + 2) 1 z in
    let s1 := slice_set (k + 1) (k + remain_ones_number + 1) 1 s1 in
    if v <? 2 then Raise IndexError                        (* s[0, 1] *)
    else
      let s1 := set_nth 0 (nth 1 s0 0) s1 in
      Ok (Mat (Z.to_nat v) [s0; s1]).

(** srg/solver.py:29-52: what the decorator checks after each step. *)
Definition post_check (Q : question) : res question :=
  let C := mcols (qA Q) in
  if Nat.eqb C 0 && existsb (fun x => negb (x =? 0)) (qb Q) then NoSolution
  else
    _ <- assert_ (Nat.eqb (length (qbounds Q)) C) ;;
    if (0 <? length (qbounds Q))%nat && (zsum (qbounds Q) <? qquota Q) then NoSolution
    else
      q <- answer_quota (qans Q) ;;
      if any2 Z.gtb (av (qans Q)) q then NoSolution
      else Ok Q.

(** srg/solver.py:62-65: the [defaultdict(list)], in insertion order. *)
Fixpoint group_add (key : Z) (j : nat) (d : list (Z * list nat))
  : list (Z * list nat) :=
  match d with
  | [] => [(key, [j])]
  | (key', ls) :: t =>
      if key' =? key then (key', ls ++ [j]) :: t
      else (key', ls) :: group_add key j t
  end.
Definition groups (enc : list Z) : list (list nat) :=
  map snd (fold_left (fun d kj => group_add (fst kj) (snd kj) d)
                     (map2 pair enc (seq 0 (length enc))) []).

(** srg/solver.py:58-77 [reduce_col] without its decorator *)
Definition reduce_col_body (Q : question) : res question :=
  let A := qA Q in
  let C := mcols A in
  if (C <? 2)%nat then Ok Q
  else
    enc <- unique_encode A ;;
    let gs := groups enc in
    if (length (qbounds Q) <? C)%nat then Raise IndexError  (* Q.bounds[locs] *)
    else
      let keep := map (fun ls => hd 0%nat ls) gs in
      let drop := concat (map (@tl nat) gs) in
      let bounds_new := map (fun ls => zsum (pick 0 ls (qbounds Q))) gs in
      let ul := unknown_loc (qans Q) in
      if existsb (fun j => (length ul <=? j)%nat) drop then Raise IndexError
      else
        let drop_in_ans := pick 0%nat drop ul in
        let v' := delete drop_in_ans (av (qans Q)) in
        let loc' := delete drop_in_ans (aloc (qans Q)) in
        let A' := Mat (length keep) (map (pick 0 keep) (mrows A)) in
        let bounds' := map i8 bounds_new in
        _ <- assert_ (nonneg bounds') ;;
        a' <- mk_answer v' loc' (alen (qans Q)) ;;
        _ <- assert_ (answer_fits A' a') ;;
        Ok (Qst A' (qb Q) (qquota Q) bounds' a').
Definition reduce_col (Q : question) : res question :=
  Q' <- reduce_col_body Q ;; post_check Q'.

(** srg/solver.py:82-86 [eliminate] *)
Definition eliminate_body (Q : question) : res question :=
  if Nat.eqb (mcols (qA Q)) 0 then Ok Q
  else
    Ab <- elim (qA Q) (qb Q) ;;
    let (Ae, be) := Ab in
    _ <- assert_ (nonneg be) ;;
    Ok (Qst Ae be (qquota Q) (qbounds Q) (qans Q)).
Definition eliminate (Q : question) : res question :=
  Q' <- eliminate_body Q ;; post_check Q'.

(** srg/solver.py:103-105: [ans._v[ul[j]] = x] for all listed [(j, x)] *)
Definition assign_all (ul : list nat) (jx : list (nat * Z)) (v : list Z) : list Z :=
  fold_left (fun v p => set_nth (nth (fst p) ul 0%nat) (snd p) v) jx v.

(** srg/solver.py:91-108 [zero_in_b] *)
Definition zero_in_b_body (Q : question) : res question :=
  let bounds := lower_upper_bound (mrows (qA Q)) (qb Q) (qbounds Q) in
  let ans := qans Q in
  let ul := unknown_loc ans in
  _ <- assert_ (Nat.eqb (length ul) (length bounds)) ;;
  let zbls := zero_bound_loc bounds in
  let v' := assign_all ul (map (fun j => (j, 0)) zbls) (av ans) in
  let bounds' := delete zbls bounds in
  let A' := Mat (mcols (qA Q) - length zbls) (map (delete zbls) (mrows (qA Q))) in
  _ <- assert_ (nonneg bounds') ;;
  Ok (Qst A' (qb Q) (qquota Q) bounds' (Ans v' (aloc ans) (alen ans))).
Definition zero_in_b (Q : question) : res question :=
  Q' <- zero_in_b_body Q ;; post_check Q'.

(** srg/solver.py:147-150: quota after the loop, with the setter's check. *)
Fixpoint spend (xs : list Z) (quota : Z) : res Z :=
  match xs with
  | [] => Ok quota
  | x :: t => _ <- assert_ (0 <=? quota - x) ;; spend t (quota - x)
  end.

(** srg/solver.py:112-155 [only_1_element_in_row], for one enumeration [rcs]
    of the set computed at line 125. *)
Definition only_1_with (rcs : list (nat * nat)) (Q : question) : res question :=
  let ans := qans Q in
  let ul := unknown_loc ans in
  _ <- assert_ (Nat.eqb (length ul) (length (qbounds Q))) ;;
  match rcs with
  | [] => Ok Q
  | _ =>
      let rs := map fst rcs in
      let cs := map snd rcs in
      let subA := map (pick 0 cs) (mrows (qA Q)) in
      let subx := pick 0 rs (qb Q) in
      let b_to_update := map i8 (matvec subA subx) in
      if existsb (fun rc => nth (snd rc) (qbounds Q) 0 <? nth (fst rc) (qb Q) 0) rcs
      then NoSolution
      else if qquota Q <? zsum subx then NoSolution
      else if any2 Z.gtb b_to_update (qb Q) then NoSolution
      else
        let v' := assign_all ul (map2 pair cs subx) (av ans) in
        quota' <- spend subx (qquota Q) ;;
        let b' := map2 (fun x y => i8 (x - y)) (qb Q) b_to_update in
        _ <- assert_ (nonneg b') ;;
        let A' := Mat (mcols (qA Q) - length cs) (map (delete cs) (mrows (qA Q))) in
        let bounds' := delete cs (qbounds Q) in
        _ <- assert_ (nonneg bounds') ;;
        Ok (Qst A' b' quota' bounds' (Ans v' (aloc ans) (alen ans)))
  end.
Definition only_1_body (Q : question) : res question :=
  only_1_with (one_element_row_locs (mrows (qA Q))) Q.
Definition only_1_element_in_row (Q : question) : res question :=
  Q' <- only_1_body Q ;; post_check Q'.

(** [np.argmin]: first position of the minimum *)
Fixpoint argmin_from (i best : nat) (m : Z) (l : list Z) : nat :=
  match l with
  | [] => best
  | x :: t => if x <? m then argmin_from (S i) i x t else argmin_from (S i) best m t
  end.
Definition argmin (l : list Z) : res nat :=
  match l with
  | [] => Raise ValueError
  | x :: t => Ok (argmin_from 1 0 x t)
  end.

(** srg/solver.py:174-183: the loop body of [fork_enum] for one value. *)
Definition fork_one (Q : question) (minloc : nat) (q_used : Z) : res (option question) :=
  let new_bound := delete [minloc] (qbounds Q) in
  let new_A := Mat (mcols (qA Q) - 1) (map (delete [minloc]) (mrows (qA Q))) in
  let new_b := map2 (fun bv row => i8 (bv - i8 (nth minloc row 0 * q_used)))
                    (qb Q) (mrows (qA Q)) in
  if existsb (fun x => x <? 0) new_b then Ok None           (* continue *)
  else
    a <- answer_copy (qans Q) ;;
    let a' := Ans (set_nth (nth minloc (unknown_loc (qans Q)) 0%nat) q_used (av a))
                  (aloc a) (alen a) in
    Q' <- mk_question new_A new_b (qquota Q - q_used) new_bound (Some a') ;;
    Ok (Some Q').

(** srg/solver.py:158-183 [fork_enum]: the questions yielded, in order. The
    decorator only sees the generator object, so its checks run on the
    unchanged [Q] before the first value is produced. *)
Definition fork_enum (Q : question) : res (list question) :=
  _ <- post_check Q ;;
  _ <- assert_ (0 <? length (unknown_loc (qans Q)))%nat ;;
  minloc <- argmin (qbounds Q) ;;
  qs <- mapM (fork_one Q minloc) (fork_enum_values (qquota Q) (qbounds Q) minloc) ;;
  Ok (flat_map (fun o => match o with Some q => [q] | None => [] end) qs).

(** srg/solver.py:197-204: one turn of the [while True] loop. *)
Definition refine_step (Q : question) : question + res question :=
  match (Qdummy <- question_copy Q ;;
         Q1 <- reduce_col Q ;;
         Q2 <- eliminate Q1 ;;
         Q3 <- zero_in_b Q2 ;;
         Q4 <- only_1_element_in_row Q3 ;;
         Ok (Q4, question_eqb Q4 Qdummy)) with
  | Ok (Q4, true) => inr (Ok Q4)
  | Ok (Q4, false) => inl Q4
  | NoSolution => inr NoSolution
  | Raise e => inr (Raise e)
  end.
Definition refine (Q : question) : res question :=
  while_ (mcols (qA Q) + 3) refine_step Q.

(** srg/solver.py:193-214: one turn of [while stack]. The state is the stack
    (top first) and the values yielded so far (latest first). *)
Definition question_step (s : list question * list (list Z))
  : (list question * list (list Z)) + res (list (list Z)) :=
  let (stack, out) := s in
  match stack with
  | [] => inr (Ok (rev out))
  | Q :: rest =>
      match refine Q with
      | NoSolution => inl (rest, out)
      | Raise e => inr (Raise e)
      | Ok Q' =>
          if answer_unknown (qans Q') then
            match fork_enum Q' with
            | Ok qs => inl (rev qs ++ rest, out)
            | NoSolution => inl (rest, out)
            | Raise e => inr (Raise e)
            end
          else
            match binarize (qans Q') with
            | Ok x => inl (rest, x :: out)
            | NoSolution => inl (rest, out)
            | Raise e => inr (Raise e)
            end
      end
  end.

(** loop fuel for [solve_question]: 2^fuel exceeds the product of (bound+2) *)
Definition question_fuel (Q : question) : nat :=
  fold_right plus 1%nat (map (fun b => Z.to_nat (Z.log2 (b + 2)) + 1)%nat (qbounds Q)).

(** srg/solver.py:189-214 [solve_question]: all yielded vectors. (If the
    generator raises, the values yielded before are dropped: the only caller,
    [advance], collects them with [list].) *)
Definition solve_question (Q : question) : res (list (list Z)) :=
  while_ (question_fuel Q) question_step ([Q], []).

(** srg/solver.py:222-229 [advance] *)
Definition advance (m : mat) : res (list mat) :=
  _ <- assert_ (negb (solved m)) ;;
  match from_matrix m with
  | NoSolution => Ok []
  | Raise e => Raise e
  | Ok q => xs <- solve_question q ;; mapM (append_row m) xs
  end.

(** srg/solver.py:235 and 239: [reduce(+, map(advance, lst_undone), [])] *)
Definition advance_all (l : list mat) : res (list mat) :=
  ls <- mapM advance l ;; Ok (concat ls).

(** srg/solver.py:217-220 [partition_by_done] *)
Definition lst_done (l : list mat) : list mat := filter solved l.
Definition lst_undone (l : list mat) : list mat := filter (fun m => negb (solved m)) l.

(** srg/solver.py:236-239, with the values yielded so far. *)
Fixpoint solve_loop (fuel : nat) (lst : list mat) (yielded : list mat) : res (list mat) :=
  match lst with
  | [] => Ok yielded
  | _ =>
      match fuel with
      | O => Raise OutOfFuel
      | S fuel' =>
          lst' <- advance_all (lst_undone lst) ;;
          solve_loop fuel' lst' (yielded ++ lst_done lst)
      end
  end.

(** srg/solver.py:231-239 [solve]: the list of yielded matrices. *)
Definition solve (m : mat) : res (list mat) :=
  lst <- advance m ;;
  lst' <- advance_all (lst_undone lst) ;;
  solve_loop (mcols m - mnrows m) lst' (lst_done lst).

(** srg/__main__.py:15-21 without printing and sorting: parameter check and
    search. srg/utils.py:31-32 [assert_srg]. *)
Definition assert_srg (v k l u : Z) : res unit :=
  assert_ ((v - k - 1) * u =? k * (k - l - 1)).
Definition run_main (v k l u : Z) : res (list mat) :=
  _ <- assert_srg v k l u ;;
  m <- seed v k l u ;;
  solve m.
