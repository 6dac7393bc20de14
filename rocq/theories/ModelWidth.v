(** The search of Model.v once more, with every numpy operation checked: where
    the result of an int8 or int64 operation does not fit its type the copy
    raises [Overflow] instead of wrapping around. Line numbers are those given
    at the unchecked definitions in ModelGauss.v and Model.v; only the
    arithmetic differs. Operations on Python integers and on array indices are
    not checked. Sums and products are checked at every partial result.
    One check is made late: the product of srg/solver.py:132 is checked where
    it is first used (142), so only in questions that 135-140 do not reject.
    [Q.b] is an int64 array before the first elimination (np.append with an
    int64 scalar, srg/srg.py:166) and int8 after; it is checked as int8
    throughout, which is stricter. *)
From Verif Require Import Np ModelGauss Model.

Definition w8 (z : Z) : res Z := if (-128 <=? z) && (z <? 128) then Ok z else Raise Overflow.
Definition w64 (z : Z) : res Z :=
  if (- 9223372036854775808 <=? z) && (z <? 9223372036854775808) then Ok z else Raise Overflow.

(** int64 [sum()], int64 [np.diff], int8 inner product *)
Fixpoint sum_w (l : list Z) : res Z :=
  match l with
  | [] => Ok 0
  | a :: t => r <- sum_w t ;; w64 (a + r)
  end.
Definition diff_w (l : list Z) : res (list Z) := mapM w64 (diff l).
Fixpoint dot_w (x y : list Z) : res Z :=
  match x, y with
  | a :: x', b :: y' => p <- w8 (a * b) ;; r <- dot_w x' y' ;; w8 (p + r)
  | _, _ => Ok 0
  end.

(** ** gauss_elim.py, unique.py, bounds.py, fork.py *)
Fixpoint pack_w (x : list Z) : res Z :=
  match x with
  | [] => Ok 0
  | a :: t => p <- pack_w t ;; d <- w64 (Z.shiftl a (Z.of_nat (length t))) ;; w64 (p + d)
  end.

Definition sub_entry_w (m e : entry) : res entry :=
  k <- w64 (ekey e - ekey m) ;; x <- w8 (eval_ e - eval_ m) ;; Ok (k, eidx e, x).

Definition gauss_elim_w (hd : list entry) : res (bool * list entry) :=
  match hd with
  | [] => Raise IndexError
  | m :: rest =>
      _ <- assert_ (0 <? ekey m) ;;
      reducible <- mapM (sub_entry_w m) (filter (reduces m) rest) ;;
      let same := filter (fun e => negb (reduces m e)) rest in
      match reducible with
      | [] => Ok (false, merge_e [m] same)
      | _ => Ok (true, merge_e [m] (merge_e (remove_zerokeys reducible) same))
      end
  end.

Definition elim_step_w (s : list entry * list entry)
  : (list entry * list entry) + res (list entry) :=
  let (hs, hd) := s in
  match hd with
  | [] => inr (Ok hs)
  | _ =>
      match gauss_elim_w hd with
      | Ok (true, hd') => inl ([], merge_e hs hd')
      | Ok (false, hd') =>
          match hd' with
          | m :: t => inl (hs ++ [m], t)
          | [] => inr (Raise IndexError)
          end
      | NoSolution => inr NoSolution
      | Raise e => inr (Raise e)
      end
  end.

Definition elim_core_w (n : nat) (hd : list entry) : res (list entry) :=
  let hd := remove_zerokeys hd in
  if (length hd <=? 1)%nat then Ok hd
  else while_ n elim_step_w ([], sort_e hd).

Definition encode_w (A : mat) (b : list Z) : res (list entry) :=
  _ <- assert_ (Nat.eqb (length b) (mnrows A)) ;;
  if Nat.eqb (mcols A) 0 then Raise IndexError
  else
    keys <- mapM pack_w (mrows A) ;;
    Ok (map2 (fun ki v => (fst ki, snd ki, v))
          (map2 pair keys (map Z.of_nat (seq 0 (mnrows A)))) b).

Definition decode_w (hd : list entry) : res (mat * list Z) :=
  match hd with
  | [] => Raise StopIteration
  | _ =>
      let bits := map (fun e => dec2bin (ekey e)) hd in
      let C := max_len bits in
      b <- mapM (fun e => w8 (eval_ e)) hd ;;
      Ok (Mat C (map (pad_left C) bits), b)
  end.

Definition elim_w (A : mat) (b : list Z) : res (mat * list Z) :=
  hd <- encode_w A b ;;
  hd' <- elim_core_w (2 * mnrows A + mcols A + 1) hd ;;
  decode_w hd'.

Definition unique_encode_w (A : mat) : res (list Z) :=
  if Nat.eqb (mnrows A) 0 then Raise IndexError
  else mapM (fun j => pack_w (column j (mrows A))) (seq 0 (mcols A)).

Definition tighten_row_w (row : list Z) (bv : Z) (bounds : list Z) : res (list Z) :=
  mapM (fun ab => if fst ab =? 0 then Ok (snd ab) else w8 (Z.min (snd ab) bv)) (map2 pair row bounds).
Fixpoint lower_upper_bound_w (A : list (list Z)) (b : list Z) (bounds : list Z) : res (list Z) :=
  match A, b with
  | row :: A', bv :: b' => bd <- tighten_row_w row bv bounds ;; lower_upper_bound_w A' b' bd
  | _, _ => Ok bounds
  end.

Definition fork_enum_values_w (quota : Z) (bounds : list Z) (loc : nat) : res (list Z) :=
  let m := nth loc bounds 0 in
  s <- sum_w (delete [loc] bounds) ;;
  d <- w64 (quota - s) ;;
  m1 <- w64 (m + 1) ;;
  Ok (zrange (Z.max 0 d) m1).

(** ** srg.py *)
Definition mk_answer_w (v loc : list Z) (len : Z) : res answer :=
  _ <- assert_ (Nat.eqb (length v) (length loc)) ;;
  _ <- (match loc with
        | [] => Ok tt
        | l0 :: _ =>
            _ <- assert_ (l0 =? 0) ;;
            d <- diff_w loc ;;
            _ <- assert_ (forallb (fun d => negb (d =? 0)) d) ;;
            assert_ (last loc 0 <? len)
        end) ;;
  Ok (Ans v loc len).
Definition default_answer_w (C : nat) : res answer :=
  mk_answer_w (repeat UNKNOWN C) (map Z.of_nat (seq 0 C)) (Z.of_nat C).
Definition answer_quota_w (a : answer) : res (list Z) :=
  q <- diff_w (aloc a ++ [alen a]) ;;
  s <- sum_w q ;;
  _ <- assert_ (s =? alen a) ;;
  Ok q.
Definition answer_copy_w (a : answer) : res answer := mk_answer_w (av a) (aloc a) (alen a).

Fixpoint binarize_loop_w (v quota : list Z) (ptr : Z) (ans : list Z) : res (list Z) :=
  match v, quota with
  | c :: v', b :: quota' =>
      e <- w64 (ptr + c) ;;
      p <- w64 (ptr + b) ;;
      binarize_loop_w v' quota' p (slice_set ptr e 1 ans)
  | _, _ => Ok ans
  end.
Definition binarize_w (a : answer) : res (list Z) :=
  _ <- assert_ (forallb (fun x => negb (is_unknown x)) (av a)) ;;
  q <- answer_quota_w a ;;
  _ <- assert_ (negb (any2 Z.gtb (av a) q)) ;;
  binarize_loop_w (av a) q 0 (repeat 0 (Z.to_nat (alen a))).

Definition mk_question_w (A : mat) (b : list Z) (quota : Z) (bounds : list Z)
    (ans : option answer) : res question :=
  _ <- assert_ (Nat.eqb (mnrows A) (length b)) ;;
  _ <- assert_ (Nat.eqb (mcols A) (length bounds)) ;;
  _ <- assert_ (nonneg b) ;;
  _ <- assert_ (0 <=? quota) ;;
  _ <- assert_ (nonneg bounds) ;;
  a <- (match ans with
        | None => default_answer_w (mcols A)
        | Some a => Ok a
        end) ;;
  Ok (Qst A b quota bounds a).

Definition vklu_w (m : mat) : res (Z * Z * Z * Z) :=
  match mrows m with
  | r0 :: r1 :: _ =>
      let v := Z.of_nat (mcols m) in
      k <- sum_w r0 ;;
      l <- dot_w r0 r1 ;;
      x <- w64 (k - l) ;;
      y <- w64 (x - 1) ;;
      n <- w64 (k * y) ;;
      d <- w64 (v - k) ;;
      d1 <- w64 (d - 1) ;;
      u <- w64 (np_floordiv n d1) ;;
      Ok (v, k, l, u)
  | _ => Raise IndexError
  end.

Definition from_matrix_w (m : mat) : res question :=
  vk <- vklu_w m ;;
  let '(v, k, l, u) := vk in
  let R := mnrows m in
  if (mcols m <=? R)%nat then Raise IndexError
  else
    let known := column R (mrows m) ++ [0] in
    quota_used <- mapM (fun row => dot_w (firstn (R + 1) row) known) (mrows m) ;;
    quota <- mapM (fun e => w8 (if e =? 0 then u else l)) (column R (mrows m)) ;;
    b0 <- mapM (fun xy => w8 (fst xy - snd xy)) (map2 pair quota quota_used) ;;
    let A0 := map (skipn (R + 1)) (mrows m) in
    let unknown_len := (mcols m - R - 1)%nat in
    kn <- sum_w known ;;
    b_k <- w64 (k - kn) ;;
    let a_k := repeat 1 unknown_len in
    let A := Mat unknown_len (A0 ++ [a_k]) in
    let b := b0 ++ [b_k] in
    if existsb (fun x => x <? 0) b then NoSolution
    else mk_question_w A b b_k a_k None.

Definition question_copy_w (Q : question) : res question :=
  a <- answer_copy_w (qans Q) ;;
  mk_question_w (qA Q) (qb Q) (qquota Q) (qbounds Q) (Some a).

(** ** solver.py *)
Definition post_check_w (Q : question) : res question :=
  let C := mcols (qA Q) in
  if Nat.eqb C 0 && existsb (fun x => negb (x =? 0)) (qb Q) then NoSolution
  else
    _ <- assert_ (Nat.eqb (length (qbounds Q)) C) ;;
    s <- sum_w (qbounds Q) ;;
    if (0 <? length (qbounds Q))%nat && (s <? qquota Q) then NoSolution
    else
      q <- answer_quota_w (qans Q) ;;
      if any2 Z.gtb (av (qans Q)) q then NoSolution
      else Ok Q.

Definition reduce_col_body_w (Q : question) : res question :=
  let A := qA Q in
  let C := mcols A in
  if (C <? 2)%nat then Ok Q
  else
    enc <- unique_encode_w A ;;
    let gs := groups enc in
    if (length (qbounds Q) <? C)%nat then Raise IndexError
    else
      let keep := map (fun ls => hd 0%nat ls) gs in
      let drop := concat (map (@tl nat) gs) in
      bounds_new <- mapM (fun ls => sum_w (pick 0 ls (qbounds Q))) gs ;;
      let ul := unknown_loc (qans Q) in
      if existsb (fun j => (length ul <=? j)%nat) drop then Raise IndexError
      else
        let drop_in_ans := pick 0%nat drop ul in
        let v' := delete drop_in_ans (av (qans Q)) in
        let loc' := delete drop_in_ans (aloc (qans Q)) in
        let A' := Mat (length keep) (map (pick 0 keep) (mrows A)) in
        bounds' <- mapM w8 bounds_new ;;
        _ <- assert_ (nonneg bounds') ;;
        a' <- mk_answer_w v' loc' (alen (qans Q)) ;;
        _ <- assert_ (answer_fits A' a') ;;
        Ok (Qst A' (qb Q) (qquota Q) bounds' a').
Definition reduce_col_w (Q : question) : res question :=
  Q' <- reduce_col_body_w Q ;; post_check_w Q'.

Definition eliminate_body_w (Q : question) : res question :=
  if Nat.eqb (mcols (qA Q)) 0 then Ok Q
  else
    Ab <- elim_w (qA Q) (qb Q) ;;
    let (Ae, be) := Ab in
    _ <- assert_ (nonneg be) ;;
    Ok (Qst Ae be (qquota Q) (qbounds Q) (qans Q)).
Definition eliminate_w (Q : question) : res question :=
  Q' <- eliminate_body_w Q ;; post_check_w Q'.

Definition zero_in_b_body_w (Q : question) : res question :=
  bounds <- lower_upper_bound_w (mrows (qA Q)) (qb Q) (qbounds Q) ;;
  let ans := qans Q in
  let ul := unknown_loc ans in
  _ <- assert_ (Nat.eqb (length ul) (length bounds)) ;;
  let zbls := zero_bound_loc bounds in
  let v' := assign_all ul (map (fun j => (j, 0)) zbls) (av ans) in
  let bounds' := delete zbls bounds in
  let A' := Mat (mcols (qA Q) - length zbls) (map (delete zbls) (mrows (qA Q))) in
  _ <- assert_ (nonneg bounds') ;;
  Ok (Qst A' (qb Q) (qquota Q) bounds' (Ans v' (aloc ans) (alen ans))).
Definition zero_in_b_w (Q : question) : res question :=
  Q' <- zero_in_b_body_w Q ;; post_check_w Q'.

Fixpoint spend_w (xs : list Z) (quota : Z) : res Z :=
  match xs with
  | [] => Ok quota
  | x :: t => q <- w64 (quota - x) ;; _ <- assert_ (0 <=? q) ;; spend_w t q
  end.

Definition only_1_body_w (Q : question) : res question :=
  let rcs := one_element_row_locs (mrows (qA Q)) in
  let ans := qans Q in
  let ul := unknown_loc ans in
  _ <- assert_ (Nat.eqb (length ul) (length (qbounds Q))) ;;
  match rcs with
  | [] => Ok Q
  | _ =>
      let rs := map fst rcs in
      let cs := map snd rcs in
      let subA := map (pick 0 cs) (mrows (qA Q)) in
      let subx := pick 0 rs (qb Q) in
      if existsb (fun rc => nth (snd rc) (qbounds Q) 0 <? nth (fst rc) (qb Q) 0) rcs
      then NoSolution
      else
        sx <- sum_w subx ;;
        if qquota Q <? sx then NoSolution
        else
        b_to_update <- mapM (fun row => dot_w row subx) subA ;;
        if any2 Z.gtb b_to_update (qb Q) then NoSolution
        else
          vals <- mapM w8 subx ;;
          let v' := assign_all ul (map2 pair cs vals) (av ans) in
          quota' <- spend_w subx (qquota Q) ;;
          b' <- mapM (fun xy => w8 (fst xy - snd xy)) (map2 pair (qb Q) b_to_update) ;;
          _ <- assert_ (nonneg b') ;;
          let A' := Mat (mcols (qA Q) - length cs) (map (delete cs) (mrows (qA Q))) in
          let bounds' := delete cs (qbounds Q) in
          _ <- assert_ (nonneg bounds') ;;
          Ok (Qst A' b' quota' bounds' (Ans v' (aloc ans) (alen ans)))
  end.
Definition only_1_element_in_row_w (Q : question) : res question :=
  Q' <- only_1_body_w Q ;; post_check_w Q'.

Definition fork_one_w (Q : question) (minloc : nat) (q_used : Z) : res (option question) :=
  let new_bound := delete [minloc] (qbounds Q) in
  let new_A := Mat (mcols (qA Q) - 1) (map (delete [minloc]) (mrows (qA Q))) in
  q <- w64 (qquota Q - q_used) ;;
  q8 <- w8 q_used ;;
  new_b <- mapM (fun br => p <- w8 (nth minloc (snd br) 0 * q8) ;; w8 (fst br - p))
                (map2 pair (qb Q) (mrows (qA Q))) ;;
  if existsb (fun x => x <? 0) new_b then Ok None
  else
    a <- answer_copy_w (qans Q) ;;
    let a' := Ans (set_nth (nth minloc (unknown_loc (qans Q)) 0%nat) q8 (av a))
                  (aloc a) (alen a) in
    Q' <- mk_question_w new_A new_b q new_bound (Some a') ;;
    Ok (Some Q').

Definition fork_enum_w (Q : question) : res (list question) :=
  _ <- post_check_w Q ;;
  _ <- assert_ (0 <? length (unknown_loc (qans Q)))%nat ;;
  minloc <- argmin (qbounds Q) ;;
  vs <- fork_enum_values_w (qquota Q) (qbounds Q) minloc ;;
  qs <- mapM (fork_one_w Q minloc) vs ;;
  Ok (flat_map (fun o => match o with Some q => [q] | None => [] end) qs).

Definition refine_step_w (Q : question) : question + res question :=
  match (Qdummy <- question_copy_w Q ;;
         Q1 <- reduce_col_w Q ;;
         Q2 <- eliminate_w Q1 ;;
         Q3 <- zero_in_b_w Q2 ;;
         Q4 <- only_1_element_in_row_w Q3 ;;
         Ok (Q4, question_eqb Q4 Qdummy)) with
  | Ok (Q4, true) => inr (Ok Q4)
  | Ok (Q4, false) => inl Q4
  | NoSolution => inr NoSolution
  | Raise e => inr (Raise e)
  end.
Definition refine_w (Q : question) : res question :=
  while_ (mcols (qA Q) + 3) refine_step_w Q.

Definition question_step_w (s : list question * list (list Z))
  : (list question * list (list Z)) + res (list (list Z)) :=
  let (stack, out) := s in
  match stack with
  | [] => inr (Ok (rev out))
  | Q :: rest =>
      match refine_w Q with
      | NoSolution => inl (rest, out)
      | Raise e => inr (Raise e)
      | Ok Q' =>
          if answer_unknown (qans Q') then
            match fork_enum_w Q' with
            | Ok qs => inl (rev qs ++ rest, out)
            | NoSolution => inl (rest, out)
            | Raise e => inr (Raise e)
            end
          else
            match binarize_w (qans Q') with
            | Ok x => inl (rest, x :: out)
            | NoSolution => inl (rest, out)
            | Raise e => inr (Raise e)
            end
      end
  end.
Definition solve_question_w (Q : question) : res (list (list Z)) :=
  while_ (question_fuel Q) question_step_w ([Q], []).

Definition advance_w (m : mat) : res (list mat) :=
  _ <- assert_ (negb (solved m)) ;;
  match from_matrix_w m with
  | NoSolution => Ok []
  | Raise e => Raise e
  | Ok q => xs <- solve_question_w q ;; mapM (append_row m) xs
  end.
Definition advance_all_w (l : list mat) : res (list mat) :=
  ls <- mapM advance_w l ;; Ok (concat ls).
Fixpoint solve_loop_w (fuel : nat) (lst : list mat) (yielded : list mat) : res (list mat) :=
  match lst with
  | [] => Ok yielded
  | _ =>
      match fuel with
      | O => Raise OutOfFuel
      | S fuel' =>
          lst' <- advance_all_w (lst_undone lst) ;;
          solve_loop_w fuel' lst' (yielded ++ lst_done lst)
      end
  end.
Definition solve_w (m : mat) : res (list mat) :=
  lst <- advance_w m ;;
  lst' <- advance_all_w (lst_undone lst) ;;
  solve_loop_w (mcols m - mnrows m) lst' (lst_done lst).

(** srg/__main__.py:15-21; [assert_srg] and [_seed] compute on Python integers *)
Definition run_main_w (v k l u : Z) : res (list mat) :=
  _ <- assert_srg v k l u ;;
  m <- seed v k l u ;;
  solve_w m.
