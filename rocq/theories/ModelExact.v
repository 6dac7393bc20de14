(** The search of Model.v once more, in unbounded integers: the wrap-around of
    int8 and int64 is left out everywhere, nothing else differs (for C79). Line
    numbers are those given at the definitions in ModelGauss.v and Model.v. *)
From Verif Require Import Np ModelGauss Model.

(** srg/gauss_elim.py:90-93, srg/unique.py:16-19 *)
Fixpoint pack_x (x : list Z) : Z :=
  match x with
  | [] => 0
  | a :: t => pack_x t + Z.shiftl a (Z.of_nat (length t))
  end.
(** srg/gauss_elim.py:71-95 *)
Definition encode_x (A : mat) (b : list Z) : res (list entry) :=
  _ <- assert_ (Nat.eqb (length b) (mnrows A)) ;;
  if Nat.eqb (mcols A) 0 then Raise IndexError
  else Ok (map2 (fun ki v => (fst ki, snd ki, v))
             (map2 pair (map pack_x (mrows A)) (map Z.of_nat (seq 0 (mnrows A)))) b).
(** srg/gauss_elim.py:109-133 *)
Definition decode_x (hd : list entry) : res (mat * list Z) :=
  match hd with
  | [] => Raise StopIteration
  | _ =>
      let bits := map (fun e => dec2bin (ekey e)) hd in
      let C := max_len bits in
      Ok (Mat C (map (pad_left C) bits), map eval_ hd)
  end.
(** srg/gauss_elim.py:142-145 *)
Definition elim_x (A : mat) (b : list Z) : res (mat * list Z) :=
  hd <- encode_x A b ;;
  hd' <- elim_core (2 * mnrows A + mcols A + 1) hd ;;
  decode_x hd'.
(** srg/unique.py:7-21 *)
Definition unique_encode_x (A : mat) : res (list Z) :=
  if Nat.eqb (mnrows A) 0 then Raise IndexError
  else Ok (map (fun j => pack_x (column j (mrows A))) (seq 0 (mcols A))).

(** srg/srg.py:267-272 *)
Definition vklu_x (m : mat) : res (Z * Z * Z * Z) :=
  match mrows m with
  | r0 :: r1 :: _ =>
      let v := Z.of_nat (mcols m) in
      let k := zsum r0 in
      let l := dot r0 r1 in
      Ok (v, k, l, np_floordiv (k * (k - l - 1)) (v - k - 1))
  | _ => Raise IndexError
  end.
(** srg/srg.py:144-171 *)
Definition from_matrix_x (m : mat) : res question :=
  vk <- vklu_x m ;;
  let '(v, k, l, u) := vk in
  let R := mnrows m in
  if (mcols m <=? R)%nat then Raise IndexError
  else
    let known := column R (mrows m) ++ [0] in
    let quota_used := map (fun row => dot (firstn (R + 1) row) known) (mrows m) in
    let quota := map (fun e => if e =? 0 then u else l) (column R (mrows m)) in
    let b0 := map2 Z.sub quota quota_used in
    let A0 := map (skipn (R + 1)) (mrows m) in
    let unknown_len := (mcols m - R - 1)%nat in
    let b_k := k - zsum known in
    let a_k := repeat 1 unknown_len in
    let A := Mat unknown_len (A0 ++ [a_k]) in
    let b := b0 ++ [b_k] in
    if existsb (fun x => x <? 0) b then NoSolution
    else mk_question A b b_k a_k None.

(** srg/solver.py:58-77 *)
Definition reduce_col_body_x (Q : question) : res question :=
  let A := qA Q in
  let C := mcols A in
  if (C <? 2)%nat then Ok Q
  else
    enc <- unique_encode_x A ;;
    let gs := groups enc in
    if (length (qbounds Q) <? C)%nat then Raise IndexError
    else
      let keep := map (fun ls => hd 0%nat ls) gs in
      let drop := concat (map (@tl nat) gs) in
      let bounds' := map (fun ls => zsum (pick 0 ls (qbounds Q))) gs in
      let ul := unknown_loc (qans Q) in
      if existsb (fun j => (length ul <=? j)%nat) drop then Raise IndexError
      else
        let drop_in_ans := pick 0%nat drop ul in
        let v' := delete drop_in_ans (av (qans Q)) in
        let loc' := delete drop_in_ans (aloc (qans Q)) in
        let A' := Mat (length keep) (map (pick 0 keep) (mrows A)) in
        _ <- assert_ (nonneg bounds') ;;
        a' <- mk_answer v' loc' (alen (qans Q)) ;;
        _ <- assert_ (answer_fits A' a') ;;
        Ok (Qst A' (qb Q) (qquota Q) bounds' a').
Definition reduce_col_x (Q : question) : res question :=
  Q' <- reduce_col_body_x Q ;; post_check Q'.
(** srg/solver.py:82-86 *)
Definition eliminate_body_x (Q : question) : res question :=
  if Nat.eqb (mcols (qA Q)) 0 then Ok Q
  else
    Ab <- elim_x (qA Q) (qb Q) ;;
    let (Ae, be) := Ab in
    _ <- assert_ (nonneg be) ;;
    Ok (Qst Ae be (qquota Q) (qbounds Q) (qans Q)).
Definition eliminate_x (Q : question) : res question :=
  Q' <- eliminate_body_x Q ;; post_check Q'.
(** srg/solver.py:112-155 *)
Definition only_1_body_x (Q : question) : res question :=
  let rcs := one_element_row_locs (mrows (qA Q)) in
  let ans := qans Q in
  let ul := unknown_loc ans in
  _ <- assert_ (Nat.eqb (length ul) (length (qbounds Q))) ;;
  match rcs with
  | [] => Ok Q
  | _ =>
      let rs := map fst rcs in
      let cs := map snd rcs in
      let subA := map (pick 0 cs) (mrows (qA Q)) in
      let subx := pick 0 rs (qb Q) in
      let b_to_update := matvec subA subx in
      if existsb (fun rc => nth (snd rc) (qbounds Q) 0 <? nth (fst rc) (qb Q) 0) rcs
      then NoSolution
      else if qquota Q <? zsum subx then NoSolution
      else if any2 Z.gtb b_to_update (qb Q) then NoSolution
      else
        let v' := assign_all ul (map2 pair cs subx) (av ans) in
        quota' <- spend subx (qquota Q) ;;
        let b' := map2 Z.sub (qb Q) b_to_update in
        _ <- assert_ (nonneg b') ;;
        let A' := Mat (mcols (qA Q) - length cs) (map (delete cs) (mrows (qA Q))) in
        let bounds' := delete cs (qbounds Q) in
        _ <- assert_ (nonneg bounds') ;;
        Ok (Qst A' b' quota' bounds' (Ans v' (aloc ans) (alen ans)))
  end.
Definition only_1_element_in_row_x (Q : question) : res question :=
  Q' <- only_1_body_x Q ;; post_check Q'.
(** srg/solver.py:174-183 *)
Definition fork_one_x (Q : question) (minloc : nat) (q_used : Z) : res (option question) :=
  let new_bound := delete [minloc] (qbounds Q) in
  let new_A := Mat (mcols (qA Q) - 1) (map (delete [minloc]) (mrows (qA Q))) in
  let new_b := map2 (fun bv row => bv - nth minloc row 0 * q_used) (qb Q) (mrows (qA Q)) in
  if existsb (fun x => x <? 0) new_b then Ok None
  else
    a <- answer_copy (qans Q) ;;
    let a' := Ans (set_nth (nth minloc (unknown_loc (qans Q)) 0%nat) q_used (av a))
                  (aloc a) (alen a) in
    Q' <- mk_question new_A new_b (qquota Q - q_used) new_bound (Some a') ;;
    Ok (Some Q').
(** srg/solver.py:158-183 *)
Definition fork_enum_x (Q : question) : res (list question) :=
  _ <- post_check Q ;;
  _ <- assert_ (0 <? length (unknown_loc (qans Q)))%nat ;;
  minloc <- argmin (qbounds Q) ;;
  qs <- mapM (fork_one_x Q minloc) (fork_enum_values (qquota Q) (qbounds Q) minloc) ;;
  Ok (flat_map (fun o => match o with Some q => [q] | None => [] end) qs).
(** srg/solver.py:197-204 *)
Definition refine_step_x (Q : question) : question + res question :=
  match (Qdummy <- question_copy Q ;;
         Q1 <- reduce_col_x Q ;;
         Q2 <- eliminate_x Q1 ;;
         Q3 <- zero_in_b Q2 ;;
         Q4 <- only_1_element_in_row_x Q3 ;;
         Ok (Q4, question_eqb Q4 Qdummy)) with
  | Ok (Q4, true) => inr (Ok Q4)
  | Ok (Q4, false) => inl Q4
  | NoSolution => inr NoSolution
  | Raise e => inr (Raise e)
  end.
Definition refine_x (Q : question) : res question :=
  while_ (mcols (qA Q) + 3) refine_step_x Q.
(** srg/solver.py:189-214 *)
Definition question_step_x (s : list question * list (list Z))
  : (list question * list (list Z)) + res (list (list Z)) :=
  let (stack, out) := s in
  match stack with
  | [] => inr (Ok (rev out))
  | Q :: rest =>
      match refine_x Q with
      | NoSolution => inl (rest, out)
      | Raise e => inr (Raise e)
      | Ok Q' =>
          if answer_unknown (qans Q') then
            match fork_enum_x Q' with
            | Ok qs => inl (rev qs ++ rest, out)
            | NoSolution => inl (rest, out)
            | Raise e => inr (Raise e)
            end
          else
            match binarize (qans Q') with
            | Ok x => inl (rest, x :: out)
            | NoSolution => inl (rest, out)
            | Raise e => inr (Raise e)
            end
      end
  end.
Definition solve_question_x (Q : question) : res (list (list Z)) :=
  while_ (question_fuel Q) question_step_x ([Q], []).
(** srg/solver.py:222-239 *)
Definition advance_x (m : mat) : res (list mat) :=
  _ <- assert_ (negb (solved m)) ;;
  match from_matrix_x m with
  | NoSolution => Ok []
  | Raise e => Raise e
  | Ok q => xs <- solve_question_x q ;; mapM (append_row m) xs
  end.
Definition advance_all_x (l : list mat) : res (list mat) :=
  ls <- mapM advance_x l ;; Ok (concat ls).
Fixpoint solve_loop_x (fuel : nat) (lst : list mat) (yielded : list mat) : res (list mat) :=
  match lst with
  | [] => Ok yielded
  | _ =>
      match fuel with
      | O => Raise OutOfFuel
      | S fuel' =>
          lst' <- advance_all_x (lst_undone lst) ;;
          solve_loop_x fuel' lst' (yielded ++ lst_done lst)
      end
  end.
Definition solve_x (m : mat) : res (list mat) :=
  lst <- advance_x m ;;
  lst' <- advance_all_x (lst_undone lst) ;;
  solve_loop_x (mcols m - mnrows m) lst' (lst_done lst).
(** srg/__main__.py:15-21 *)
Definition run_main_x (v k l u : Z) : res (list mat) :=
  _ <- assert_srg v k l u ;;
  m <- seed v k l u ;;
  solve_x m.
