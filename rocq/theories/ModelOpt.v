(** The search under [python -O]: every [assert] of srg/gauss_elim.py, srg/srg.py,
    srg/solver.py and srg/utils.py is left out, nothing else differs from
    ModelGauss.v and Model.v (for C80). What a step does after an assertion that
    would have failed is not claimed to be right; C80 is about runs in which only
    the one of srg/utils.py:32 would. *)
From Coq Require Import String.
From Verif Require Import Np ModelGauss Model ModelSort ModelUtil ModelPrint.
Local Open Scope list_scope.
Local Open Scope Z_scope.

(** srg/gauss_elim.py:14-42 *)
Definition gauss_elim_o (hd : list entry) : res (bool * list entry) :=
  match hd with
  | [] => Raise IndexError
  | m :: rest =>
      let reducible := map (sub_entry m) (filter (reduces m) rest) in
      let same := filter (fun e => negb (reduces m e)) rest in
      match reducible with
      | [] => Ok (false, merge_e [m] same)
      | _ => Ok (true, merge_e [m] (merge_e (remove_zerokeys reducible) same))
      end
  end.
(** srg/gauss_elim.py:57-66 *)
Definition elim_step_o (s : list entry * list entry)
  : (list entry * list entry) + res (list entry) :=
  let (hs, hd) := s in
  match hd with
  | [] => inr (Ok hs)                                  (* 68: hd += hs *)
  | _ =>
      match gauss_elim_o hd with
      | Ok (true, hd') => inl ([], merge_e hs hd')      (* 60-63 *)
      | Ok (false, hd') =>                             (* 65-66 *)
          match hd' with
          | m :: t => inl (hs ++ [m], t)
          | [] => inr (Raise IndexError)
          end
      | NoSolution => inr NoSolution
      | Raise e => inr (Raise e)
      end
  end.
(** srg/gauss_elim.py:45-68 *)
Definition elim_core_o (n : nat) (hd : list entry) : res (list entry) :=
  let hd := remove_zerokeys hd in
  if (List.length hd <=? 1)%nat then Ok hd
  else while_ n elim_step_o ([], sort_e hd).
(** srg/gauss_elim.py:71-95 *)
Definition encode_o (A : mat) (b : list Z) : res (list entry) :=
  if Nat.eqb (mcols A) 0 then Raise IndexError
  else Ok (map2 (fun ki v => (fst ki, snd ki, v))
             (map2 pair (map pack (mrows A))
                        (map Z.of_nat (seq 0 (mnrows A)))) b).
(** srg/gauss_elim.py:142-145 *)
Definition elim_o (A : mat) (b : list Z) : res (mat * list Z) :=
  hd <- encode_o A b ;;
  hd' <- elim_core_o (2 * mnrows A + mcols A + 1) hd ;;
  decode hd'.
(** srg/srg.py:17-27 *)
Definition mk_answer_o (v loc : list Z) (len : Z) : res answer :=
  Ok (Ans v loc len).
(** srg/srg.py:29-31 *)
Definition default_answer_o (C : nat) : res answer :=
  mk_answer_o (repeat UNKNOWN C) (map Z.of_nat (seq 0 C)) (Z.of_nat C).
(** srg/srg.py:33-38 *)
Definition answer_quota_o (a : answer) : res (list Z) :=
  let q := quota_of (aloc a) (alen a) in
  Ok q.
(** srg/srg.py:48-49 *)
Definition answer_copy_o (a : answer) : res answer :=
  mk_answer_o (av a) (aloc a) (alen a).
(** srg/srg.py:63-92 *)
Definition binarize_o (a : answer) : res (list Z) :=
  q <- answer_quota_o a ;;
  Ok (binarize_loop (av a) q 0 (repeat 0 (Z.to_nat (alen a)))).
(** srg/srg.py:100-107 *)
Definition mk_question_o (A : mat) (b : list Z) (quota : Z) (bounds : list Z)
    (ans : option answer) : res question :=
  a <- (match ans with
        | None => default_answer_o (mcols A)
        | Some a => Ok a
        end) ;;
  Ok (Qst A b quota bounds a).
(** srg/srg.py:144-171 *)
Definition from_matrix_o (m : mat) : res question :=
  vk <- vklu m ;;
  let '(v, k, l, u) := vk in
  let R := mnrows m in
  if (mcols m <=? R)%nat then Raise IndexError             (* 149: m[:, R] *)
  else
    let known := column R (mrows m) ++ [0] in
    let quota_used := map (fun row => i8 (dot (firstn (R + 1) row) known)) (mrows m) in
    let quota := map (fun e => i8 (if e =? 0 then u else l)) (column R (mrows m)) in
    let b0 := map2 (fun x y => i8 (x - y)) quota quota_used in
    let A0 := map (skipn (R + 1)) (mrows m) in
    let unknown_len := (mcols m - R - 1)%nat in
    let b_k := k - zsum known in
    let a_k := repeat 1 unknown_len in
    let A := Mat unknown_len (A0 ++ [a_k]) in
    let b := b0 ++ [b_k] in
    if existsb (fun x => x <? 0) b then NoSolution
    else mk_question_o A b b_k a_k None.
(** srg/srg.py:194-195 *)
Definition question_copy_o (Q : question) : res question :=
  a <- answer_copy_o (qans Q) ;;
  mk_question_o (qA Q) (qb Q) (qquota Q) (qbounds Q) (Some a).
(** srg/srg.py:246-262 *)
Definition append_row_o (m : mat) (ans_essential : list Z) : res mat :=
  let R := mnrows m in
  if (mcols m <=? R)%nat then Raise IndexError
  else
    let ans_row := column R (mrows m) ++ [0] ++ ans_essential in
    Ok (Mat (mcols m) (mrows m ++ [ans_row])).
(** srg/solver.py:29-52 *)
Definition post_check_o (Q : question) : res question :=
  let C := mcols (qA Q) in
  if Nat.eqb C 0 && existsb (fun x => negb (x =? 0)) (qb Q) then NoSolution
  else
    if (0 <? List.length (qbounds Q))%nat && (zsum (qbounds Q) <? qquota Q) then NoSolution
    else
      q <- answer_quota_o (qans Q) ;;
      if any2 Z.gtb (av (qans Q)) q then NoSolution
      else Ok Q.
(** srg/solver.py:58-77 *)
Definition reduce_col_body_o (Q : question) : res question :=
  let A := qA Q in
  let C := mcols A in
  if (C <? 2)%nat then Ok Q
  else
    enc <- unique_encode A ;;
    let gs := groups enc in
    if (List.length (qbounds Q) <? C)%nat then Raise IndexError  (* Q.bounds[locs] *)
    else
      let keep := map (fun ls => hd 0%nat ls) gs in
      let drop := concat (map (@tl nat) gs) in
      let bounds_new := map (fun ls => zsum (pick 0 ls (qbounds Q))) gs in
      let ul := unknown_loc (qans Q) in
      if existsb (fun j => (List.length ul <=? j)%nat) drop then Raise IndexError
      else
        let drop_in_ans := pick 0%nat drop ul in
        let v' := delete drop_in_ans (av (qans Q)) in
        let loc' := delete drop_in_ans (aloc (qans Q)) in
        let A' := Mat (List.length keep) (map (pick 0 keep) (mrows A)) in
        let bounds' := map i8 bounds_new in
        a' <- mk_answer_o v' loc' (alen (qans Q)) ;;
        Ok (Qst A' (qb Q) (qquota Q) bounds' a').
Definition reduce_col_o (Q : question) : res question :=
  Q' <- reduce_col_body_o Q ;; post_check_o Q'.
(** srg/solver.py:82-86 *)
Definition eliminate_body_o (Q : question) : res question :=
  if Nat.eqb (mcols (qA Q)) 0 then Ok Q
  else
    Ab <- elim_o (qA Q) (qb Q) ;;
    let (Ae, be) := Ab in
    Ok (Qst Ae be (qquota Q) (qbounds Q) (qans Q)).
Definition eliminate_o (Q : question) : res question :=
  Q' <- eliminate_body_o Q ;; post_check_o Q'.
(** srg/solver.py:91-108 *)
Definition zero_in_b_body_o (Q : question) : res question :=
  let bounds := lower_upper_bound (mrows (qA Q)) (qb Q) (qbounds Q) in
  let ans := qans Q in
  let ul := unknown_loc ans in
  let zbls := zero_bound_loc bounds in
  let v' := assign_all ul (map (fun j => (j, 0)) zbls) (av ans) in
  let bounds' := delete zbls bounds in
  let A' := Mat (mcols (qA Q) - List.length zbls) (map (delete zbls) (mrows (qA Q))) in
  Ok (Qst A' (qb Q) (qquota Q) bounds' (Ans v' (aloc ans) (alen ans))).
Definition zero_in_b_o (Q : question) : res question :=
  Q' <- zero_in_b_body_o Q ;; post_check_o Q'.
(** srg/solver.py:112-155 *)
Definition only_1_with_o (rcs : list (nat * nat)) (Q : question) : res question :=
  let ans := qans Q in
  let ul := unknown_loc ans in
  match rcs with
  | [] => Ok Q
  | _ =>
      let rs := map fst rcs in
      let cs := map snd rcs in
      let subA := map (pick 0 cs) (mrows (qA Q)) in
      let subx := pick 0 rs (qb Q) in
      let b_to_update := map i8 (matvec subA subx) in
      if existsb (fun rc => nth (snd rc) (qbounds Q) 0 <? nth (fst rc) (qb Q) 0) rcs
      then NoSolution
      else if qquota Q <? zsum subx then NoSolution
      else if any2 Z.gtb b_to_update (qb Q) then NoSolution
      else
        let v' := assign_all ul (map2 pair cs subx) (av ans) in
        let quota' := fold_left Z.sub subx (qquota Q) in
        let b' := map2 (fun x y => i8 (x - y)) (qb Q) b_to_update in
        let A' := Mat (mcols (qA Q) - List.length cs) (map (delete cs) (mrows (qA Q))) in
        let bounds' := delete cs (qbounds Q) in
        Ok (Qst A' b' quota' bounds' (Ans v' (aloc ans) (alen ans)))
  end.
Definition only_1_body_o (Q : question) : res question :=
  only_1_with_o (one_element_row_locs (mrows (qA Q))) Q.
Definition only_1_element_in_row_o (Q : question) : res question :=
  Q' <- only_1_body_o Q ;; post_check_o Q'.
(** srg/solver.py:174-183 *)
Definition fork_one_o (Q : question) (minloc : nat) (q_used : Z) : res (option question) :=
  let new_bound := delete [minloc] (qbounds Q) in
  let new_A := Mat (mcols (qA Q) - 1) (map (delete [minloc]) (mrows (qA Q))) in
  let new_b := map2 (fun bv row => i8 (bv - i8 (nth minloc row 0 * q_used)))
                    (qb Q) (mrows (qA Q)) in
  if existsb (fun x => x <? 0) new_b then Ok None           (* continue *)
  else
    a <- answer_copy_o (qans Q) ;;
    let a' := Ans (set_nth (nth minloc (unknown_loc (qans Q)) 0%nat) q_used (av a))
                  (aloc a) (alen a) in
    Q' <- mk_question_o new_A new_b (qquota Q - q_used) new_bound (Some a') ;;
    Ok (Some Q').
(** srg/solver.py:158-183 *)
Definition fork_enum_o (Q : question) : res (list question) :=
  _ <- post_check_o Q ;;
  minloc <- argmin (qbounds Q) ;;
  qs <- mapM (fork_one_o Q minloc) (fork_enum_values (qquota Q) (qbounds Q) minloc) ;;
  Ok (flat_map (fun o => match o with Some q => [q] | None => [] end) qs).
(** srg/solver.py:197-204 *)
Definition refine_step_o (Q : question) : question + res question :=
  match (Qdummy <- question_copy_o Q ;;
         Q1 <- reduce_col_o Q ;;
         Q2 <- eliminate_o Q1 ;;
         Q3 <- zero_in_b_o Q2 ;;
         Q4 <- only_1_element_in_row_o Q3 ;;
         Ok (Q4, question_eqb Q4 Qdummy)) with
  | Ok (Q4, true) => inr (Ok Q4)
  | Ok (Q4, false) => inl Q4
  | NoSolution => inr NoSolution
  | Raise e => inr (Raise e)
  end.
Definition refine_o (Q : question) : res question :=
  while_ (mcols (qA Q) + 3) refine_step_o Q.
(** srg/solver.py:193-214 *)
Definition question_step_o (s : list question * list (list Z))
  : (list question * list (list Z)) + res (list (list Z)) :=
  let (stack, out) := s in
  match stack with
  | [] => inr (Ok (rev out))
  | Q :: rest =>
      match refine_o Q with
      | NoSolution => inl (rest, out)
      | Raise e => inr (Raise e)
      | Ok Q' =>
          if answer_unknown (qans Q') then
            match fork_enum_o Q' with
            | Ok qs => inl (rev qs ++ rest, out)
            | NoSolution => inl (rest, out)
            | Raise e => inr (Raise e)
            end
          else
            match binarize_o (qans Q') with
            | Ok x => inl (rest, x :: out)
            | NoSolution => inl (rest, out)
            | Raise e => inr (Raise e)
            end
      end
  end.
(** srg/solver.py:189-214 *)
Definition solve_question_o (Q : question) : res (list (list Z)) :=
  while_ (question_fuel Q) question_step_o ([Q], []).
(** srg/solver.py:222-229 *)
Definition advance_o (m : mat) : res (list mat) :=
  match from_matrix_o m with
  | NoSolution => Ok []
  | Raise e => Raise e
  | Ok q => xs <- solve_question_o q ;; mapM (append_row_o m) xs
  end.
(** srg/solver.py:235 *)
Definition advance_all_o (l : list mat) : res (list mat) :=
  ls <- mapM advance_o l ;; Ok (concat ls).
(** srg/solver.py:236-239 *)
Fixpoint solve_loop_o (fuel : nat) (lst : list mat) (yielded : list mat) : res (list mat) :=
  match lst with
  | [] => Ok yielded
  | _ =>
      match fuel with
      | O => Raise OutOfFuel
      | S fuel' =>
          lst' <- advance_all_o (lst_undone lst) ;;
          solve_loop_o fuel' lst' (yielded ++ lst_done lst)
      end
  end.
(** srg/solver.py:231-239 *)
Definition solve_o (m : mat) : res (list mat) :=
  lst <- advance_o m ;;
  lst' <- advance_all_o (lst_undone lst) ;;
  solve_loop_o (mcols m - mnrows m) lst' (lst_done lst).
(** srg/__main__.py:15-21 *)
Definition run_main_o (v k l u : Z) : res (list mat) :=
  m <- seed v k l u ;;
  solve_o m.
(** srg/__main__.py:13-24 *)
Definition main_text_o (v k l u : Z) : res string :=
  ms <- run_main_o v k l u ;; Ok (heading v k l u ++ answers_text (sort_matrices ms))%string.
Definition main_program_o (argv : list string) : res string :=
  match mapM int_of argv with
  | Ok [v; k; l; u] => main_text_o v k l u
  | Ok _ => Raise ValueError
  | NoSolution => NoSolution
  | Raise e => Raise e
  end.
