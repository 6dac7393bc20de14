(** The checks of the [debug] decorator never fail. *)
From Verif Require Import Np ModelGauss Model ModelDebug Spec QSpec Lib QFacts StepFacts ForkFacts SolveFacts WidthFacts AnyFacts QuestionProps.
From Coq Require Import ZifyBool ZifyNat.

Lemma assert_ok b u : assert_ b = Ok u -> b = true.
Proof. destruct b; [reflexivity|discriminate]. Qed.
Lemma nonneg_in l : nonneg l = true <-> forall x, In x l -> 0 <= x.
Proof. unfold nonneg. rewrite forallb_forall. split; intros H x Hx; specialize (H x Hx); lia. Qed.
Lemma eqb_assert a b u : assert_ (Nat.eqb a b) = Ok u -> a = b.
Proof. intros H. apply assert_ok in H. now apply Nat.eqb_eq. Qed.
Lemma mk_answer_eq v loc n a : mk_answer v loc n = Ok a -> a = Ans v loc n.
Proof. unfold mk_answer. intros H. inv_bind H. inv_bind H. now injection H. Qed.

(** ** what the code relies on *)
Record wf (Q : question) : Prop := {
  wf_b : mnrows (qA Q) = length (qb Q);
  wf_rows : forall row, In row (mrows (qA Q)) -> length row = mcols (qA Q);
  wf_bounds : length (qbounds Q) = mcols (qA Q);
  wf_nb : nonneg (qb Q) = true;
  wf_nbd : nonneg (qbounds Q) = true;
  wf_quota : 0 <= qquota Q;
  wf_ul : length (unknown_loc (qans Q)) = mcols (qA Q);
  wf_ans : answer_copy (qans Q) = Ok (qans Q) }.

Lemma wf_copy Q : wf Q -> question_copy Q = Ok Q.
Proof.
  intros H. unfold question_copy, mk_question. rewrite (wf_ans _ H). cbn [bind].
  rewrite (wf_b _ H), (wf_bounds _ H), !Nat.eqb_refl, (wf_nb _ H), (wf_nbd _ H). cbn [assert_ bind].
  assert (E : 0 <=? qquota Q = true) by (pose proof (wf_quota _ H); lia). rewrite E. cbn [assert_ bind]. now destruct Q.
Qed.
Lemma wf_invariant Q Q' : wf Q -> post_check Q = Ok Q' -> invariant_check Q = Ok tt.
Proof.
  intros H. unfold post_check, invariant_check. rewrite (wf_b _ H), (wf_bounds _ H), (wf_ul _ H), !Nat.eqb_refl, (wf_nb _ H), (wf_nbd _ H).
  cbn [assert_ bind]. intros P. destruct (Nat.eqb (mcols (qA Q)) 0 && _) eqn:E0; [discriminate|].
  destruct (_ && _) in P; [discriminate|]. inv_bind P. rewrite E. cbn [bind]. destruct (any2 _ _ _); [discriminate|]. cbn [negb assert_ bind].
  destruct (Nat.eqb (mcols (qA Q)) 0); [|reflexivity]. cbn [andb] in E0.
  replace (forallb _ (qb Q)) with true; [reflexivity|]. symmetry. apply forallb_forall. intros x Hx.
  rewrite existsb_none in E0. specialize (E0 x Hx). apply negb_false_iff in E0. exact E0.
Qed.

Lemma answer_same a v : length v = length (av a) -> answer_copy a = Ok a -> answer_copy (Ans v (aloc a) (alen a)) = Ok (Ans v (aloc a) (alen a)).
Proof.
  intros L. unfold answer_copy, mk_answer. cbn [av aloc alen]. rewrite L. intros H. inv_bind H. rewrite E. cbn [bind].
  inv_bind H. rewrite E0. cbn [bind]. reflexivity.
Qed.

(** ** steps *)
Lemma reduce_body_wf Q Q' : wf Q -> reduce_col_body Q = Ok Q' -> wf Q'.
Proof.
  intros H E. unfold reduce_col_body in E. destruct (_ <? 2)%nat; [injection E as <-; exact H|].
  inv_bind E. destruct (_ <? _)%nat; [discriminate|]. destruct (existsb _ _); [discriminate|].
  inv_bind E. inv_bind E. inv_bind E. apply assert_ok in E1, E3. pose proof (mk_answer_eq _ _ _ _ E2) as ->.
  injection E as <-. constructor; cbn [qA qb qquota qbounds qans mrows mcols]; try apply H; auto.
  - unfold mnrows. cbn [mrows]. rewrite map_length. apply (wf_b _ H).
  - intros row Hr. apply in_map_iff in Hr. destruct Hr as (row0 & <- & _). apply pick_length.
  - now rewrite !map_length.
  - unfold answer_fits in E3. apply Nat.eqb_eq in E3. exact E3.
Qed.
Lemma max_len_in l x : In x l -> (length x <= max_len l)%nat.
Proof.
  unfold max_len. induction l as [|a l IH]; intros Hin; [easy|]. cbn [map fold_right]. destruct Hin as [->|Hin]; [lia|].
  specialize (IH Hin). lia.
Qed.
Lemma decode_shape hd A b : decode hd = Ok (A, b) -> mnrows A = length b /\ forall row, In row (mrows A) -> length row = mcols A.
Proof.
  unfold decode. destruct hd as [|e hd]; [discriminate|]. intros E. injection E as <- <-. split.
  - unfold mnrows. cbn [mrows map length]. now rewrite !map_length.
  - cbn [mrows mcols]. intros row Hr.
    change (In row (map (pad_left (max_len (map (fun e => dec2bin (ekey e)) (e :: hd)))) (map (fun e => dec2bin (ekey e)) (e :: hd)))) in Hr.
    apply in_map_iff in Hr. destruct Hr as (x & <- & Hx). apply max_len_in in Hx. cbn [map] in *.
    unfold pad_left. rewrite app_length, repeat_length. lia.
Qed.
Lemma eliminate_wf Q Q' : wf Q -> eliminate Q = Ok Q' -> wf Q' /\ invariant_check Q' = Ok tt.
Proof.
  intros H E. unfold eliminate in E. inv_bind E. pose proof (post_check_id _ _ E) as ->.
  assert (W : wf r); [|split; [exact W|eapply wf_invariant; eauto]].
  unfold eliminate_body in E0. destruct (Nat.eqb _ _); [injection E0 as <-; exact H|].
  inv_bind E0. destruct r0 as [Ae be]. inv_bind E0. apply assert_ok in E2. injection E0 as <-.
  unfold elim in E1. inv_bind E1. inv_bind E1. destruct (decode_shape _ _ _ E1) as [D1 D2].
  unfold post_check in E. cbn [qA qb qquota qbounds qans] in E. destruct (_ && _) in E; [discriminate|]. inv_bind E. apply eqb_assert in E4.
  constructor; cbn [qA qb qquota qbounds qans]; try apply H; auto.
  rewrite <- E4, (wf_bounds _ H). apply (wf_ul _ H).
Qed.
Lemma delete_row_length Q cs row : wf Q -> NoDup cs -> (forall j, In j cs -> (j < mcols (qA Q))%nat) ->
  In row (map (delete cs) (mrows (qA Q))) -> length row = (mcols (qA Q) - length cs)%nat.
Proof.
  intros H Hd Hb Hr. apply in_map_iff in Hr. destruct Hr as (row0 & <- & Hr). rewrite delete_length; auto; rewrite (wf_rows _ H row0 Hr); auto.
Qed.
(** giving values to the unknowns of the columns [cs] *)
Lemma assigned_wf Q jx b q bd : wf Q -> NoDup (map fst jx) -> (forall j x, In (j, x) jx -> (j < mcols (qA Q))%nat /\ 0 <= x) ->
  length b = length (qb Q) -> nonneg b = true -> 0 <= q -> length bd = mcols (qA Q) -> nonneg (delete (map fst jx) bd) = true ->
  wf (Qst (Mat (mcols (qA Q) - length (map fst jx)) (map (delete (map fst jx)) (mrows (qA Q)))) b q (delete (map fst jx) bd)
        (Ans (assign_all (unknown_loc (qans Q)) jx (av (qans Q))) (aloc (qans Q)) (alen (qans Q)))).
Proof.
  intros H Hd Hjx Hb Hnb Hq Hbd Hnbd.
  assert (Hc : forall j, In j (map fst jx) -> (j < mcols (qA Q))%nat).
  { intros j Hj. apply in_map_iff in Hj. destruct Hj as ([j' x] & <- & Hin). now apply Hjx in Hin. }
  constructor; cbn [qA qb qquota qbounds qans mcols mrows]; auto.
  - unfold mnrows. cbn [mrows]. rewrite map_length, Hb. apply (wf_b _ H).
  - intros row Hr. now apply (delete_row_length Q (map fst jx)).
  - rewrite delete_length, Hbd; auto. now rewrite Hbd.
  - unfold unknown_loc at 1. cbn [av]. unfold unknown_loc. rewrite assign_unknown_loc; auto.
    + rewrite delete_length; auto; fold (unknown_loc (qans Q)); now rewrite (wf_ul _ H).
    + intros j x Hin. fold (unknown_loc (qans Q)). rewrite (wf_ul _ H). now apply Hjx.
  - apply answer_same; [apply assign_all_length|apply H].
Qed.
Lemma zero_wf Q Q' : wf Q -> zero_in_b_body Q = Ok Q' -> wf Q'.
Proof.
  intros H E. unfold zero_in_b_body in E. set (bd := lower_upper_bound _ _ _) in *.
  inv_bind E. inv_bind E. apply assert_ok in E1. injection E as <-.
  assert (Lbd : length bd = mcols (qA Q)).
  { rewrite <- (wf_bounds _ H). apply lub_length. intros row Hr. rewrite (wf_rows _ H row Hr). symmetry. apply (wf_bounds _ H). }
  set (z := zero_bound_loc bd) in *.
  assert (Ez : z = map fst (map (fun j => (j, 0)) z)) by (rewrite map_map; symmetry; apply map_id).
  rewrite Ez at 1 2 3. apply assigned_wf; auto; try apply H.
  - rewrite <- Ez. apply where_NoDup.
  - intros j x Hin. apply in_map_iff in Hin. destruct Hin as (j' & E & Hj). injection E as <- <-. split; [|lia].
    apply (where_spec _ 0) in Hj. lia.
  - now rewrite <- Ez.
Qed.
Lemma spend_nonneg xs : forall q q', 0 <= q -> spend xs q = Ok q' -> 0 <= q'.
Proof.
  induction xs as [|x xs IH]; intros q q' Hq E; simpl in E; [injection E as <-; auto|].
  inv_bind E. apply assert_ok in E0. apply (IH (q - x) q'); [lia|exact E].
Qed.
Lemma single_lt row c : single row c -> (c < length row)%nat.
Proof. intros Hs. assert (In c (where_ (fun x => negb (x =? 0)) row)) as Hi by (rewrite Hs; now left). apply (where_spec _ 0) in Hi. tauto. Qed.
Lemma only_wf Q Q' : wf Q -> only_1_body Q = Ok Q' -> wf Q'.
Proof.
  intros H E. unfold only_1_body, only_1_with in E.
  destruct (locs_rcs _ _ (one_element_row_locs_ok (mrows (qA Q)))) as [Hd Hr].
  set (rcs := one_element_row_locs (mrows (qA Q))) in *. inv_bind E. 
  assert (K : forall b' q', length b' = length (qb Q) -> nonneg b' = true -> 0 <= q' -> nonneg (delete (map snd rcs) (qbounds Q)) = true ->
    wf (Qst (Mat (mcols (qA Q) - length (map snd rcs)) (map (delete (map snd rcs)) (mrows (qA Q)))) b' q' (delete (map snd rcs) (qbounds Q))
        (Ans (assign_all (unknown_loc (qans Q)) (map2 pair (map snd rcs) (pick 0 (map fst rcs) (qb Q))) (av (qans Q))) (aloc (qans Q)) (alen (qans Q))))).
  { intros b' q' Hb Hnb Hq Hnbd. unfold pick. rewrite map_map, map2_pair_map.
    set (jx := map (fun rc => (snd rc, nth (fst rc) (qb Q) 0)) rcs).
    assert (Ej : map snd rcs = map fst jx) by (unfold jx; rewrite map_map; reflexivity).
    rewrite Ej in Hd, Hnbd |- *. apply assigned_wf; auto; [|apply (wf_bounds _ H)].
    intros j x Hin. apply in_map_iff in Hin. destruct Hin as ([r0 c] & E1 & Hin). cbn [fst snd] in E1. injection E1 as <- <-.
    destruct (Hr _ _ Hin) as [R1 R2]. apply single_lt in R2. rewrite (wf_rows _ H) in R2 by (apply nth_In; auto). split; [exact R2|].
    apply (proj1 (nonneg_in _) (wf_nb _ H)). apply nth_In. rewrite <- (wf_b _ H). exact R1. }
  clearbody rcs. destruct rcs as [|rc rcs]; [injection E as <-; exact H|].
  destruct (existsb _ _); [discriminate|]. destruct (_ <? _); [discriminate|]. destruct (any2 _ _ _) eqn:EA; [discriminate|].
  inv_bind E. inv_bind E. inv_bind E. apply assert_ok in E2, E3. injection E as <-. apply K; auto.
  - rewrite map2_length, !map_length. unfold matvec. rewrite !map_length. rewrite <- (wf_b _ H). unfold mnrows. lia.
  - eapply spend_nonneg; [apply (wf_quota _ H)|exact E1].
Qed.

Lemma step_wf f Q : (forall Q Q', wf Q -> f Q = Ok Q' -> wf Q') -> wf Q ->
  forall Q', (r <- f Q ;; post_check r) = Ok Q' -> wf Q' /\ invariant_check Q' = Ok tt.
Proof.
  intros Hf H Q' E. inv_bind E. pose proof (post_check_id _ _ E) as ->. assert (W : wf r) by eauto. split; auto. eapply wf_invariant; eauto.
Qed.
Definition safe (f : question -> res question) : Prop := forall Q, wf Q -> forall Q', f Q = Ok Q' -> wf Q' /\ invariant_check Q' = Ok tt.
Lemma safe_reduce : safe reduce_col.
Proof. intros Q H. apply (step_wf reduce_col_body); auto. apply reduce_body_wf. Qed.
Lemma safe_eliminate : safe eliminate.
Proof. intros Q H Q' E. now apply (eliminate_wf Q). Qed.
Lemma safe_zero : safe zero_in_b.
Proof. intros Q H. apply (step_wf zero_in_b_body); auto. apply zero_wf. Qed.
Lemma safe_only : safe only_1_element_in_row.
Proof. intros Q H. apply (step_wf only_1_body); auto. apply only_wf. Qed.
Lemma safe_debug f Q : safe f -> wf Q -> debug f Q = f Q.
Proof.
  intros Hf H. unfold debug. rewrite (wf_copy Q H). cbn [bind]. destruct (f Q) as [Q'| |] eqn:E; auto. cbn [bind].
  destruct (Hf Q H Q' E) as [_ ->]. reflexivity.
Qed.
Lemma debug_fork_ok Q : wf Q -> debug_fork Q = fork_enum Q.
Proof.
  intros H. unfold debug_fork. rewrite (wf_copy Q H). cbn [bind]. destruct (post_check Q) as [Q'| |] eqn:E; cbn [bind].
  - rewrite (wf_invariant Q Q' H E). reflexivity.
  - unfold fork_enum. now rewrite E.
  - unfold fork_enum. now rewrite E.
Qed.
Lemma fork_wf Q qs : wf Q -> fork_enum Q = Ok qs -> Forall wf qs.
Proof.
  intros H E. unfold fork_enum in E. inv_bind E. inv_bind E. inv_bind E. inv_bind E. injection E as <-. apply Forall_forall. intros Q' Hin.
  apply in_flat_map in Hin. destruct Hin as (o & Ho & Hin). destruct (mapM_in _ _ _ _ E3 Ho) as (q & Hq & Eq).
  assert (Hm : (r1 < mcols (qA Q))%nat).
  { rewrite <- (wf_bounds _ H). destruct (qbounds Q) as [|b0 bd] eqn:Eb; [discriminate|].
    destruct (argmin_spec (b0 :: bd) ltac:(discriminate)) as (m & Em & Hm & _). rewrite Em in E2. injection E2 as <-. exact Hm. }
  apply fork_values_proof in Hq; [|now rewrite (wf_bounds _ H)].
  unfold fork_one in Eq. destruct (existsb _ _); [injection Eq as <-; easy|]. inv_bind Eq. inv_bind Eq. injection Eq as <-.
  destruct Hin as [<-|[]]. pose proof (wf_ans _ H) as HA. rewrite HA in E. injection E as <-. rename E4 into EM.
  unfold mk_question in EM. inv_bind EM. inv_bind EM. inv_bind EM. inv_bind EM. inv_bind EM. inv_bind EM. injection EM as <-. injection E8 as <-.
  apply eqb_assert in E, E4. apply assert_ok in E5, E6, E7.
  change (Mat (mcols (qA Q) - 1) (map (delete [r1]) (mrows (qA Q))))
    with (Mat (mcols (qA Q) - length (map fst [(r1, q)])) (map (delete (map fst [(r1, q)])) (mrows (qA Q)))).
  change (set_nth (nth r1 (unknown_loc (qans Q)) 0%nat) q (av (qans Q))) with (assign_all (unknown_loc (qans Q)) [(r1, q)] (av (qans Q))).
  change (delete [r1]) with (@delete Z (map fst [(r1, q)])).
  apply assigned_wf; auto.
  - repeat constructor. easy.
  - intros j x [EJ|[]]. injection EJ as <- <-. split; auto. apply Hq.
  - rewrite <- E. unfold mnrows. cbn [mrows]. rewrite map_length. apply (wf_b _ H).
  - lia.
  - apply (wf_bounds _ H).
Qed.
Lemma from_matrix_wf m Q : (forall row, In row (mrows m) -> length row = mcols m) -> from_matrix m = Ok Q -> wf Q.
Proof.
  intros H E. unfold from_matrix in E. inv_bind E. destruct r as [[[v k] l] u]. destruct (_ <=? _)%nat; [discriminate|].
  cbv zeta in E. destruct (existsb _ _); [discriminate|]. unfold mk_question in E.
  inv_bind E. inv_bind E. inv_bind E. inv_bind E. inv_bind E. inv_bind E. injection E as <-.
  apply eqb_assert in E1, E2. apply assert_ok in E3, E4, E5. cbn [mcols] in E6.
  unfold default_answer in E6. pose proof (mk_answer_eq _ _ _ _ E6) as ->.
  constructor; cbn [qA qb qquota qbounds qans]; auto.
  - cbn [mrows mcols]. intros row Hr. apply in_app_iff in Hr. destruct Hr as [Hr|[<-|[]]]; [|apply repeat_length].
    apply in_map_iff in Hr. destruct Hr as (row0 & <- & Hr). rewrite skipn_length, (H row0 Hr). lia.
  - lia.
  - unfold unknown_loc. cbn [av mcols]. rewrite GroupFacts.where_repeat_all. apply seq_length.
Qed.

(** ** the search *)
Lemma refine_step_d_ok Q : wf Q -> refine_step_d Q = refine_step Q /\ match refine_step Q with inl Q' | inr (Ok Q') => wf Q' | inr _ => True end.
Proof.
  intros H. unfold refine_step_d, refine_step. rewrite (wf_copy Q H). cbn [bind].
  rewrite (safe_debug _ Q safe_reduce H). destruct (reduce_col Q) as [Q1| |] eqn:E1; cbn [bind]; auto.
  destruct (safe_reduce Q H Q1 E1) as [H1 _].
  rewrite (safe_debug _ Q1 safe_eliminate H1). destruct (eliminate Q1) as [Q2| |] eqn:E2; cbn [bind]; auto.
  destruct (safe_eliminate Q1 H1 Q2 E2) as [H2 _].
  rewrite (safe_debug _ Q2 safe_zero H2). destruct (zero_in_b Q2) as [Q3| |] eqn:E3; cbn [bind]; auto.
  destruct (safe_zero Q2 H2 Q3 E3) as [H3 _].
  rewrite (safe_debug _ Q3 safe_only H3). destruct (only_1_element_in_row Q3) as [Q4| |] eqn:E4; cbn [bind]; auto.
  destruct (safe_only Q3 H3 Q4 E4) as [H4 _]. split; auto. destruct (question_eqb _ _); auto.
Qed.
Lemma refine_d_ok Q : wf Q -> refine_d Q = refine Q /\ forall Q', refine Q = Ok Q' -> wf Q'.
Proof.
  intros H. unfold refine_d, refine. split.
  - apply (while_same wf); auto. intros Q' H'. destruct (refine_step_d_ok Q' H') as [E G]. split; auto. destruct (refine_step Q'); auto.
  - intros Q'. apply (while_inv wf); auto. intros Q2 H2. destruct (refine_step_d_ok Q2 H2) as [_ G]. destruct (refine_step Q2) as [|[]]; auto.
Qed.
Lemma question_step_d_ok st : Forall wf (fst st) ->
  question_step_d st = question_step st /\ match question_step st with inl st' => Forall wf (fst st') | inr _ => True end.
Proof.
  destruct st as [stack out]. cbn [fst]. intros HF. unfold question_step_d, question_step. destruct stack as [|Q rest]; auto.
  inversion HF as [|? ? HQ HR]; subst. destruct (refine_d_ok Q HQ) as [-> HW]. destruct (refine Q) as [Q'| |] eqn:E; auto.
  specialize (HW Q' eq_refl). destruct (answer_unknown (qans Q')).
  - rewrite (debug_fork_ok Q' HW). split; auto. destruct (fork_enum Q') as [qs| |] eqn:EF; auto. cbn [fst].
    apply Forall_app. split; auto. apply Forall_rev. now apply (fork_wf Q').
  - split; auto. destruct (binarize (qans Q')); auto.
Qed.
Lemma solve_question_d_ok Q : wf Q -> solve_question_d Q = solve_question Q.
Proof.
  intros H. apply (while_same (fun st => Forall wf (fst st))); [apply question_step_d_ok|]. cbn [fst]. constructor; auto.
Qed.
Definition rect (m : mat) : Prop := forall row, In row (mrows m) -> length row = mcols m.
Lemma append_rect m x m' : rect m -> append_row m x = Ok m' -> rect m'.
Proof.
  intros H E. unfold append_row in E. destruct (_ <=? _)%nat; [discriminate|]. inv_bind E. apply eqb_assert in E0. injection E as <-.
  intros row Hr. cbn [mrows mcols] in *. apply in_app_iff in Hr. destruct Hr as [Hr|[<-|[]]]; auto.
Qed.
Lemma advance_d_ok m : rect m -> advance_d m = advance m /\ forall ms, advance m = Ok ms -> Forall rect ms.
Proof.
  intros H. unfold advance_d, advance. destruct (assert_ _); cbn [bind]; [|easy|easy].
  destruct (from_matrix m) as [q| |] eqn:E.
  - rewrite (solve_question_d_ok q (from_matrix_wf m q H E)). split; auto. intros ms EM. inv_bind EM.
    apply Forall_forall. intros m' Hm. destruct (mapM_in _ _ _ _ EM Hm) as (x & _ & Ex). now apply (append_rect m x).
  - split; auto. intros ms EM. injection EM as <-. constructor.
  - easy.
Qed.
Lemma mapM_ext {A B} (f g : A -> res B) l : (forall a, In a l -> f a = g a) -> mapM f l = mapM g l.
Proof.
  induction l as [|a l IH]; intros H; [reflexivity|]. cbn [mapM]. rewrite (H a (or_introl eq_refl)), IH; auto. intros; apply H; now right.
Qed.
Lemma advance_all_d_ok l : Forall rect l -> advance_all_d l = advance_all l /\ forall ms, advance_all l = Ok ms -> Forall rect ms.
Proof.
  intros H. rewrite Forall_forall in H. unfold advance_all_d, advance_all. split.
  - rewrite (mapM_ext advance_d advance); auto. intros m Hm. now apply advance_d_ok, H.
  - intros ms E. inv_bind E. injection E as <-. apply Forall_forall. intros m Hm. apply in_concat in Hm. destruct Hm as (l' & Hl & Hm).
    destruct (mapM_in _ _ _ _ E0 Hl) as (m0 & H0 & Em). destruct (advance_d_ok m0 (H _ H0)) as [_ HA].
    specialize (HA l' Em). rewrite Forall_forall in HA. auto.
Qed.
Lemma undone_rect l : Forall rect l -> Forall rect (lst_undone l).
Proof. intros H. rewrite Forall_forall in *. intros m Hm. apply filter_In in Hm. apply H. tauto. Qed.
Lemma solve_loop_d_ok fuel : forall lst ys, Forall rect lst -> solve_loop_d fuel lst ys = solve_loop fuel lst ys.
Proof.
  induction fuel as [|fuel IH]; intros lst ys H; [destruct lst; reflexivity|].
  cbn [solve_loop_d solve_loop]. destruct lst as [|m lst]; auto.
  destruct (advance_all_d_ok _ (undone_rect _ H)) as [-> HA]. destruct (advance_all _) as [lst'| |]; auto. cbn [bind]. apply IH. now apply HA.
Qed.
Lemma solve_d_ok m : rect m -> solve_d m = solve m.
Proof.
  intros H. unfold solve_d, solve. destruct (advance_d_ok m H) as [-> HA]. destruct (advance m) as [lst| |]; auto. cbn [bind].
  destruct (advance_all_d_ok _ (undone_rect _ (HA lst eq_refl))) as [-> HB]. destruct (advance_all _) as [lst'| |]; auto. cbn [bind].
  apply solve_loop_d_ok. now apply HB.
Qed.
Lemma ok_inj {A} (P : A -> Prop) a m : P a -> Ok a = Ok m -> P m.
Proof. intros H E. injection E as <-. exact H. Qed.
Lemma seed_rect v k l u m : seed v k l u = Ok m -> rect m.
Proof.
  unfold seed. destruct (v <? 0); [discriminate|]. destruct (v <? 2); [discriminate|]. apply ok_inj.
  intros row [<-|[<-|[]]]; cbn [mcols].
  - rewrite slice_set_length. apply repeat_length.
  - rewrite set_nth_length, !slice_set_length. apply repeat_length.
Qed.
Lemma run_main_d_ok v k l u : run_main_d v k l u = run_main v k l u.
Proof.
  unfold run_main_d, run_main. destruct (assert_srg v k l u); auto. cbn [bind]. destruct (seed v k l u) as [m| |] eqn:E; auto. cbn [bind].
  apply solve_d_ok. now apply (seed_rect v k l u).
Qed.

(** ** single steps *)
Lemma ok_wf Q : question_ok Q -> wf Q.
Proof.
  intros HQ. pose proof (ok_shell Q HQ) as HB. destruct HQ as [[H1 H2] H3 H4 H5 [H6 H7] H8 H9]. constructor; auto.
  - apply nonneg_in. intros x Hx. now apply H4.
  - apply nonneg_in. intros x Hx. now apply H7.
  - lia.
  - now rewrite <- open_unknown.
  - unfold answer_copy. rewrite mk_answer_increasing_proof; [now destruct (qans Q)|apply H8|apply H8|].
    destruct H8 as (_ & H8 & _). unfold edges in H8. destruct (aloc (qans Q)); [reflexivity|exact H8].
Qed.
Lemma invariant_proof Q : question_ok Q ->
  debug reduce_col Q = reduce_col Q /\ debug eliminate Q = eliminate Q /\ debug zero_in_b Q = zero_in_b Q
  /\ debug only_1_element_in_row Q = only_1_element_in_row Q /\ debug_fork Q = fork_enum Q.
Proof.
  intros H. apply ok_wf in H. split; [apply safe_debug; auto using safe_reduce|]. split; [apply safe_debug; auto using safe_eliminate|].
  split; [apply safe_debug; auto using safe_zero|]. split; [apply safe_debug; auto using safe_only|]. now apply debug_fork_ok.
Qed.
