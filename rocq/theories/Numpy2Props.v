(** The promotion rule does not matter up to 129 vertices: the bounds of a question never add up to more than its unknowns at the start. *)
From Verif Require Import Np ModelGauss Model Spec QSpec Lib BitFacts QFacts StepFacts ForkFacts GroupFacts AnyFacts QuestionProps QWitness Total Levels ModelNumpy2.
From Coq Require Import ZifyBool ZifyNat.

Inductive below : list Z -> list Z -> Prop :=
| below_nil y : below [] y
| below_cons a x b y : a <= b -> below x y -> below (a :: x) (b :: y).
Lemma below_refl x : below x x.
Proof. induction x; constructor; auto; lia. Qed.
Lemma below_trans x y : below x y -> forall z, below y z -> below x z.
Proof. induction 1; intros z Hz; [constructor|]. inversion Hz; subst. constructor; [lia|auto]. Qed.
Lemma below_tighten row bv bd : below (tighten_row row bv bd) bd.
Proof.
  revert bd. induction row as [|a row IH]; intros [|b bd]; cbn; try constructor; [|apply IH]. destruct (a =? 0); lia.
Qed.
Lemma below_lub A : forall b bd, below (lower_upper_bound A b bd) bd.
Proof.
  induction A as [|row A IH]; intros [|bv b] bd; cbn [lower_upper_bound]; try apply below_refl.
  eapply below_trans; [apply IH|apply below_tighten].
Qed.
Lemma zsum_delete_below idxs x y : below x y -> (forall a, In a y -> 0 <= a) -> forall i, zsum (delete_from i idxs x) <= zsum y.
Proof.
  induction 1 as [y|a x b y Hab HB IH]; intros Hy i.
  - cbn. now apply Lib.zsum_nonneg.
  - specialize (IH (fun z Hz => Hy z (or_intror Hz)) (S i)). pose proof (Hy b (or_introl eq_refl)). rewrite (zsum_cons b y). cbn [delete_from].
    match goal with |- context [if ?c then _ else _] => destruct c end; [lia|]. rewrite zsum_cons. lia.
Qed.
Lemma zsum_delete_le idxs x y : below x y -> (forall a, In a y -> 0 <= a) -> zsum (delete idxs x) <= zsum y.
Proof. intros H1 H2. exact (zsum_delete_below idxs x y H1 H2 0%nat). Qed.
Lemma zsum_in_le x a : (forall b, In b x -> 0 <= b) -> In a x -> a <= zsum x.
Proof.
  induction x as [|b x IH]; intros H; [easy|]. intros [E|E]; rewrite zsum_cons.
  - subst. assert (0 <= zsum x); [|lia]. apply Lib.zsum_nonneg. intros z Hz. apply H. now right.
  - pose proof (IH (fun z Hz => H z (or_intror Hz)) E). pose proof (H b (or_introl eq_refl)). lia.
Qed.

(** ** grouping keeps the sum *)
Lemma sum_add bd k j d : zsum (map (fun p => room bd (snd p)) (group_add k j d)) = zsum (map (fun p => room bd (snd p)) d) + nth j bd 0.
Proof.
  destruct (group_add_cases k j d) as [->|(d1 & ls & d2 & -> & ->)].
  - rewrite map_app, zsum_app. cbn [map snd]. rewrite zsum_cons, room_one. change (zsum []) with 0. lia.
  - rewrite !map_app, !zsum_app. cbn [map snd]. rewrite !zsum_cons, room_app, room_one. lia.
Qed.
Lemma sum_fold bd l : forall d, zsum (map (fun p => room bd (snd p)) (fold_left (fun d kj => group_add (fst kj) (snd kj) d) l d))
  = zsum (map (fun p => room bd (snd p)) d) + zsum (map (fun kj : Z * nat => nth (snd kj) bd 0) l).
Proof.
  induction l as [|[k j] l IH]; intros d; cbn [fold_left map fst snd].
  - change (zsum []) with 0. lia.
  - rewrite IH, sum_add, zsum_cons. lia.
Qed.
Lemma groups_sum bd enc : length enc = length bd -> zsum (map (room bd) (groups enc)) = zsum bd.
Proof.
  intros L. unfold groups. rewrite map_map.
  rewrite (sum_fold bd (map2 pair enc (seq 0 (length enc))) []). cbn [map]. change (zsum []) with 0.
  rewrite <- (map_map snd (fun j => nth j bd 0)), map2_pair_snd by now rewrite seq_length. rewrite L, map_nth_seq. lia.
Qed.
Lemma zsum_i8 l : (forall x, In x l -> 0 <= x) -> (forall x, In x (map i8 l) -> 0 <= x) -> zsum (map i8 l) <= zsum l.
Proof.
  induction l as [|a l IH]; intros H1 H2; [cbn; lia|]. cbn [map] in *. rewrite !zsum_cons.
  pose proof (IH (fun x Hx => H1 x (or_intror Hx)) (fun x Hx => H2 x (or_intror Hx))).
  pose proof (i8_below a (H1 a (or_introl eq_refl)) (H2 _ (or_introl eq_refl))). lia.
Qed.

(** ** the steps *)
Section low.
Variable N : Z.
Definition low (Q : question) : Prop := (forall x, In x (qbounds Q) -> 0 <= x) /\ zsum (qbounds Q) <= N.
Definition even (Q : question) : Prop := low Q /\ length (qbounds Q) = mcols (qA Q).
Lemma low_reduce_col Q Q' : even Q -> reduce_col Q = Ok Q' -> even Q'.
Proof.
  intros ((HN & HS) & HL) H. unfold reduce_col in H. apply bind_ok in H. destruct H as (Q1 & H & HP).
  pose proof (post_check_bounds _ _ HP) as HLen. apply post_check_id in HP. subst Q1. split; [|exact HLen]. clear HLen.
  unfold reduce_col_body in H. cbv zeta in H. destruct (_ <? 2)%nat; [injection H as <-; now split|].
  apply bind_ok in H. destruct H as (enc & He & H).
  assert (Le : length enc = mcols (qA Q)).
  { unfold unique_encode in He. destruct (Nat.eqb _ 0); [discriminate|]. injection He as <-. now rewrite map_length, seq_length. }
  destruct (_ <? _)%nat; [discriminate|]. destruct (existsb _ _); [discriminate|].
  apply bind_ok in H. destruct H as (u1 & H1 & H). apply assert_ok in H1.
  apply bind_ok in H. destruct H as (a & Ha & H). apply bind_ok in H. destruct H as (u2 & H2 & H). injection H as <-.
  unfold low. cbn [qbounds]. split; [intros x Hx; eapply nonneg_in; eauto|].
  etransitivity; [apply zsum_i8|].
  - intros x Hx. apply in_map_iff in Hx. destruct Hx as (ls & <- & _). now apply room_nonneg.
  - intros x Hx. eapply nonneg_in; eauto.
  - change (fun ls => zsum (pick 0 ls (qbounds Q))) with (room (qbounds Q)). rewrite groups_sum by lia. exact HS.
Qed.
Lemma low_eliminate Q Q' : even Q -> eliminate Q = Ok Q' -> even Q'.
Proof.
  intros ((HN & HS) & HL) H. unfold eliminate in H. apply bind_ok in H. destruct H as (Q1 & H & HP).
  pose proof (post_check_bounds _ _ HP) as HLen. apply post_check_id in HP. subst Q1. split; [|exact HLen]. clear HLen.
  unfold eliminate_body in H. destruct (Nat.eqb _ _); [injection H as <-; now split|]. inv_bind H. destruct r. inv_bind H. injection H as <-. now split.
Qed.
Lemma low_zero_in_b Q Q' : even Q -> zero_in_b Q = Ok Q' -> even Q'.
Proof.
  intros ((HN & HS) & HL) H. unfold zero_in_b in H. apply bind_ok in H. destruct H as (Q1 & H & HP).
  pose proof (post_check_bounds _ _ HP) as HLen. apply post_check_id in HP. subst Q1. split; [|exact HLen]. clear HLen.
  unfold zero_in_b_body in H. cbv zeta in H. apply bind_ok in H. destruct H as (u1 & _ & H).
  apply bind_ok in H. destruct H as (u2 & H2 & H). apply assert_ok in H2. injection H as <-.
  unfold low. cbn [qbounds]. split; [intros x Hx; eapply nonneg_in; eauto|].
  etransitivity; [|exact HS]. apply zsum_delete_le; [apply below_lub|exact HN].
Qed.
Lemma low_only_1 Q Q' : even Q -> only_1_element_in_row Q = Ok Q' -> even Q'.
Proof.
  intros ((HN & HS) & HL) H. unfold only_1_element_in_row in H. apply bind_ok in H. destruct H as (Q1 & H & HP).
  pose proof (post_check_bounds _ _ HP) as HLen. apply post_check_id in HP. subst Q1. split; [|exact HLen]. clear HLen.
  unfold only_1_body, only_1_with in H. cbv zeta in H. inv_bind H. destruct (one_element_row_locs _); [injection H as <-; now split|].
  destruct (existsb _ _); [discriminate|]. destruct (_ <? _); [discriminate|]. destruct (any2 _ _ _); [discriminate|].
  inv_bind H. inv_bind H. inv_bind H. injection H as <-. unfold low. cbn [qbounds].
  split; [intros x Hx; apply HN; now apply in_delete in Hx|].
  etransitivity; [|exact HS]. apply zsum_delete_le; [apply below_refl|exact HN].
Qed.
Lemma low_refine Q Q' : even Q -> refine Q = Ok Q' -> even Q'.
Proof.
  intros HE. unfold refine. apply (while_inv even even); auto. intros P HP. unfold refine_step.
  destruct (question_copy P) as [P0| |]; cbn [bind]; auto.
  destruct (reduce_col P) as [P1| |] eqn:E1; cbn [bind]; auto.
  destruct (eliminate P1) as [P2| |] eqn:E2; cbn [bind]; auto.
  destruct (zero_in_b P2) as [P3| |] eqn:E3; cbn [bind]; auto.
  destruct (only_1_element_in_row P3) as [P4| |] eqn:E4; cbn [bind]; auto.
  pose proof (low_only_1 _ _ (low_zero_in_b _ _ (low_eliminate _ _ (low_reduce_col _ _ HP E1) E2) E3) E4). destruct (question_eqb _ _); auto.
Qed.
Lemma mk_question_bounds A b q bd a Q : mk_question A b q bd a = Ok Q -> qbounds Q = bd /\ qA Q = A /\ length bd = mcols A /\ forall x, In x bd -> 0 <= x.
Proof.
  unfold mk_question. intros H. apply bind_ok in H. destruct H as (u1 & _ & H). apply bind_ok in H. destruct H as (u2 & H2 & H).
  apply assert_ok in H2. apply bind_ok in H. destruct H as (u3 & _ & H). apply bind_ok in H. destruct H as (u4 & _ & H).
  apply bind_ok in H. destruct H as (u5 & H5 & H). apply assert_ok in H5.
  assert (E : qbounds Q = bd /\ qA Q = A) by (destruct a; [injection H as <-; auto|inv_bind H; injection H as <-; auto]).
  destruct E. repeat split; auto; [lia|]. intros x Hx. eapply nonneg_in; eauto.
Qed.
Lemma low_fork Q qs Q' : even Q -> fork_enum Q = Ok qs -> In Q' qs -> even Q'.
Proof.
  intros ((HN & HS) & HL) H Hin. unfold fork_enum in H. inv_bind H. inv_bind H. inv_bind H. inv_bind H. injection H as <-.
  apply in_flat_map in Hin. destruct Hin as (o & Ho & Hin). destruct o as [Q1|]; [|easy]. destruct Hin as [->|[]].
  eapply mapM_in in E2; [|exact Ho]. destruct E2 as (q & _ & E2). unfold fork_one in E2. destruct (existsb _ _); [discriminate|].
  inv_bind E2. inv_bind E2. injection E2 as <-. apply mk_question_bounds in E4. destruct E4 as (E4 & E5 & E6 & E7).
  split; [|now rewrite E4, E5]. unfold low. rewrite E4. split; [exact E7|].
  etransitivity; [|exact HS]. apply zsum_delete_le; [apply below_refl|exact HN].
Qed.
End low.

(** ** the two rules *)
Lemma i8_next m : 0 <= m <= 126 -> i8 (m + 1) = m + 1.
Proof. intros H. apply i8_id. lia. Qed.
Theorem fork_enum_2_proof Q : (forall x, In x (qbounds Q) -> 0 <= x <= 127) ->
  (forall m, first_minimum (qbounds Q) m -> nth m (qbounds Q) 0 <= 126) -> fork_enum_2 Q = fork_enum Q.
Proof.
  intros HB Hm. unfold fork_enum_2, fork_enum. destruct (post_check Q) as [P| |]; cbn [bind]; auto.
  destruct (assert_ _) as [u| |]; cbn [bind]; auto.
  destruct (qbounds Q) as [|x t] eqn:E; [reflexivity|].
  destruct (argmin_spec (x :: t) ltac:(discriminate)) as (m & Em & Hfm). rewrite Em. cbn [bind].
  assert (EV : fork_enum_values_2 (qquota Q) (x :: t) m = fork_enum_values (qquota Q) (x :: t) m); [|now rewrite EV].
  unfold fork_enum_values_2, fork_enum_values. cbv zeta. rewrite i8_next; auto. split; [|now apply Hm].
  assert (In (nth m (x :: t) 0) (x :: t)) as Hin by (apply nth_In; apply Hfm). apply HB in Hin. lia.
Qed.
Lemma fork_same Q : even 126 Q -> fork_enum_2 Q = fork_enum Q.
Proof.
  intros ((HN & HS) & HL).
  assert (HB : forall x, In x (qbounds Q) -> 0 <= x <= 126) by (intros x Hx; pose proof (zsum_in_le _ _ HN Hx); specialize (HN x Hx); lia).
  apply fork_enum_2_proof; [intros x Hx; specialize (HB x Hx); lia|]. intros m Hm.
  assert (In (nth m (qbounds Q) 0) (qbounds Q)) as Hin by (apply nth_In; apply Hm). now apply HB in Hin.
Qed.
Lemma iter2_same {S R} (P : S -> Prop) (f g : S -> S + R) : (forall s, P s -> f s = g s) ->
  (forall s, P s -> match g s with inl s' => P s' | inr _ => True end) -> forall n s, P s -> iter2 n f s = iter2 n g s.
Proof.
  intros H1 H2. induction n as [|n IH]; intros s Hs; cbn [iter2]; [now apply H1|]. rewrite (IH s Hs).
  pose proof (iter2_inv P (fun _ => True) g ltac:(intros t Ht; specialize (H2 t Ht); destruct (g t); auto) n s Hs) as HI.
  destruct (iter2 n g s) as [s'|r]; auto.
Qed.
Lemma solve_question_same Q : even 126 Q -> solve_question_2 Q = solve_question Q.
Proof.
  intros HE. unfold solve_question_2, solve_question, while_.
  rewrite (iter2_same (fun s => forall P, In P (fst s) -> even 126 P) question_step_2 question_step); auto.
  - intros [[|P st] out] HS; [reflexivity|]. cbn [question_step_2 question_step].
    destruct (refine P) as [P'| |] eqn:E; auto. rewrite (fork_same P' (low_refine _ _ _ (HS P (or_introl eq_refl)) E)). reflexivity.
  - intros [[|P st] out] HS; [exact Logic.I|]. cbn [question_step]. cbn [fst] in HS.
    assert (HS' : forall P0, In P0 st -> even 126 P0) by (intros P0 H0; apply HS; now right).
    destruct (refine P) as [P'| |] eqn:E; cbn [fst]; auto.
    destruct (answer_unknown _).
    + destruct (fork_enum P') as [qs| |] eqn:EF; cbn [fst]; auto. intros P0 H0. apply in_app_or in H0. destruct H0 as [H0|H0]; auto.
      apply in_rev in H0. eapply low_fork; [|exact EF|exact H0]. eapply low_refine; [|exact E]. apply HS. now left.
    + destruct (binarize _) as [x| |]; cbn [fst]; auto.
  - intros P [<-|[]]. exact HE.
Qed.
Lemma zsum_ones n : zsum (repeat 1 n) = Z.of_nat n.
Proof. induction n as [|n IH]; [reflexivity|]. cbn [repeat]. rewrite zsum_cons, IH. lia. Qed.
Lemma from_matrix_even m Q : (mcols m <= 127 + mnrows m)%nat -> from_matrix m = Ok Q -> even 126 Q.
Proof.
  intros HC H. unfold from_matrix in H. inv_bind H. destruct r as [[[v k] l] u]. destruct (_ <=? _)%nat; [discriminate|].
  destruct (existsb _ _); [discriminate|]. apply mk_question_bounds in H. destruct H as (H1 & H2 & H3 & H4).
  split; [|now rewrite H1, H2]. unfold low. rewrite H1. split; [exact H4|]. rewrite zsum_ones. lia.
Qed.
Lemma advance_same m : (mcols m <= 127 + mnrows m)%nat -> advance_2 m = advance m.
Proof.
  intros HC. unfold advance_2, advance. destruct (assert_ _) as [u| |]; cbn [bind]; auto.
  destruct (from_matrix m) as [Q| |] eqn:E; auto. now rewrite (solve_question_same Q (from_matrix_even m Q HC E)).
Qed.
Lemma advance_rows m ms m' : advance m = Ok ms -> In m' ms -> mcols m' = mcols m /\ mnrows m' = S (mnrows m).
Proof.
  unfold advance. intros H Hin. inv_bind H. destruct (from_matrix m) as [Q| |]; try discriminate; [|injection H as <-; easy].
  inv_bind H. eapply mapM_in in H; [|exact Hin]. destruct H as (x & _ & H). unfold append_row in H. 
  cbv zeta in H. destruct (_ <=? _)%nat; [discriminate|]. inv_bind H.
  injection H as <-. unfold mnrows. cbn [mcols mrows]. rewrite app_length. cbn. lia.
Qed.
Definition short (m : mat) : Prop := (mcols m <= 127 + mnrows m)%nat.
Lemma advance_all_same l : (forall m, In m l -> short m) -> advance_all_2 l = advance_all l
  /\ forall ms m', advance_all l = Ok ms -> In m' ms -> short m'.
Proof.
  intros H. split.
  - unfold advance_all_2, advance_all. replace (mapM advance_2 l) with (mapM advance l); auto.
    induction l as [|m l IH]; auto. cbn [mapM]. rewrite (advance_same m (H m (or_introl eq_refl))), (IH (fun x Hx => H x (or_intror Hx))). reflexivity.
  - intros ms m' E Hin. unfold advance_all in E. inv_bind E. injection E as <-. apply in_concat in Hin. destruct Hin as (t & Ht & Hin).
    eapply mapM_in in E0; [|exact Ht]. destruct E0 as (m & Hm & E0). destruct (advance_rows _ _ _ E0 Hin). specialize (H m Hm). unfold short in *. lia.
Qed.
Lemma undone_short l : (forall m, In m l -> short m) -> forall m, In m (lst_undone l) -> short m.
Proof. intros H m Hm. apply filter_In in Hm. now apply H. Qed.
Lemma solve_loop_same fuel : forall lst ys, (forall m, In m lst -> short m) -> solve_loop_2 fuel lst ys = solve_loop fuel lst ys.
Proof.
  induction fuel as [|fuel IH]; intros [|m lst] ys H; auto. cbn [solve_loop_2 solve_loop].
  destruct (advance_all_same (lst_undone (m :: lst)) (undone_short _ H)) as (E & HS). rewrite E.
  destruct (advance_all _) as [l'| |] eqn:EA; cbn [bind]; auto. apply IH. intros m' Hm'. eapply HS; eauto.
Qed.
Theorem solve_2_proof m : (mcols m <= 127 + mnrows m)%nat -> solve_2 m = solve m.
Proof.
  intros HC. unfold solve_2, solve. rewrite (advance_same m HC). destruct (advance m) as [lst| |] eqn:E; cbn [bind]; auto.
  assert (H : forall m', In m' lst -> short m') by (intros m' Hm'; destruct (advance_rows _ _ _ E Hm'); unfold short; lia).
  destruct (advance_all_same (lst_undone lst) (undone_short _ H)) as (E1 & HS). rewrite E1.
  destruct (advance_all _) as [l'| |] eqn:EA; cbn [bind]; auto. apply solve_loop_same. intros m' Hm'. eapply HS; eauto.
Qed.
Theorem run_main_2_proof v k l u : v <= 129 -> run_main_2 v k l u = run_main v k l u.
Proof.
  intros Hv. unfold run_main_2, run_main. destruct (assert_srg v k l u); cbn [bind]; auto.
  destruct (seed v k l u) as [s| |] eqn:E; cbn [bind]; auto. apply seed_shape in E. destruct E as (H1 & H2 & H3).
  apply solve_2_proof. lia.
Qed.

(** a question with bounds of 127 *)
Definition wide_question : question :=
  Qst (Mat 3 [[1;1;0]; [0;1;1]]) [127;127] 127 [127;127;127] (Ans [-1;-1;-1] [0;127;254] 381).
Lemma wide_question_ok : question_ok wide_question.
Proof.
  constructor; try (now small).
  - split; [reflexivity|]. small.
  - intros row Hr a Ha. unfold bit. small.
  - split; [reflexivity|]. small.
  - now apply answer_ok_intro.
Qed.
Lemma wide_question_sol : solution wide_question [0;127;0].
Proof.
  constructor; try reflexivity.
  - intros i Hi. do 3 (destruct i as [|i]; [simpl; lia|]). simpl in Hi. lia.
  - intros i Hi. do 3 (destruct i as [|i]; [unfold QSpec.room; simpl; lia|]). simpl in Hi. lia.
  - split; [reflexivity|]. intros i Hi. do 2 (destruct i as [|i]; [reflexivity|]). simpl in Hi. lia.
  - intros i Hi. do 3 (destruct i as [|i]; [simpl; lia|]). simpl in Hi. lia.
Qed.
Theorem wide_proof : exists Q w, question_ok Q /\ solution Q w
  /\ solve_question Q = Ok [repeat 0 127 ++ repeat 1 127 ++ repeat 0 127] /\ solve_question_2 Q = Ok [].
Proof.
  exists wide_question, [0;127;0]. split; [exact wide_question_ok|]. split; [exact wide_question_sol|]. vm_compute. split; reflexivity.
Qed.
