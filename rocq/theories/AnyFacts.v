(** What holds of every run that ends without an exception, for any number of
    vertices: rows are 0/1 vectors of the right length. *)
From Verif Require Import Np ModelGauss Model Spec Lib QFacts StepFacts ForkFacts GroupFacts LevelFacts Graph SolveFacts.
From Coq Require Import ZifyBool ZifyNat.

Lemma bind_ok {A B} (x : res A) (f : A -> res B) b : bind x f = Ok b -> exists a, x = Ok a /\ f a = Ok b.
Proof. destruct x; simpl; try discriminate. eauto. Qed.
Ltac inv_bind H :=
  match type of H with
  | bind ?x ?f = Ok ?b =>
      let a := fresh "r" in let H1 := fresh "E" in
      destruct (bind_ok x f b H) as (a & H1 & H'); clear H; rename H' into H; cbv beta in H
  end.

Lemma iter2_inv {S R} (P : S -> Prop) (RR : R -> Prop) (step : S -> S + R) :
  (forall s, P s -> match step s with inl s' => P s' | inr r => RR r end) ->
  forall n s, P s -> match iter2 n step s with inl s' => P s' | inr r => RR r end.
Proof.
  intros H. induction n as [|n IH]; intros s Hs; simpl; [now apply H|].
  specialize (IH s Hs) as H1. destruct (iter2 n step s) as [s'|r]; auto.
  apply IH. exact H1.
Qed.
Lemma while_inv {S A} (P : S -> Prop) (RR : A -> Prop) (step : S -> S + res A) n s a :
  (forall s, P s -> match step s with inl s' => P s' | inr (Ok a) => RR a | inr _ => True end) ->
  P s -> while_ n step s = Ok a -> RR a.
Proof.
  intros H Hs E. unfold while_ in E.
  pose proof (iter2_inv P (fun r => match r with Ok a => RR a | _ => True end) step) as I.
  specialize (I ltac:(intros t Ht; specialize (H t Ht); destruct (step t) as [|[]]; auto) n s Hs).
  destruct (iter2 n step s) as [|[]]; try discriminate. injection E as ->. exact I.
Qed.

Lemma mk_answer_len v loc n a : mk_answer v loc n = Ok a -> alen a = n.
Proof.
  unfold mk_answer. intros H. inv_bind H. inv_bind H. injection H as <-. reflexivity.
Qed.
Lemma post_check_id Q Q' : post_check Q = Ok Q' -> Q' = Q.
Proof.
  unfold post_check. destruct (_ && _); [discriminate|]. intros H. inv_bind H.
  destruct (_ && _); [discriminate|]. inv_bind H. destruct (any2 _ _ _); [discriminate|]. now injection H.
Qed.

Definition qlen (Q : question) : Z := alen (qans Q).
Lemma reduce_col_len Q Q' : reduce_col Q = Ok Q' -> qlen Q' = qlen Q.
Proof.
  unfold reduce_col, reduce_col_body. intros H. inv_bind H. apply post_check_id in H. subst Q'.
  destruct (_ <? _)%nat; [now injection E as <-|]. inv_bind E.
  destruct (_ <? _)%nat; [discriminate|]. destruct (existsb _ _); [discriminate|].
  inv_bind E. inv_bind E. inv_bind E. injection E as <-. apply mk_answer_len in E2. exact E2.
Qed.
Lemma eliminate_len Q Q' : eliminate Q = Ok Q' -> qlen Q' = qlen Q.
Proof.
  unfold eliminate, eliminate_body. intros H. inv_bind H. apply post_check_id in H. subst Q'.
  destruct (Nat.eqb _ _); [now injection E as <-|]. inv_bind E. destruct r0. inv_bind E. now injection E as <-.
Qed.
Lemma zero_in_b_len Q Q' : zero_in_b Q = Ok Q' -> qlen Q' = qlen Q.
Proof.
  unfold zero_in_b, zero_in_b_body. intros H. inv_bind H. apply post_check_id in H. subst Q'.
  inv_bind E. inv_bind E. now injection E as <-.
Qed.
Lemma only_1_len Q Q' : only_1_element_in_row Q = Ok Q' -> qlen Q' = qlen Q.
Proof.
  unfold only_1_element_in_row, only_1_body, only_1_with. intros H. inv_bind H. apply post_check_id in H. subst Q'.
  inv_bind E. destruct (one_element_row_locs _); [now injection E as <-|].
  destruct (existsb _ _); [discriminate|]. destruct (_ <? _); [discriminate|]. destruct (any2 _ _ _); [discriminate|].
  inv_bind E. inv_bind E. inv_bind E. now injection E as <-.
Qed.
Lemma refine_len Q Q' : refine Q = Ok Q' -> qlen Q' = qlen Q.
Proof.
  unfold refine. apply (while_inv (fun P => qlen P = qlen Q) (fun P => qlen P = qlen Q)); auto.
  intros P HP. unfold refine_step.
  destruct (question_copy P) as [P0| |]; cbn [bind]; auto.
  destruct (reduce_col P) as [P1| |] eqn:E1; cbn [bind]; auto.
  destruct (eliminate P1) as [P2| |] eqn:E2; cbn [bind]; auto.
  destruct (zero_in_b P2) as [P3| |] eqn:E3; cbn [bind]; auto.
  destruct (only_1_element_in_row P3) as [P4| |] eqn:E4; cbn [bind]; auto.
  apply reduce_col_len in E1. apply eliminate_len in E2. apply zero_in_b_len in E3. apply only_1_len in E4.
  assert (qlen P4 = qlen Q) by congruence. destruct (question_eqb _ _); auto.
Qed.
Lemma mapM_in {A B} (f : A -> res B) l : forall bs b, mapM f l = Ok bs -> In b bs -> exists a, In a l /\ f a = Ok b.
Proof.
  induction l as [|x l IH]; simpl; intros bs b H Hin.
  - injection H as <-. easy.
  - inv_bind H. inv_bind H. injection H as <-. destruct Hin as [<-|Hin]; [eauto|].
    destruct (IH _ _ E0 Hin) as (a & Ha & Ea). eauto.
Qed.
Lemma fork_enum_len Q qs Q' : fork_enum Q = Ok qs -> In Q' qs -> qlen Q' = qlen Q.
Proof.
  unfold fork_enum. intros H Hin. inv_bind H. inv_bind H. inv_bind H. inv_bind H. injection H as <-.
  apply in_flat_map in Hin. destruct Hin as (o & Ho & Hin). destruct (mapM_in _ _ _ _ E2 Ho) as (q & _ & Eq).
  unfold fork_one in Eq. destruct (existsb _ _); [injection Eq as <-; easy|]. inv_bind Eq. inv_bind Eq.
  injection Eq as <-. destruct Hin as [<-|[]]. unfold answer_copy in E3. apply mk_answer_len in E3.
  unfold mk_question in E4. inv_bind E4. inv_bind E4. inv_bind E4. inv_bind E4. inv_bind E4. inv_bind E4.
  injection E4 as <-. injection E10 as <-. exact E3.
Qed.

Lemma slice_set_bits lo hi y : bits y -> bits (slice_set lo hi 1 y).
Proof.
  intros Hy a Ha. apply (In_nth _ _ 0) in Ha. destruct Ha as (i & Hi & <-).
  assert (Hl := slice_set_length lo hi 1 y). unfold slice_set in *. rewrite (nth_map2 _ _ _ _ 0%nat 0) by (rewrite ?seq_length; lia).
  destruct (_ && _); [now right|]. apply Hy, nth_In. lia.
Qed.
Lemma binarize_loop_bits w : forall q ptr ans, bits ans ->
  bits (binarize_loop w q ptr ans) /\ length (binarize_loop w q ptr ans) = length ans.
Proof.
  induction w as [|c w IH]; intros [|b q] ptr ans H; simpl; auto.
  destruct (IH q (ptr + b) (slice_set ptr (ptr + c) 1 ans)) as [H1 H2]; [now apply slice_set_bits|].
  split; auto. rewrite H2. apply slice_set_length.
Qed.
Lemma binarize_shape a x : binarize a = Ok x -> bits x /\ length x = Z.to_nat (alen a).
Proof.
  unfold binarize. intros H. inv_bind H. inv_bind H. inv_bind H. injection H as <-.
  destruct (binarize_loop_bits (av a) r0 0 (repeat 0 (Z.to_nat (alen a)))) as [H1 H2].
  - intros y Hy. apply repeat_spec in Hy. now left.
  - split; auto. rewrite H2. apply repeat_length.
Qed.

Lemma solve_question_shape Q xs : solve_question Q = Ok xs -> forall x, In x xs -> bits x /\ length x = Z.to_nat (qlen Q).
Proof.
  unfold solve_question.
  apply (while_inv (fun s => (forall P, In P (fst s) -> qlen P = qlen Q)
                      /\ forall x, In x (snd s) -> bits x /\ length x = Z.to_nat (qlen Q))
                   (fun xs => forall x, In x xs -> bits x /\ length x = Z.to_nat (qlen Q))).
  - intros [stack out] [H1 H2]. simpl in H1, H2. unfold question_step.
    destruct stack as [|P rest].
    + intros x Hx. apply in_rev in Hx. auto.
    + assert (HP := H1 P (or_introl eq_refl)).
      assert (Hr : forall P', In P' rest -> qlen P' = qlen Q) by (intros; apply H1; now right).
      destruct (refine P) as [P'| |] eqn:ER; simpl; auto. apply refine_len in ER.
      destruct (answer_unknown (qans P')).
      * destruct (fork_enum P') as [qs| |] eqn:EF; simpl; auto. split; auto.
        intros P2 Hin. apply in_app_iff in Hin. destruct Hin as [Hin|Hin]; auto. apply in_rev in Hin.
        rewrite (fork_enum_len _ _ _ EF Hin). congruence.
      * destruct (binarize (qans P')) as [x| |] eqn:EB; simpl; auto. split; auto.
        intros y [<-|Hy]; auto. apply binarize_shape in EB. unfold qlen in *. rewrite <- HP, <- ER. exact EB.
  - simpl. split; [|easy]. intros P [<-|[]]. reflexivity.
Qed.

Lemma from_matrix_len m Q : from_matrix m = Ok Q -> qlen Q = Z.of_nat (mcols m - mnrows m - 1).
Proof.
  unfold from_matrix. intros H. inv_bind H. destruct r as [[[v k] l] u]. destruct (_ <=? _)%nat; [discriminate|].
  cbv zeta in H. destruct (existsb _ _); [discriminate|]. unfold mk_question in H.
  inv_bind H. inv_bind H. inv_bind H. inv_bind H. inv_bind H. inv_bind H. injection H as <-.
  unfold default_answer in E5. apply mk_answer_len in E5. exact E5.
Qed.

Lemma partial_extend v R M x : partial_matrix v R M -> (R < v)%nat -> length x = (v - R - 1)%nat -> bits x ->
  partial_matrix v (S R) (M ++ [new_row M x]).
Proof.
  intros HV HR HL Hb. pose proof (lv_len _ _ _ HV) as HM. pose proof (lv_R _ _ _ HV) as HR2.
  destruct (lv_shape _ _ _ HV) as [_ Hs].
  assert (Hnew : forall j, cell (M ++ [new_row M x]) R j = nth j (new_row M x) 0) by (intros j; rewrite <- HM; apply cell_app_new).
  assert (Hold : forall i j, (i < R)%nat -> cell (M ++ [new_row M x]) i j = cell M i j) by (intros i j Hi; apply cell_app_old; lia).
  constructor.
  - split; [rewrite app_length; simpl; lia|]. intros row Hin. apply in_app_iff in Hin.
    destruct Hin as [Hin|[<-|[]]]; auto. unfold new_row. rewrite !app_length, column_length, HM. simpl. lia.
  - lia.
  - intros i j Hi Hj. destruct (Nat.eq_dec i R) as [->|]; [|rewrite Hold by lia; apply (lv_bit _ _ _ HV); lia].
    rewrite Hnew, nth_new_row, HM. destruct (Nat.ltb_spec j R); [apply (lv_bit _ _ _ HV); lia|].
    destruct (Nat.eqb_spec j R); [now left|]. apply Hb, nth_In. lia.
  - intros i j Hi Hj.
    destruct (Nat.eq_dec i R) as [->|], (Nat.eq_dec j R) as [->|]; auto.
    + rewrite Hnew, nth_new_row, HM, Hold by lia. destruct (Nat.ltb_spec j R); [reflexivity|lia].
    + rewrite Hnew, nth_new_row, HM, Hold by lia. destruct (Nat.ltb_spec i R); [reflexivity|lia].
    + rewrite !Hold by lia. apply (lv_sym _ _ _ HV); lia.
  - intros i Hi. destruct (Nat.eq_dec i R) as [->|]; [|rewrite Hold by lia; apply (lv_diag _ _ _ HV); lia].
    rewrite Hnew, nth_new_row, HM. destruct (Nat.ltb_spec R R); [lia|]. rewrite Nat.eqb_refl. reflexivity.
Qed.

(** a partial matrix extending [M0] *)
Definition grown (v : nat) (M0 : list (list Z)) (m : mat) : Prop :=
  mcols m = v /\ partial_matrix v (mnrows m) (mrows m) /\ firstn (length M0) (mrows m) = M0.

Lemma advance_grown v M0 m ms : grown v M0 m -> advance m = Ok ms -> forall m', In m' ms -> grown v M0 m'.
Proof.
  intros (H1 & H2 & H3) H m' Hin. unfold advance in H. inv_bind H. rename H into H0.
  destruct (from_matrix m) as [q| |] eqn:EF; try discriminate; [|injection H0 as <-; easy].
  inv_bind H0. destruct (mapM_in _ _ _ _ H0 Hin) as (x & Hx & Ex).
  apply from_matrix_len in EF. destruct (solve_question_shape _ _ E0 x Hx) as [Hb Hl].
  rewrite EF, Nat2Z.id in Hl.
  unfold append_row in Ex. destruct (Nat.leb_spec (mcols m) (mnrows m)) as [|Hlt]; [discriminate|]. inv_bind Ex. injection Ex as <-.
  split; [exact H1|]. unfold mnrows. cbn [mrows mcols]. rewrite app_length. cbn [length]. rewrite Nat.add_1_r.
  split.
  - change (column (mnrows m) (mrows m) ++ [0] ++ x) with (new_row (mrows m) x). apply partial_extend; auto; unfold mnrows in *; lia.
  - assert (HL : (length M0 <= length (mrows m))%nat).
    { rewrite <- H3, firstn_length. lia. }
    rewrite firstn_app. replace (length M0 - length (mrows m))%nat with 0%nat by lia. simpl. now rewrite app_nil_r.
Qed.
Lemma advance_all_grown v M0 l ms : (forall m, In m l -> grown v M0 m) -> advance_all l = Ok ms -> forall m', In m' ms -> grown v M0 m'.
Proof.
  intros H E m' Hin. unfold advance_all in E. inv_bind E. injection E as <-. apply in_concat in Hin.
  destruct Hin as (l' & Hl' & Hin). destruct (mapM_in _ _ _ _ E0 Hl') as (m & Hm & Em).
  eapply advance_grown; eauto.
Qed.
Lemma solve_loop_grown v M0 : forall fuel lst ys out, (forall m, In m lst -> grown v M0 m) ->
  (forall m, In m ys -> grown v M0 m /\ solved m = true) ->
  solve_loop fuel lst ys = Ok out -> forall m, In m out -> grown v M0 m /\ solved m = true.
Proof.
  induction fuel as [|fuel IH]; intros lst ys out HL HY E m Hm; simpl in E.
  - destruct lst; [|discriminate]. injection E as <-. auto.
  - destruct lst as [|m0 lst]; [injection E as <-; auto|]. inv_bind E.
    eapply IH; [|..|exact E|exact Hm].
    + intros m' Hm'. eapply advance_all_grown; [|exact E0|exact Hm']. intros m2 Hm2. apply filter_In in Hm2. apply HL. tauto.
    + intros m' Hm'. apply in_app_iff in Hm'. destruct Hm' as [Hm'|Hm']; auto. apply filter_In in Hm'. split; [apply HL|]; tauto.
Qed.
Theorem solve_grown v M0 out : partial_matrix v (length M0) M0 -> solve (Mat v M0) = Ok out ->
  forall m, In m out -> mcols m = v /\ adjacency v (mrows m) /\ firstn (length M0) (mrows m) = M0.
Proof.
  intros H E m Hm. unfold solve in E. inv_bind E. inv_bind E.
  assert (H0 : grown v M0 (Mat v M0)) by (split; [reflexivity|split; [exact H|apply firstn_all]]).
  pose proof (advance_grown v M0 _ _ H0 E0) as H1.
  assert (G : grown v M0 m /\ solved m = true).
  { eapply solve_loop_grown; [| |exact E|exact Hm].
    - eapply advance_all_grown; [|exact E1]. intros m2 Hm2. apply filter_In in Hm2. apply H1. tauto.
    - intros m2 Hm2. apply filter_In in Hm2. split; [apply H1|]; tauto. }
  destruct G as [(G1 & G2 & G3) G4]. split; auto. split; auto. unfold solved in G4. apply Nat.eqb_eq in G4. rewrite G4, G1 in G2.
  split; [apply G2|]. split; [apply G2|]. split; [apply (lv_sym _ _ _ G2)|apply (lv_diag _ _ _ G2)].
Qed.
Theorem run_main_well_formed v k l u ms : admissible v k l u -> run_main (Z.of_nat v) k l u = Ok ms ->
  forall m, In m ms -> mcols m = v /\ adjacency v (mrows m) /\ seed (Z.of_nat v) k l u = Ok (Mat v (firstn 2 (mrows m))).
Proof.
  intros (Hv & Hk & Hl & Hu & He) E m Hm. unfold run_main in E. inv_bind E. inv_bind E.
  rewrite seed_ok in E1 by auto. injection E1 as <-.
  pose proof (seed_level v k l Hv Hk Hl) as HL.
  assert (HL2 : length (seed_rows v k l) = 2%nat) by reflexivity.
  pose proof (solve_grown v (seed_rows v k l) ms) as G. rewrite HL2 in G.
  destruct (G (lv_partial _ _ _ HL) E m Hm) as (A & B & C). split; auto. split; auto.
  rewrite seed_ok by auto. now rewrite C.
Qed.
