(** Concrete questions: instances for the examples and the counterexamples of
    C17, C18 and C20. *)
From Verif Require Import Np ModelGauss Model Spec QSpec.
From Coq Require Import Sorting.Sorted.

Ltac small := simpl; intros; repeat (simpl in *; match goal with
  | H : _ \/ _ |- _ => destruct H as [H|H]
  | H : False |- _ => destruct H
  | H : _ = ?x |- _ => is_var x; subst x end); simpl in *; try lia; auto.

(** x0 + x2 = 2, x1 = 1, x0 + x1 + x2 = 3 with buckets of size 2, 2, 1 *)
Definition ex_question : question :=
  Qst (Mat 3 [[1;0;1]; [0;1;0]]) [2;1] 3 [2;2;1] (Ans [-1;-1;-1] [0;2;4] 5).
Lemma answer_ok_intro v loc len : length v = length loc -> hd 0 (loc ++ [len]) = 0 ->
  forallb (fun d => 0 <? d) (diff (loc ++ [len])) = true -> answer_ok (Ans v loc len).
Proof.
  intros H1 H2 H3. unfold answer_ok, edges. simpl. split; auto. split; auto.
  revert H3. generalize (loc ++ [len]) as l. clear.
  assert (G : forall l x, forallb (fun d => 0 <? d) (diff (x :: l)) = true -> StronglySorted Z.lt (x :: l) /\ forall y, In y l -> x < y).
  { induction l as [|y l IH]; intros x H; [split; [repeat constructor|easy]|].
    change (diff (x :: y :: l)) with (y - x :: diff (y :: l)) in H. simpl in H. apply andb_true_iff in H. destruct H as [H1 H2].
    destruct (IH y H2) as [S1 S2]. assert (Hin : forall z, In z (y :: l) -> x < z) by (intros z [<-|Hz]; [lia|specialize (S2 z Hz); lia]).
    split; auto. constructor; auto. apply Forall_forall. auto. }
  intros [|x l] H; [constructor|]. now apply G.
Qed.
Lemma ex_question_ok : question_ok ex_question.
Proof.
  constructor; try (now small).
  - split; [reflexivity|]. small.
  - intros row Hr a Ha. unfold bit. small.
  - split; [reflexivity|]. small.
  - now apply answer_ok_intro.
Qed.
Lemma ex_solution : solution ex_question [1;1;1].
Proof.
  constructor; try reflexivity.
  - intros i Hi. do 3 (destruct i as [|i]; [simpl; lia|]). simpl in Hi. lia.
  - intros i Hi. do 3 (destruct i as [|i]; [unfold room; simpl; lia|]). simpl in Hi. lia.
  - split; [reflexivity|]. intros i Hi. do 2 (destruct i as [|i]; [reflexivity|]). simpl in Hi. lia.
  - intros i Hi. do 3 (destruct i as [|i]; [simpl; lia|]). simpl in Hi. lia.
Qed.

(** C17: a column without rows whose bound exceeds the quota *)
Definition loose_question : question :=
  Qst (Mat 2 [[0;1]]) [1] 2 [3;4] (Ans [-1;-1] [0;3] 7).
Lemma fork_raises_proof : exists Q w, question_ok Q /\ (1 <= mcols (qA Q))%nat /\ solution Q w
  /\ fork_enum Q = Raise AssertionError.
Proof.
  exists loose_question, [1;1]. split; [|split; [simpl; lia|split; [|reflexivity]]].
  - constructor; try (now small).
    + split; [reflexivity|]. small.
    + intros row Hr a Ha. unfold bit. small.
    + split; [reflexivity|]. small.
    + now apply answer_ok_intro.
  - constructor; try reflexivity.
    + intros i Hi. do 2 (destruct i as [|i]; [simpl; lia|]). simpl in Hi. lia.
    + intros i Hi. do 2 (destruct i as [|i]; [unfold room; simpl; lia|]). simpl in Hi. lia.
    + split; [reflexivity|]. intros i Hi. do 1 (destruct i as [|i]; [reflexivity|]). simpl in Hi. lia.
    + intros i Hi. do 2 (destruct i as [|i]; [simpl; lia|]). simpl in Hi. lia.
Qed.
Lemma ex_fork_hyp : forall m, first_minimum (qbounds ex_question) m -> nth m (qbounds ex_question) 0 <= qquota ex_question
     \/ exists i, (i < length (qb ex_question))%nat /\ cell (mrows (qA ex_question)) i m = 1 /\ nth i (qb ex_question) 0 <= qquota ex_question.
Proof. intros m [Hm _]. left. do 3 (destruct m as [|m]; [simpl; lia|]). simpl in Hm. lia. Qed.

(** C18: a known bucket between the two members of a group of equal columns *)
Definition split_question : question :=
  Qst (Mat 2 [[1;1]]) [2] 2 [1;1] (Ans [-1;0;-1] [0;1;2] 3).
Lemma reduce_col_loses_proof : exists Q Q' w, question_ok Q
  /\ (forall i j m, (i <= m <= j)%nat -> (j < mcols (qA Q))%nat ->
        column i (mrows (qA Q)) = column j (mrows (qA Q)) -> column m (mrows (qA Q)) = column i (mrows (qA Q)))
  /\ solution Q w /\ reduce_col Q = Ok Q' /\ forall w', ~ solution Q' w'.
Proof.
  exists split_question. eexists. exists [1;0;1]. split; [|split; [|split; [|split; [vm_compute; reflexivity|]]]].
  - constructor; try (now small).
    + split; [reflexivity|]. small.
    + intros row Hr a Ha. unfold bit. small.
    + split; [reflexivity|]. small.
    + now apply answer_ok_intro.
  - intros i j m Hm Hj _. simpl in Hj. unfold column. simpl. f_equal.
    do 2 (destruct i as [|i]; [do 2 (destruct m as [|m]; [reflexivity|]); simpl in *; lia|]). simpl in Hj. lia.
  - constructor; try reflexivity.
    + intros i Hi. do 3 (destruct i as [|i]; [simpl; lia|]). simpl in Hi. lia.
    + intros i Hi. do 3 (destruct i as [|i]; [unfold room; simpl; lia|]). simpl in Hi. lia.
    + split; [reflexivity|]. intros i Hi. do 1 (destruct i as [|i]; [reflexivity|]). simpl in Hi. lia.
  - intros w' [S1 S2 S3 S4 S5 S6]. simpl in S1.
    destruct w' as [|a [|b [|]]]; try discriminate. unfold open_values in *. simpl in *.
    specialize (S3 0%nat ltac:(simpl; lia)). unfold room in S3. simpl in S3. unfold zsum in S5. simpl in S5. lia.
Qed.

(** C20: locations that are not increasing, but never equal to their neighbour *)
Lemma answer_unsorted_proof : exists v loc len,
  ~ StronglySorted Z.lt loc /\ mk_answer v loc len = Ok (Ans v loc len).
Proof.
  exists [-1;-1;-1], [0;2;1], 3. split; [|reflexivity].
  intros H. inversion H as [|? ? H1 _]; subst. inversion H1 as [|? ? _ H2]; subst. inversion H2; subst. lia.
Qed.

(** two equal columns with neighbouring buckets, a known bucket before the third *)
Definition rex_question : question :=
  Qst (Mat 3 [[1;1;0]; [0;0;1]]) [2;1] 3 [2;1;2] (Ans [-1;-1;0;-1] [0;2;3;4] 6).
Lemma rex_reducible : reducible rex_question.
Proof.
  constructor.
  - constructor; try (now small).
    + split; [reflexivity|]. small.
    + intros row Hr a Ha. unfold bit. small.
    + split; [reflexivity|]. small.
    + now apply answer_ok_intro.
  - intros i j k Hij Hk H. exfalso. simpl in Hk. assert (i = 0 /\ j = 1 /\ k = 2)%nat as (-> & -> & ->) by lia.
    specialize (H [1;1;0] (or_introl eq_refl)). discriminate.
  - simpl. lia.
  - vm_compute. discriminate.
  - intros j Hj. do 3 (destruct j as [|j]; [vm_compute; discriminate|]). simpl in Hj. lia.
  - intros j Hj H. destruct j as [|j]; [reflexivity|]. simpl in Hj. assert (j = 0)%nat as -> by lia.
    specialize (H [1;1;0] (or_introl eq_refl)). discriminate.
Qed.
Lemma rex_solution : solution rex_question [1;1;0;1].
Proof.
  constructor; try reflexivity.
  - intros i Hi. do 4 (destruct i as [|i]; [simpl; lia|]). simpl in Hi. lia.
  - intros i Hi. do 4 (destruct i as [|i]; [unfold room; simpl; lia|]). simpl in Hi. lia.
  - split; [reflexivity|]. intros i Hi. do 2 (destruct i as [|i]; [reflexivity|]). simpl in Hi. lia.
  - intros i Hi. do 3 (destruct i as [|i]; [simpl; lia|]). simpl in Hi. lia.
Qed.

(** C61-C64: zeros to remove, a fork, two answers *)
Definition zex_question : question :=
  Qst (Mat 4 [[1;1;0;0];[0;1;1;1];[0;0;0;1]]) [2;2;0] 3 [2;2;2;2] (Ans [-1;-1;-1;-1] [0;2;4;6] 8).
Lemma zex_question_ok : question_ok zex_question.
Proof.
  constructor; try (now small).
  - split; [reflexivity|]. small.
  - intros row Hr a Ha. unfold bit. small.
  - split; [reflexivity|]. small.
  - now apply answer_ok_intro.
Qed.
Definition sex_question : question :=
  Qst (Mat 4 [[1;1;0;0];[0;0;1;1];[1;0;1;0]]) [1;1;1] 2 [1;1;1;1] (Ans [-1;-1;-1;-1] [0;1;2;3] 4).
Lemma sex_question_ok : question_ok sex_question.
Proof.
  constructor; try (now small).
  - split; [reflexivity|]. small.
  - intros row Hr a Ha. unfold bit. small.
  - split; [reflexivity|]. small.
  - now apply answer_ok_intro.
Qed.
