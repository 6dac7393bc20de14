(** [_invariant_check] and the [debug] decorator, characterised. *)
From Verif Require Import Np ModelGauss Model ModelDebug Spec QSpec Lib QFacts StepFacts ForkFacts SolveFacts WidthFacts AnyFacts QuestionProps DebugProps DebugSpec.
From Coq Require Import ZifyBool ZifyNat.

Lemma zsum_diff l : zsum (diff l) = last l 0 - hd 0 l.
Proof.
  induction l as [|a [|b l] IH]; [reflexivity|cbn; rewrite Z.sub_diag; reflexivity|].
  change (diff (a :: b :: l)) with ((b - a) :: diff (b :: l)). change (last (a :: b :: l) 0) with (last (b :: l) 0).
  change (zsum ((b - a) :: diff (b :: l))) with ((b - a) + zsum (diff (b :: l))). rewrite IH. cbn [hd]. lia.
Qed.
Lemma diff_nth l i : (S i < length l)%nat -> nth i (diff l) 0 = nth (S i) l 0 - nth i l 0.
Proof.
  revert i; induction l as [|a [|b l] IH]; intros i H; simpl in H; try lia.
  change (diff (a :: b :: l)) with ((b - a) :: diff (b :: l)).
  destruct i; [reflexivity|]. cbn [nth]. rewrite IH by (simpl; lia). reflexivity.
Qed.
Lemma diff_len l : length (diff l) = (length l - 1)%nat.
Proof.
  induction l as [|a [|b l] IH]; [reflexivity..|].
  change (diff (a :: b :: l)) with ((b - a) :: diff (b :: l)). simpl length in *. lia.
Qed.
Lemma quota_iff a : answer_quota a = if hd 0 (edges a) =? 0 then Ok (diff (edges a)) else Raise AssertionError.
Proof.
  unfold answer_quota, quota_of. fold (edges a). rewrite zsum_diff.
  assert (E : last (edges a) 0 = alen a) by (unfold edges; apply last_last). rewrite E.
  replace (alen a - hd 0 (edges a) =? alen a) with (hd 0 (edges a) =? 0) by lia.
  now destruct (_ =? 0).
Qed.
Lemma assert_cases b : (b = true /\ assert_ b = Ok tt) \/ (b = false /\ assert_ b = Raise AssertionError).
Proof. destruct b; auto. Qed.

Lemma invariant_iff_proof Q : length (av (qans Q)) = length (aloc (qans Q)) ->
  (consistent Q -> invariant_check Q = Ok tt) /\ (~ consistent Q -> invariant_check Q = Raise AssertionError).
Proof.
  intros HL. unfold invariant_check.
  destruct (nonneg (qb Q)) eqn:E1; cbn [assert_ bind].
  2:{ split; [|reflexivity]. intros [H _ _ _ _ _ _ _]. exfalso. assert (nonneg (qb Q) = true) by now apply nonneg_in. congruence. }
  destruct (nonneg (qbounds Q)) eqn:E2; cbn [assert_ bind].
  2:{ split; [|reflexivity]. intros [_ H _ _ _ _ _ _]. exfalso. assert (nonneg (qbounds Q) = true) by now apply nonneg_in. congruence. }
  unfold mnrows. destruct (Nat.eqb_spec (length (mrows (qA Q))) (length (qb Q))) as [E3|E3]; cbn [assert_ bind].
  2:{ split; [|reflexivity]. intros [_ _ H _ _ _ _ _]. now destruct E3. }
  destruct (Nat.eqb_spec (mcols (qA Q)) (length (qbounds Q))) as [E4|E4]; cbn [assert_ bind].
  2:{ split; [|reflexivity]. intros [_ _ _ H _ _ _ _]. now destruct E4. }
  rewrite <- open_unknown. destruct (Nat.eqb_spec (length (open (qans Q))) (mcols (qA Q))) as [E5|E5]; cbn [assert_ bind].
  2:{ split; [|reflexivity]. intros [_ _ _ _ H _ _ _]. now destruct E5. }
  rewrite quota_iff. destruct (Z.eqb_spec (hd 0 (edges (qans Q))) 0) as [E6|E6]; cbn [bind].
  2:{ split; [|reflexivity]. intros [_ _ _ _ _ H _ _]. now destruct E6. }
  assert (LE : length (edges (qans Q)) = S (length (aloc (qans Q)))) by (unfold edges; rewrite app_length; simpl; lia).
  assert (E7 : any2 Z.gtb (av (qans Q)) (diff (edges (qans Q))) = false
    <-> forall i, (i < length (av (qans Q)))%nat -> nth i (av (qans Q)) 0 <= room (qans Q) i).
  { rewrite any2_gtb_false by (rewrite diff_len; lia). unfold room. split; intros H i Hi; specialize (H i Hi).
    - rewrite diff_nth in H by lia. exact H.
    - rewrite diff_nth by lia. exact H. }
  destruct (any2 Z.gtb _ _) eqn:E8; cbn [negb assert_ bind].
  { split; [|reflexivity]. intros [_ _ _ _ _ _ H _]. apply E7 in H. discriminate. }
  destruct (Nat.eqb_spec (mcols (qA Q)) 0) as [E9|E9].
  - destruct (forallb (fun x => x =? 0) (qb Q)) eqn:E10; cbn [assert_].
    + split; [reflexivity|]. intros H. exfalso. apply H. constructor; [now apply nonneg_in|now apply nonneg_in|auto|auto|auto|auto|now apply E7|].
      intros _ x Hx. rewrite forallb_forall in E10. specialize (E10 x Hx). lia.
    + split; [|reflexivity]. intros [_ _ _ _ _ _ _ H]. exfalso. assert (forallb (fun x => x =? 0) (qb Q) = true); [|congruence].
      apply forallb_forall. intros x Hx. rewrite (H E9 x Hx). reflexivity.
  - split; [reflexivity|]. intros H. exfalso. apply H. constructor; [now apply nonneg_in|now apply nonneg_in|auto|auto|auto|auto|now apply E7|].
    intros; contradiction.
Qed.

Lemma debug_char_proof f Q : 
  (forall e, question_copy Q = Raise e -> debug f Q = Raise e)
  /\ (forall e, question_copy Q = Ok Q -> f Q = Raise e -> debug f Q = Raise e)
  /\ (question_copy Q = Ok Q -> f Q = NoSolution -> debug f Q = NoSolution)
  /\ (forall Q', question_copy Q = Ok Q -> f Q = Ok Q' -> length (av (qans Q')) = length (aloc (qans Q')) ->
       (consistent Q' -> debug f Q = Ok Q') /\ (~ consistent Q' -> debug f Q = Raise AssertionError)).
Proof.
  unfold debug. repeat split.
  - intros e E. now rewrite E.
  - intros e E1 E2. rewrite E1. cbn [bind]. now rewrite E2.
  - intros E1 E2. rewrite E1. cbn [bind]. now rewrite E2.
  - intros C. rewrite H. cbn [bind]. rewrite H0. cbn [bind]. destruct (invariant_iff_proof Q' H1) as [I _]. now rewrite I.
  - intros C. rewrite H. cbn [bind]. rewrite H0. cbn [bind]. destruct (invariant_iff_proof Q' H1) as [_ I]. now rewrite I.
Qed.
