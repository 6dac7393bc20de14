(** The stack of [solve_question] stays short: a fork of a bucket with room for [m]
    vertices pushes at most [m + 1] questions, and each has room for [m] fewer. *)
From Verif Require Import Np ModelGauss Model Spec QSpec Lib QFacts StepFacts ForkFacts AnyFacts QuestionProps Total Levels TurnSpec Numpy2Props.
From Coq Require Import ZifyBool ZifyNat.

Fixpoint fits (N : Z) (st : list question) : Prop :=
  match st with
  | [] => True
  | Q :: rest => even (N - Z.of_nat (length rest)) Q /\ fits N rest
  end.
Lemma fits_length N st : 0 <= N -> fits N st -> Z.of_nat (length st) <= N + 1.
Proof.
  destruct st as [|Q st]; cbn [fits length]; [lia|]. intros _ (((H & HS) & _) & _).
  pose proof (Lib.zsum_nonneg _ H). lia.
Qed.
Lemma even_le N N' Q : N <= N' -> even N Q -> even N' Q.
Proof. intros H ((H1 & H2) & H3). split; [split|]; auto. lia. Qed.
Lemma fits_push N m rest : fits N rest -> forall qs, (forall Q, In Q qs -> even (N - Z.of_nat (length rest) - m) Q) ->
  Z.of_nat (length qs) <= m + 1 -> fits N (qs ++ rest).
Proof.
  intros HR. induction qs as [|Q qs IH]; intros H HL; auto. cbn [app fits length] in *. split.
  - eapply even_le; [|apply H; now left]. rewrite app_length. lia.
  - apply IH; [|lia]. intros P HP. apply H. now right.
Qed.
Lemma fork_children N Q qs : even N Q -> fork_enum Q = Ok qs ->
  exists m, Z.of_nat (length qs) <= m + 1 /\ forall Q', In Q' qs -> even (N - m) Q'.
Proof.
  intros ((HN & HS) & HL) H. unfold fork_enum in H. inv_bind H. inv_bind H. inv_bind H. inv_bind H. injection H as <-.
  assert (HM : (r1 < length (qbounds Q))%nat).
  { destruct (qbounds Q) as [|x t] eqn:EB; [discriminate|]. destruct (argmin_spec (x :: t) ltac:(discriminate)) as (m & Em & Hfm).
    rewrite Em in E1. injection E1 as <-. apply Hfm. }
  exists (nth r1 (qbounds Q) 0). split.
  - assert (L : (length (flat_map (fun o : option question => match o with Some q => [q] | None => [] end) r2) <= length r2)%nat).
    { clear. induction r2 as [|[q|] r2 IH]; cbn; lia. }
    apply mapM_length in E2. unfold fork_enum_values in E2. cbv zeta in E2. rewrite zrange_length in E2.
    assert (0 <= nth r1 (qbounds Q) 0) by now apply HN, nth_In. lia.
  - intros Q' Hin. apply in_flat_map in Hin. destruct Hin as (o & Ho & Hin). destruct o as [Q1|]; [|easy]. destruct Hin as [->|[]].
    eapply mapM_in in E2; [|exact Ho]. destruct E2 as (q & _ & E2). unfold fork_one in E2. destruct (existsb _ _); [discriminate|].
    inv_bind E2. inv_bind E2. injection E2 as <-. apply mk_question_bounds in E4. destruct E4 as (E5 & E6 & E7 & E8).
    split; [|now rewrite E5, E6]. unfold low. rewrite E5. split; [exact E8|].
    assert (E9 : zsum (qbounds Q) = zsum (delete [r1] (qbounds Q)) + zsum (pick 0 [r1] (qbounds Q))).
    { apply zsum_split; [repeat constructor; easy|]. intros j [<-|[]]. exact HM. }
    unfold pick in E9. cbn [map] in E9. rewrite zsum_cons in E9. change (zsum []) with 0 in E9. lia.
Qed.
Lemma fits_step N s s' : fits N (fst s) -> question_step s = inl s' -> fits N (fst s').
Proof.
  destruct s as [[|Q st] out]; cbn [fst question_step]; [discriminate|]. intros (HQ & HS) H.
  destruct (refine Q) as [Q'| |] eqn:E; [|injection H as <-; exact HS|discriminate].
  destruct (answer_unknown _).
  - destruct (fork_enum Q') as [qs| |] eqn:EF; [|injection H as <-; exact HS|discriminate]. injection H as <-. cbn [fst].
    destruct (fork_children _ _ _ (low_refine _ _ _ HQ E) EF) as (m & HL & HC).
    apply (fits_push N m); auto; [|now rewrite rev_length]. intros P HP. apply HC. now apply in_rev.
  - destruct (binarize _) as [x| |]; try discriminate; injection H as <-; exact HS.
Qed.
Theorem stack_proof Q stack out : length (qbounds Q) = mcols (qA Q) -> (forall x, In x (qbounds Q) -> 0 <= x) ->
  visits question_step ([Q], []) (stack, out) -> Z.of_nat (length stack) <= 1 + zsum (qbounds Q).
Proof.
  intros HL HN HV. assert (HF : fits (zsum (qbounds Q)) (fst (stack, out))).
  { revert HV. generalize (stack, out). intros s HV. induction HV as [|t t' _ IH E]; [|eapply fits_step; eauto].
    cbn [fst fits length]. split; auto. split; auto. split; auto. lia. }
  apply fits_length in HF; [cbn [fst] in HF; lia|]. now apply Lib.zsum_nonneg.
Qed.
Theorem row_stack_proof m Q stack out : from_matrix m = Ok Q ->
  visits question_step ([Q], []) (stack, out) -> (length stack <= mcols m - mnrows m)%nat.
Proof.
  intros H HV. unfold from_matrix in H. inv_bind H. destruct r as [[[v k] l] u].
  destruct (_ <=? _)%nat eqn:EC; [discriminate|].
  destruct (existsb _ _); [discriminate|]. apply mk_question_bounds in H. destruct H as (H1 & H2 & H3 & H4).
  apply stack_proof in HV; [|now rewrite H1, H2|now rewrite H1]. rewrite H1, zsum_ones in HV. lia.
Qed.

(** [n] turns of a loop *)
Fixpoint after {S R} (step : S -> S + R) (n : nat) (s : S) : option S :=
  match n with
  | O => Some s
  | S n' => match step s with inl s' => after step n' s' | inr _ => None end
  end.
Lemma visits_first {S R} (step : S -> S + R) s s' t : step s = inl s' -> visits step s' t -> visits step s t.
Proof. intros E. induction 1 as [|t t' _ IH E']; [eapply visits_turn; [constructor|exact E]|eapply visits_turn; eauto]. Qed.
Lemma after_visits {S R} (step : S -> S + R) n : forall s t, after step n s = Some t -> visits step s t.
Proof.
  induction n as [|n IH]; intros s t H; cbn [after] in H; [injection H as <-; constructor|].
  destruct (step s) as [s'|] eqn:E; [|discriminate]. eapply visits_first; eauto.
Qed.
