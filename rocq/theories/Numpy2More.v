(** A refined question has no column or at least three, so a smallest bound of
    127 needs bounds that add up to 381: the promotion rule does not matter up
    to 383 vertices. *)
From Verif Require Import Np ModelGauss Model Spec QSpec Lib BitFacts QFacts StepFacts ForkFacts AnyFacts QuestionProps Settled Total ElimMore Levels ModelNumpy2 Numpy2Props.
From Coq Require Import ZifyBool ZifyNat.

(** ** how many columns are left *)
Lemma reduce_col_distinct Q : reduce_col Q = Ok Q -> (2 <= qcols Q)%nat ->
  exists row, In row (mrows (qA Q)) /\ nth 0 row 0 <> nth 1 row 0.
Proof.
  intros H HC. unfold reduce_col in H. apply bind_ok in H. destruct H as (Q1 & H & HP). apply post_check_id in HP. subst Q1.
  unfold reduce_col_body in H. cbv zeta in H. fold (qcols Q) in H. destruct (Nat.ltb_spec (qcols Q) 2); [lia|].
  apply bind_ok in H. destruct H as (enc & He & H). unfold unique_encode in He. destruct (Nat.eqb _ 0); [discriminate|]. injection He as <-.
  destruct (_ <? _)%nat; [discriminate|]. destruct (existsb _ _); [discriminate|].
  apply bind_ok in H. destruct H as (u1 & _ & H). apply bind_ok in H. destruct H as (a & _ & H). apply bind_ok in H. destruct H as (u2 & _ & H).
  injection H as H. apply (f_equal (fun P => mcols (qA P))) in H. cbn [qA mcols] in H. rewrite map_length in H.
  set (enc := map (fun j => pack (column j (mrows (qA Q)))) (seq 0 (mcols (qA Q)))) in *.
  assert (L : length enc = mcols (qA Q)) by (unfold enc; now rewrite map_length, seq_length).
  destruct (groups_count enc) as [_ HN]. specialize (HN ltac:(lia)).
  apply (column_differ 0 1). intros E. unfold qcols in HC.
  assert (EN : nth 0 enc 0 = nth 1 enc 0).
  { unfold enc. rewrite !(nth_indep _ 0 (pack (column 0 (mrows (qA Q))))) by (rewrite map_length, seq_length; lia).
    rewrite !(map_nth (fun j => pack (column j (mrows (qA Q))))), !seq_nth by lia. cbn [Nat.add]. now rewrite E. }
  rewrite (NoDup_nth enc 0) in HN. specialize (HN 0%nat 1%nat ltac:(lia) ltac:(lia) EN). discriminate.
Qed.
Lemma only_1_none Q row c : only_1_body Q = Ok Q -> (1 <= qcols Q)%nat -> In row (mrows (qA Q)) -> ~ single row c.
Proof.
  intros H HC Hr HS. destruct (one_element_row_locs_some _ row c Hr HS) as (r & Hin).
  unfold only_1_body, only_1_with in H. cbv zeta in H. apply bind_ok in H. destruct H as (u & _ & H).
  destruct (one_element_row_locs (mrows (qA Q))) as [|p l] eqn:E; [easy|].
  destruct (existsb _ _); [discriminate|]. destruct (_ <? _); [discriminate|]. destruct (any2 _ _ _); [discriminate|].
  apply bind_ok in H. destruct H as (q & _ & H). apply bind_ok in H. destruct H as (u1 & _ & H). apply bind_ok in H. destruct H as (u2 & _ & H).
  injection H as H. apply (f_equal (fun P => mcols (qA P))) in H. cbn [qA mcols map length] in H. unfold qcols in HC. lia.
Qed.
Lemma refined_cols Q Q' : loose Q -> refine Q = Ok Q' -> qcols Q' = 0%nat \/ (3 <= qcols Q')%nat.
Proof.
  intros HQ. unfold refine. apply (while_inv loose (fun P => qcols P = 0%nat \/ (3 <= qcols P)%nat)); auto. intros P HP.
  pose proof (refine_step_any P HP) as HS. unfold refine_step in *.
  destruct (question_copy P) as [P0| |] eqn:E0; cbn [bind] in *; auto. apply question_copy_same in E0. subst P0.
  destruct (reduce_col P) as [P1| |] eqn:E1; cbn [bind] in *; auto.
  destruct (reduce_col_less P P1 HP E1) as [L1 C1].
  destruct (eliminate P1) as [P2| |] eqn:E2; cbn [bind] in *; auto.
  destruct (proj2 (eliminate_any P1 (le_loose _ _ L1)) P2 E2) as (L2 & C2 & _).
  destruct (zero_in_b P2) as [P3| |] eqn:E3; cbn [bind] in *; auto.
  destruct (proj2 (zero_in_b_any P2 (le_loose _ _ L2)) P3 E3) as (L3 & _).
  destruct (only_1_element_in_row P3) as [P4| |] eqn:E4; cbn [bind] in *; auto.
  destruct (proj2 (only_1_any P3 (le_loose _ _ L3)) P4 E4) as (L4 & C4).
  destruct (question_eqb P4 P) eqn:EQ; [|apply (le_loose _ _ (proj1 HS))]. apply question_eqb_spec in EQ. subst P4.
  pose proof (le_cols _ _ L3) as D3. pose proof (le_cols _ _ L4) as D4. pose proof (le_cols _ _ L1) as D1.
  destruct C1 as [->|C1]; [|lia]. destruct C4 as [(<- & C4)|C4]; [|lia].
  destruct (qcols P) as [|[|[|n]]] eqn:EC; [now left| | |right; lia]; exfalso.
  - assert (HZ : forall row j, In row (mrows (qA P)) -> nth j row 0 = 0).
    { intros row j Hr. destruct (lo_rows _ HP row Hr) as [HL Hb]. rewrite EC in HL. destruct row as [|a [|]]; try discriminate.
      destruct (Hb a ltac:(simpl; auto)) as [-> | ->]; [now destruct j as [|[|j]]|]. exfalso. eapply (only_1_none P [1] 0); eauto; [lia|reflexivity]. }
    apply (elim_stop_proof (qA P) (qb P)) in HZ; [|unfold qcols in EC; lia|apply (lo_blen _ HP)|exact (lo_rows _ HP)|exact (lo_b _ HP)].
    unfold eliminate, eliminate_body in E2. fold (qcols P) in E2. rewrite EC, HZ in E2. discriminate.
  - destruct (reduce_col_distinct P E1 ltac:(lia)) as (row & Hr & Hne). destruct (lo_rows _ HP row Hr) as [HL Hb]. rewrite EC in HL.
    destruct row as [|a [|b [|]]]; try discriminate. cbn [nth] in Hne.
    destruct (Hb a ltac:(simpl; auto)) as [-> | ->], (Hb b ltac:(simpl; auto)) as [-> | ->]; try lia;
      eapply (only_1_none P); eauto; try lia; reflexivity.
Qed.

(** ** the two rules *)
Definition tame (Q : question) : Prop := loose Q /\ even 380 Q.
Lemma zsum_three x t m : (3 <= length t)%nat -> (forall a, In a t -> m <= a) -> 0 <= m -> x = zsum t -> 3 * m <= x.
Proof.
  intros HL H Hm ->. destruct t as [|a [|b [|c t]]]; cbn [length] in HL; try lia. rewrite !zsum_cons.
  assert (0 <= zsum t). { apply Lib.zsum_nonneg. intros z Hz. assert (m <= z) by (apply H; simpl; auto). lia. }
  pose proof (H a ltac:(simpl; auto)). pose proof (H b ltac:(simpl; auto)). pose proof (H c ltac:(simpl; auto)). lia.
Qed.
Lemma fork_same_3 Q : tame Q -> qcols Q = 0%nat \/ (3 <= qcols Q)%nat -> fork_enum_2 Q = fork_enum Q.
Proof.
  intros (HL & (HN & HS) & _) HC. apply fork_enum_2_proof; [exact (lo_bd _ HL)|]. intros m Hm.
  destruct (Z.le_gt_cases (nth m (qbounds Q) 0) 126) as [|Hgt]; auto. exfalso.
  pose proof (lo_bdlen _ HL) as HB. assert (Hlt : (m < length (qbounds Q))%nat) by apply Hm.
  assert (3 * 127 <= zsum (qbounds Q)); [|lia]. apply (zsum_three _ (qbounds Q)); auto; [lia| |lia].
  intros a Ha. apply (In_nth _ _ 0) in Ha. destruct Ha as (j & Hj & <-).
  assert (nth m (qbounds Q) 0 <= nth j (qbounds Q) 0) by (now apply Hm). lia.
Qed.
Lemma solve_question_same_3 Q : tame Q -> solve_question_2 Q = solve_question Q.
Proof.
  intros HE. unfold solve_question_2, solve_question, while_.
  rewrite (iter2_same (fun s => forall P, In P (fst s) -> tame P) question_step_2 question_step); auto.
  - intros [[|P st] out] HS; [reflexivity|]. cbn [question_step_2 question_step]. destruct (HS P (or_introl eq_refl)) as (HP1 & HP2).
    destruct (refine P) as [P'| |] eqn:E; auto. rewrite (fork_same_3 P'); [reflexivity| |exact (refined_cols _ _ HP1 E)].
    split; [exact (le_loose _ _ (proj2 (refine_any P HP1) P' E))|exact (low_refine _ _ _ HP2 E)].
  - intros [[|P st] out] HS; [exact Logic.I|]. cbn [question_step]. cbn [fst] in HS.
    assert (HS' : forall P0, In P0 st -> tame P0) by (intros P0 H0; apply HS; now right).
    destruct (HS P (or_introl eq_refl)) as (HP1 & HP2).
    destruct (refine P) as [P'| |] eqn:E; cbn [fst]; auto. pose proof (le_loose _ _ (proj2 (refine_any P HP1) P' E)) as HP'.
    destruct (answer_unknown _).
    + destruct (fork_enum P') as [qs| |] eqn:EF; cbn [fst]; auto. intros P0 H0. apply in_app_or in H0. destruct H0 as [H0|H0]; auto.
      apply in_rev in H0. split; [now apply (proj1 (fork_enum_any P' qs HP' EF))|].
      eapply low_fork; [|exact EF|exact H0]. eapply low_refine; [|exact E]. exact HP2.
    + destruct (binarize _) as [x| |]; cbn [fst]; auto.
  - intros P [<-|[]]. exact HE.
Qed.
Lemma from_matrix_tame v R m Q : sheet v R m -> (R < v)%nat -> (v <= 381 + R)%nat -> from_matrix m = Ok Q -> tame Q.
Proof.
  intros HS HR HV H. split; [exact (proj2 (from_matrix_any v R m HS HR) Q H)|]. destruct HS as [S1 S2 S3 _].
  unfold from_matrix in H. inv_bind H. destruct r as [[[v' k] l] u]. destruct (_ <=? _)%nat; [discriminate|].
  destruct (existsb _ _); [discriminate|]. apply mk_question_bounds in H. destruct H as (H1 & H2 & H3 & H4).
  split; [|now rewrite H1, H2]. unfold low. rewrite H1. split; [exact H4|]. rewrite zsum_ones. lia.
Qed.
Lemma advance_same_3 v R m : sheet v R m -> (v <= 381 + R)%nat -> advance_2 m = advance m.
Proof.
  intros HS HV. unfold advance_2, advance. destruct (assert_ _) as [u| |] eqn:EA; cbn [bind]; auto.
  destruct (from_matrix m) as [Q| |] eqn:E; auto. rewrite (solve_question_same_3 Q); auto. apply (from_matrix_tame v R m); auto.
  apply assert_ok in EA. unfold solved in EA. destruct HS as [S1 S2 S3 _]. destruct (Nat.eqb_spec (mnrows m) (mcols m)); [discriminate|lia].
Qed.
Lemma advance_all_same_3 v R l : (forall m, In m l -> sheet v R m) -> (v <= 381 + R)%nat -> advance_all_2 l = advance_all l.
Proof.
  intros H HV. unfold advance_all_2, advance_all. replace (mapM advance_2 l) with (mapM advance l); auto.
  induction l as [|m l IH]; auto. cbn [mapM]. rewrite (advance_same_3 v R m (H m (or_introl eq_refl)) HV), (IH (fun x Hx => H x (or_intror Hx))). reflexivity.
Qed.
Lemma undone_sheet v R l : (forall m, In m l -> sheet v R m) -> forall m, In m (lst_undone l) -> sheet v R m.
Proof. intros H m Hm. apply filter_In in Hm. now apply H. Qed.
Lemma solve_loop_same_3 v : forall fuel R lst ys, (v <= 381 + R)%nat -> (forall m, In m lst -> sheet v R m) -> solve_loop_2 fuel lst ys = solve_loop fuel lst ys.
Proof.
  induction fuel as [|fuel IH]; intros R [|m lst] ys HV H; auto. cbn [solve_loop_2 solve_loop].
  rewrite (advance_all_same_3 v R _ (undone_sheet v R _ H) HV).
  destruct (advance_all _) as [l'| |] eqn:EA; cbn [bind]; auto. apply (IH (S R)); [lia|].
  exact (proj2 (advance_all_any v R _ (undone_sheet v R _ H)) l' EA).
Qed.
Theorem solve_2_sheet v R m : sheet v R m -> (v <= 381 + R)%nat -> solve_2 m = solve m.
Proof.
  intros HS HV. unfold solve_2, solve. rewrite (advance_same_3 v R m HS HV). destruct (advance m) as [lst| |] eqn:E; cbn [bind]; auto.
  pose proof (proj2 (advance_any v R m HS) lst E) as H. rewrite (advance_all_same_3 v (S R) _ (undone_sheet v _ _ H) ltac:(lia)).
  destruct (advance_all _) as [l'| |] eqn:EA; cbn [bind]; auto. apply (solve_loop_same_3 v _ (S (S R))); [lia|].
  exact (proj2 (advance_all_any v (S R) _ (undone_sheet v _ _ H)) l' EA).
Qed.
Theorem solve_2_wide m : (2 <= mnrows m <= mcols m)%nat -> (forall row, In row (mrows m) -> length row = mcols m /\ bits row) ->
  (mcols m <= 381 + mnrows m)%nat -> solve_2 m = solve m.
Proof. intros H1 H2 H3. apply (solve_2_sheet (mcols m) (mnrows m)); [|exact H3]. constructor; auto. Qed.
Theorem refined_columns_proof Q Q' :
  (forall row, In row (mrows (qA Q)) -> length row = mcols (qA Q) /\ bits row) -> length (qb Q) = mnrows (qA Q) ->
  (forall x, In x (qb Q) -> 0 <= x) -> length (qbounds Q) = mcols (qA Q) -> (forall x, In x (qbounds Q) -> 0 <= x <= 127) ->
  (1 <= mnrows (qA Q))%nat -> length (unknown_loc (qans Q)) = mcols (qA Q) ->
  refine Q = Ok Q' -> mcols (qA Q') = 0%nat \/ (3 <= mcols (qA Q'))%nat.
Proof. intros H1 H2 H3 H4 H5 H6 H7. apply refined_cols. constructor; auto. Qed.
Theorem run_main_2_wide v k l u : v <= 383 -> run_main_2 v k l u = run_main v k l u.
Proof.
  intros Hv. unfold run_main_2, run_main. destruct (assert_srg v k l u); cbn [bind]; auto.
  destruct (seed v k l u) as [s| |] eqn:E; cbn [bind]; auto. apply (solve_2_sheet (Z.to_nat v) 2); [now apply (seed_sheet v k l u)|lia].
Qed.
