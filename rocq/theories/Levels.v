(** What [solve] yields, in terms of [solve_question]: the matrices whose rows
    are candidates one after the other. *)
From Verif Require Import Np ModelGauss Model ModelSort ModelDebug Spec SortSpec Lib SolveFacts AnyFacts SolverProps SortFacts Database ModelDb DbProps DebugProps.
From Coq Require Import ZifyBool ZifyNat Permutation.

Lemma reach_trans a b ms c : reach a b -> advance b = Ok ms -> In c ms -> reach a c.
Proof. intros H. induction H as [m|m l m' t Ea Hin Hr IH]; intros E Hc; eapply reach_next; eauto. constructor. Qed.
Lemma mapM_reach (P : mat -> Prop) l ls : mapM advance l = Ok ls -> (forall m, In m l -> P m) -> 
  forall t, In t (concat ls) -> exists m ms, P m /\ advance m = Ok ms /\ In t ms.
Proof.
  intros E H t Ht. apply in_concat in Ht. destruct Ht as (ms & Hms & Ht). destruct (mapM_in _ _ _ _ E Hms) as (m & Hm & Em). exists m, ms. auto.
Qed.
Lemma advance_all_reach s l l' : (forall m, In m l -> reach s m) -> advance_all l = Ok l' -> forall m, In m l' -> reach s m.
Proof.
  intros H E m Hm. unfold advance_all in E. inv_bind E. injection E as <-.
  destruct (mapM_reach (reach s) l r E0 H m Hm) as (m0 & ms & H1 & H2 & H3). eapply reach_trans; eauto.
Qed.
Lemma solve_loop_only s : forall fuel lst ys out, (forall m, In m lst -> reach s m) -> (forall m, In m ys -> reach s m /\ solved m = true) ->
  solve_loop fuel lst ys = Ok out -> forall m, In m out -> reach s m /\ solved m = true.
Proof.
  induction fuel as [|fuel IH]; intros lst ys out HL HY E m Hm; simpl in E.
  - destruct lst; [|discriminate]. injection E as <-. auto.
  - destruct lst as [|m0 lst]; [injection E as <-; auto|]. inv_bind E. eapply IH; [| |exact E|exact Hm].
    + eapply advance_all_reach; [|exact E0]. intros m2 Hm2. apply filter_In in Hm2. apply HL. tauto.
    + intros m' Hm'. apply in_app_iff in Hm'. destruct Hm' as [Hm'|Hm']; auto. apply filter_In in Hm'. split; [apply HL|]; tauto.
Qed.
Lemma solve_only s out : solve s = Ok out -> forall m, In m out -> reach s m /\ solved m = true.
Proof.
  intros E m Hm. unfold solve in E. inv_bind E. inv_bind E.
  assert (H1 : forall m, In m r -> reach s m) by (intros m1 H1; eapply reach_trans; [apply reach_here|exact E0|exact H1]).
  eapply solve_loop_only; [| |exact E|exact Hm].
  - eapply advance_all_reach; [|exact E1]. intros m2 Hm2. apply filter_In in Hm2. apply H1. tauto.
  - intros m' Hm'. apply filter_In in Hm'. split; [apply H1|]; tauto.
Qed.
Lemma solve_unsolved s out : solve s = Ok out -> solved s = false.
Proof. unfold solve, advance. intros E. inv_bind E. inv_bind E0. apply assert_ok in E1. now destruct (solved s). Qed.

(** one more row *)
Lemma append_shape m x m' : append_row m x = Ok m' -> mcols m' = mcols m /\ (mnrows m < mcols m)%nat
  /\ exists row, mrows m' = mrows m ++ [row] /\ skipn (S (mnrows m)) row = x.
Proof.
  unfold append_row. destruct (Nat.leb_spec (mcols m) (mnrows m)); [discriminate|]. intros E. inv_bind E. injection E as <-. cbn [mcols mrows].
  split; [auto|]. split; [auto|]. exists (column (mnrows m) (mrows m) ++ 0 :: x). split; [reflexivity|].
  change (0 :: x) with ([0] ++ x). rewrite app_assoc, skipn_app, app_length. unfold column. rewrite map_length. cbn [length].
  replace (S (mnrows m) - (length (mrows m) + 1))%nat with 0%nat by (unfold mnrows; lia). rewrite skipn_all2; [reflexivity|].
  rewrite app_length, map_length. cbn [length]. unfold mnrows. lia.
Qed.
(** the row below [p] is one of the candidates *)
Definition next_row (p m' : mat) : Prop :=
  exists Q xs x, from_matrix p = Ok Q /\ solve_question Q = Ok xs /\ In x xs /\ append_row p x = Ok m'.
Lemma advance_next m ms : advance m = Ok ms -> forall m', In m' ms <-> next_row m m'.
Proof.
  intros E m'. unfold advance in E. inv_bind E. unfold next_row. destruct (from_matrix m) as [Q| |] eqn:EF; try discriminate.
  - inv_bind E. split.
    + intros Hm. destruct (mapM_in _ _ _ _ E Hm) as (x & Hx & Ex). eauto 8.
    + intros (Q' & xs & x & E2 & E3 & Hx & Ex). injection E2 as <-. rewrite E1 in E3. injection E3 as <-.
      clear E1. revert ms E Hx. induction r0 as [|y r0 IH]; intros ms E Hx; [easy|]. cbn [mapM] in E. inv_bind E. inv_bind E. injection E as <-.
      destruct Hx as [->|Hx]; [left; congruence|right; eauto].
  - injection E as <-. split; [easy|]. intros (Q' & xs & x & E2 & _). discriminate.
Qed.
Lemma append_row_ok m x m' y : append_row m x = Ok m' -> length y = length x -> exists m2, append_row m y = Ok m2.
Proof.
  unfold append_row. destruct (_ <=? _)%nat; [discriminate|]. intros E L. inv_bind E. rewrite !app_length in *. rewrite L, E0. cbn [bind]. eauto.
Qed.
Lemma mapM_total {A B} (f : A -> res B) l : (forall a, In a l -> exists b, f a = Ok b) -> exists bs, mapM f l = Ok bs.
Proof.
  induction l as [|a l IH]; intros H; [cbn; eauto|]. cbn [mapM]. destruct (H a (or_introl eq_refl)) as (b & ->). cbn [bind].
  destruct IH as (bs & ->); [intros; apply H; now right|]. cbn [bind]. eauto.
Qed.
Lemma next_advance m m' : next_row m m' -> exists ms, advance m = Ok ms /\ In m' ms.
Proof.
  intros (Q & xs & x & EF & ES & Hx & Ex). destruct (append_shape _ _ _ Ex) as (_ & Hlt & _).
  assert (K : exists ms, advance m = Ok ms).
  { unfold advance, solved. destruct (Nat.eqb_spec (mnrows m) (mcols m)); [lia|]. cbn [negb assert_ bind]. rewrite EF, ES. cbn [bind].
    apply mapM_total. intros y Hy. apply (append_row_ok _ _ _ _ Ex).
    destruct (solve_question_shape _ _ ES x Hx) as [_ ->]. now destruct (solve_question_shape _ _ ES y Hy) as [_ ->]. }
  destruct K as (ms & E). exists ms. split; auto. apply (advance_next _ _ E). exists Q, xs, x. auto.
Qed.

Definition prefix (m : mat) (r : nat) : mat := Mat (mcols m) (firstn r (mrows m)).
Lemma reach_rows a b : reach a b -> mcols b = mcols a /\ (mnrows a <= mnrows b)%nat /\ firstn (mnrows a) (mrows b) = mrows a
  /\ forall r, (mnrows a <= r < mnrows b)%nat -> next_row (prefix b r) (prefix b (S r)).
Proof.
  intros H. induction H as [m|m l m' t Ea Hin Hr (I1 & I2 & I3 & I4)].
  - split; [auto|]. split; [auto|]. split; [apply firstn_all|]. intros r Hr. lia.
  - apply (advance_next _ _ Ea) in Hin. pose proof Hin as (Q & xs & x & _ & _ & _ & Ex).
    destruct (append_shape _ _ _ Ex) as (S1 & S2 & row & S3 & _).
    assert (L : mnrows m' = S (mnrows m)) by (unfold mnrows; rewrite S3, app_length; cbn [length]; lia).
    assert (P0 : firstn (mnrows m) (mrows t) = mrows m).
    { replace (mnrows m) with (Nat.min (mnrows m) (mnrows m')) at 1 by lia. rewrite <- firstn_firstn, I3, S3.
      unfold mnrows. rewrite firstn_app, Nat.sub_diag, firstn_all. apply app_nil_r. }
    split; [congruence|]. split; [lia|]. split; [exact P0|].
    intros r Hrr. destruct (Nat.eq_dec r (mnrows m)) as [->|Hne]; [|apply I4; lia].
    unfold prefix. rewrite P0, <- L, I3, I1, S1. rewrite <- S1 at 2. now destruct m, m'; cbn in S1; subst.
Qed.
Lemma rows_reach m : forall n r, (r + n = mnrows m)%nat ->
  (forall r', (r <= r' < mnrows m)%nat -> next_row (prefix m r') (prefix m (S r'))) -> reach (prefix m r) m.
Proof.
  induction n as [|n IH]; intros r Hn H.
  - unfold prefix. rewrite firstn_all2 by (unfold mnrows in *; lia). destruct m. constructor.
  - destruct (next_advance _ _ (H r ltac:(lia))) as (ms & E & Hin). eapply reach_next; eauto. apply IH; [lia|]. intros. apply H. lia.
Qed.
Lemma seed_shape v k l u s : seed v k l u = Ok s -> 2 <= v /\ mcols s = Z.to_nat v /\ mnrows s = 2%nat.
Proof.
  unfold seed. destruct (Z.ltb_spec v 0); [discriminate|]. destruct (Z.ltb_spec v 2); [discriminate|].
  apply (ok_inj (fun s => 2 <= v /\ mcols s = Z.to_nat v /\ mnrows s = 2%nat)). auto.
Qed.
Lemma yields_proof v k l u ms : run_main v k l u = Ok ms -> forall m, In m ms <->
  length (mrows m) = mcols m /\ seed v k l u = Ok (prefix m 2)
  /\ forall r, (2 <= r < mcols m)%nat -> next_row (prefix m r) (prefix m (S r)).
Proof.
  unfold run_main. intros E m. inv_bind E. inv_bind E. destruct (seed_shape _ _ _ _ _ E1) as (Hv & Hc & Hr). split.
  - intros Hm. destruct (solve_only _ _ E m Hm) as [HR HS]. destruct (reach_rows _ _ HR) as (I1 & I2 & I3 & I4).
    unfold solved in HS. apply Nat.eqb_eq in HS. rewrite Hr in *. split; [exact HS|]. split.
    + rewrite E1. f_equal. unfold prefix. rewrite I3, I1. now destruct r0.
    + intros r1 H1. apply I4. lia.
  - intros (L & ES & HN). rewrite E1 in ES. injection ES as ->.
    apply (solve_reach _ _ m E).
    + apply (rows_reach m (mnrows m - 2)); [|intros; apply HN; unfold mnrows in *; lia].
      unfold prefix, mnrows in Hr |- *. cbn [mrows] in Hr. rewrite firstn_length in Hr. lia.
    + now apply (solve_unsolved _ ms).
    + unfold solved, mnrows. rewrite L. apply Nat.eqb_refl.
Qed.
(** the candidate is the part of the row right of the diagonal *)
Lemma next_row_part m r : next_row (prefix m r) (prefix m (S r)) -> (r < length (mrows m))%nat ->
  exists Q xs, from_matrix (prefix m r) = Ok Q /\ solve_question Q = Ok xs /\ In (skipn (S r) (nth r (mrows m) [])) xs.
Proof.
  intros (Q & xs & x & EF & ES & Hx & Ex) Hr. exists Q, xs. split; auto. split; auto.
  destruct (append_shape _ _ _ Ex) as (_ & _ & row & E1 & E2). unfold prefix in E1, E2. cbn [mrows] in E1. unfold mnrows in E2. cbn [mrows] in E2.
  rewrite firstn_length, Nat.min_l in E2 by lia. replace (nth r (mrows m) []) with row; [now rewrite E2|].
  rewrite <- (firstn_skipn r (mrows m)) at 1. clear - E1 Hr. revert E1 Hr. generalize (mrows m) as l. induction r as [|r IH]; intros [|a l] E1 Hr; cbn in *; try lia.
  - congruence.
  - injection E1 as E1. apply (IH l E1). lia.
Qed.
(** ** tests/test_solver.py *)
Lemma database_small_nonempty : forallb (fun e => let '((v, k, l, u), ms) := e in negb (v <? 20)%nat || negb (Nat.eqb (length ms) 0)) database = true.
Proof. vm_compute. reflexivity. Qed.
Lemma test_question_proof v k l u sols : get_solutions v k l u = Ok sols -> v < 20 ->
  exists s Q xs, seed v k l u = Ok s /\ from_matrix s = Ok Q /\ solve_question Q = Ok xs
    /\ sols <> [] /\ forall m, In m sols -> In (skipn 3 (nth 2 (mrows m) [])) xs.
Proof.
  intros H Hv. pose proof (database_rerun_proof v k l u sols H (or_introl Hv)) as Hrun.
  unfold main_output in Hrun. destruct (run_main v k l u) as [ms| |] eqn:E; try discriminate. cbn [bind] in Hrun. injection Hrun as <-.
  assert (NE : exists m, In m ms).
  { pose proof database_small_nonempty as T. rewrite forallb_forall in T. apply get_solutions_in in H. destruct H as (e & n & Hin & He & -> & HS).
    specialize (T e Hin). destruct e as [p ms0]. cbn [fst] in He. subst p. cbn [entry_solutions] in HS.
    destruct ms0 as [|a ms0]; [cbn [length] in T; lia|].
    exists (Mat n (map (unpack n) a)). apply (Permutation_in _ (sort_perm ms)). rewrite HS. now left. }
  destruct NE as (m0 & Hm0).
  assert (K : forall m, In m ms -> exists Q xs, seed v k l u = Ok (prefix m 2) /\ from_matrix (prefix m 2) = Ok Q /\ solve_question Q = Ok xs
      /\ In (skipn 3 (nth 2 (mrows m) [])) xs).
  { intros m Hm. pose proof (proj1 (yields_proof v k l u ms E m) Hm) as (L & ES & HN).
    assert (L2 : (2 < mcols m)%nat).
    { unfold run_main in E. inv_bind E. rewrite ES in E. cbn [bind] in E. apply solve_unsolved in E.
      destruct (seed_shape _ _ _ _ _ ES) as (_ & _ & S3). unfold solved in E. apply Nat.eqb_neq in E. rewrite S3 in E.
      unfold prefix, mnrows in S3. cbn [mrows] in S3. rewrite firstn_length in S3. cbn [prefix mcols] in E. lia. }
    destruct (next_row_part m 2 (HN 2%nat ltac:(lia)) ltac:(lia)) as (Q & xs & H1 & H2 & H3). exists Q, xs. auto. }
  destruct (K m0 Hm0) as (Q & xs & ES & EF & EQ & _). exists (prefix m0 2), Q, xs. split; auto. split; auto. split; auto. split.
  - intros E0. assert (In m0 (sort_matrices ms)) as I by (apply (Permutation_in _ (Permutation_sym (sort_perm ms))); auto). rewrite E0 in I. easy.
  - intros m Hm. apply (Permutation_in _ (sort_perm ms)) in Hm. destruct (K m Hm) as (Q' & xs' & ES' & EF' & EQ' & HI).
    assert (EP : prefix m 2 = prefix m0 2) by congruence. rewrite EP, EF in EF'. injection EF' as <-. rewrite EQ in EQ'. injection EQ' as <-. exact HI.
Qed.
