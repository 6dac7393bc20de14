(** Bounds on the number of turns of the loops (C87). *)
From Coq Require Import ZifyBool ZifyNat.
From Verif Require Import Np ModelGauss Model Spec TurnSpec Lib BitFacts Cone ElimFacts QFacts StepFacts ForkFacts AnyFacts Total WideElim.

(** ** counting *)
Lemma loops_bound {S R} (step : S -> S + R) (I : S -> Prop) (mu : S -> Z) :
  (forall s, I s -> 0 <= mu s) ->
  (forall s s', I s -> step s = inl s' -> I s' /\ mu s' < mu s) ->
  forall s, I s -> exists n r, loops step n s r /\ Z.of_nat n <= mu s.
Proof.
  intros Hpos Hstep.
  assert (G : forall k s, I s -> mu s <= Z.of_nat k -> exists n r, loops step n s r /\ Z.of_nat n <= mu s).
  { induction k as [|k IH]; intros s Hs Hk; destruct (step s) as [s'|r] eqn:E.
    - destruct (Hstep s s' Hs E) as [H1 H2]. pose proof (Hpos _ H1). lia.
    - exists 0%nat, r. split; [now constructor|]. specialize (Hpos _ Hs). lia.
    - destruct (Hstep s s' Hs E) as [H1 H2]. destruct (IH s' H1 ltac:(lia)) as (n & r & L & Hn).
      exists (Datatypes.S n), r. split; [econstructor; eauto|lia].
    - exists 0%nat, r. split; [now constructor|]. specialize (Hpos _ Hs). lia. }
  intros s Hs. apply (G (Z.to_nat (mu s))); auto. specialize (Hpos _ Hs). lia.
Qed.
(** for concrete loops *)
Fixpoint loop_count {S R} (fuel : nat) (step : S -> S + R) (s : S) : option (nat * R) :=
  match fuel with
  | O => None
  | Datatypes.S f =>
      match step s with
      | inr r => Some (0%nat, r)
      | inl s' => match loop_count f step s' with Some (n, r) => Some (Datatypes.S n, r) | None => None end
      end
  end.
Lemma loop_count_ok {S R} fuel (step : S -> S + R) : forall s n r, loop_count fuel step s = Some (n, r) -> loops step n s r.
Proof.
  induction fuel as [|f IH]; intros s n r H; cbn [loop_count] in H; [discriminate|]. destruct (step s) as [s'|r'] eqn:E.
  - destruct (loop_count f step s') as [[n' r'']|] eqn:EL; [|discriminate]. injection H as <- <-. econstructor; eauto.
  - injection H as <- <-. now constructor.
Qed.
Lemma loops_fun {S R} (step : S -> S + R) n s r : loops step n s r -> forall n' r', loops step n' s r' -> n = n' /\ r = r'.
Proof.
  induction 1 as [s r E|n s s' r E _ IH]; intros n' r' H'; inversion H'; subst; try congruence.
  - split; congruence.
  - match goal with H1 : step s = inl ?a, H2 : loops step _ ?a r' |- _ => rewrite E in H1; injection H1 as <-; destruct (IH _ _ H2) as [-> ->]; auto end.
Qed.
Lemma iter2_prefix {S R} (step : S -> S + R) k : forall s,
  match iter2 k step s with
  | inl s' => forall n r, loops step n s' r -> exists n', loops step n' s r
  | inr r => exists n, loops step n s r
  end.
Proof.
  induction k as [|k IH]; intros s; cbn [iter2].
  - destruct (step s) as [s'|r] eqn:E; [|exists 0%nat; now constructor]. intros n r L. exists (Datatypes.S n). econstructor; eauto.
  - pose proof (IH s) as H. destruct (iter2 k step s) as [s'|r]; [|exact H]. pose proof (IH s') as H'.
    destruct (iter2 k step s') as [s2|r].
    + intros n r L. destruct (H' n r L) as (n1 & L1). eauto.
    + destruct H' as (n & L). eauto.
Qed.
Lemma while_loops {S A} (step : S -> S + res A) k s n r : while_ k step s <> Raise OutOfFuel -> loops step n s r -> while_ k step s = r.
Proof.
  intros H L. unfold while_ in *. pose proof (iter2_prefix step k s) as P. destruct (iter2 k step s) as [s'|r']; [easy|].
  destruct P as (n' & L'). destruct (loops_fun _ _ _ _ L _ _ L') as [_ ->]. reflexivity.
Qed.

(** ** elimination: every successful turn removes a one *)
Definition ones (C : nat) (E : list entry) : Z := zsum (map (fun e => zsum (row_of C (ekey e))) E).
Lemma ones_app C a b : ones C (a ++ b) = ones C a + ones C b.
Proof. unfold ones. now rewrite map_app, zsum_app. Qed.
Lemma ones_perm C a b : Permutation a b -> ones C a = ones C b.
Proof. intros H. unfold ones. apply zsum_perm. now apply Permutation_map. Qed.
Lemma row_sum_nonneg C k : 0 <= zsum (row_of C k).
Proof. apply zsum_nonneg. intros x Hx. destruct (row_of_bits _ _ _ Hx); lia. Qed.
Lemma ones_nonneg C E : 0 <= ones C E.
Proof. apply zsum_nonneg. intros x Hx. apply in_map_iff in Hx. destruct Hx as (e & <- & _). apply row_sum_nonneg. Qed.
Lemma ones_filter C p E : ones C (filter p E) <= ones C E.
Proof.
  unfold ones. induction E as [|e E IH]; cbn [filter map]; [lia|]. rewrite zsum_cons. pose proof (row_sum_nonneg C (ekey e)).
  destruct (p e); cbn [map]; rewrite ?zsum_cons; lia.
Qed.
Lemma row_sum_pos C k : 0 < k < 2 ^ Z.of_nat C -> 1 <= zsum (row_of C k).
Proof.
  intros H. pose proof (row_sum_nonneg C k). destruct (Z.eq_dec (zsum (row_of C k)) 0) as [E|N]; [|lia].
  assert (Hz : forall x, In x (row_of C k) -> x = 0).
  { intros x Hx. assert (0 <= x) by (destruct (row_of_bits _ _ _ Hx); lia). pose proof (zsum_ge (row_of C k) ltac:(intros y Hy; destruct (row_of_bits _ _ _ Hy); lia) x Hx). lia. }
  assert (E0 : pack0 (row_of C k) = 0).
  { revert Hz. generalize (row_of C k). clear. induction l as [|a l IH]; intros Hz; [reflexivity|]. cbn [pack0].
    rewrite (Hz a) by now left. rewrite IH by (intros; apply Hz; now right). lia. }
  rewrite pack0_row_of in E0 by lia. lia.
Qed.
Lemma zsum_vadd x : forall y, length x = length y -> zsum (vadd x y) = zsum x + zsum y.
Proof.
  induction x as [|a x IH]; intros [|b y] L; cbn [length] in L; try lia; [reflexivity|]. unfold vadd in *. cbn [map2]. rewrite !zsum_cons.
  rewrite IH by lia. lia.
Qed.
Lemma ones_sub C m rest : 0 < ekey m < 2 ^ Z.of_nat C ->
  ones C (map (sub_entry m) (filter (reduces m) rest)) + Z.of_nat (length (filter (reduces m) rest)) <= ones C (filter (reduces m) rest).
Proof.
  intros Hm. pose proof (row_sum_pos C (ekey m) Hm) as Hp. unfold ones. induction rest as [|e rest IH]; [reflexivity|].
  cbn [filter]. destruct (reduces m e) eqn:E; [|exact IH]. cbn [map length]. rewrite !zsum_cons.
  unfold reduces in E. apply andb_true_iff in E. destruct E as [E _]. apply Z.eqb_eq in E.
  rewrite (row_of_sub C (ekey m) (ekey e) E), zsum_vadd by now rewrite !row_of_length.
  change (ekey (sub_entry m e)) with (ekey e - ekey m). lia.
Qed.
Lemma ones_split C p E : ones C E = ones C (filter p E) + ones C (filter (fun e => negb (p e)) E).
Proof. unfold ones. induction E as [|e E IH]; [reflexivity|]. cbn [filter map]. rewrite zsum_cons. destruct (p e); cbn [negb map]; rewrite zsum_cons; lia. Qed.
Lemma gauss_elim_ones C m rest hd' : 0 < ekey m < 2 ^ Z.of_nat C -> gauss_elim (m :: rest) = Ok (true, hd') -> ones C hd' < ones C (m :: rest).
Proof.
  intros Hm H. unfold gauss_elim in H. destruct (Z.ltb_spec 0 (ekey m)) as [_|]; [|lia]. cbn [assert_ bind] in H.
  pose proof (ones_sub C m rest Hm) as HS. set (red := map (sub_entry m) (filter (reduces m) rest)) in *.
  assert (HL : length red = length (filter (reduces m) rest)) by apply map_length.
  destruct red as [|r0 rs] eqn:Er; [discriminate|]. rewrite <- Er in *. injection H as <-.
  assert (P1 : Permutation (merge_e [m] (merge_e (remove_zerokeys red) (filter (fun e => negb (reduces m e)) rest))) (m :: remove_zerokeys red ++ filter (fun e => negb (reduces m e)) rest)).
  { rewrite <- (merge_e_perm [m]). simpl. constructor. symmetry. apply merge_e_perm. }
  rewrite (ones_perm _ _ _ P1). change (m :: ?l) with ([m] ++ l). rewrite !(ones_app C [m]), ones_app, (ones_split C (reduces m) rest).
  pose proof (ones_filter C (fun e => 0 <? ekey e) red). fold (remove_zerokeys red) in *. rewrite Er in HL. cbn [length] in HL. lia.
Qed.

Definition ones_mu (C N : nat) (s : list entry * list entry) : Z :=
  ones C (fst s ++ snd s) * (Z.of_nat N + 1) + Z.of_nat (length (snd s)).
Lemma elim_step_ones C B E0 s s' : elim_inv C B E0 s -> elim_step s = inl s' ->
  elim_inv C B E0 s' /\ ones_mu C (length E0) s' < ones_mu C (length E0) s.
Proof.
  intros HI HE. pose proof (elim_step_spec C B E0 s HI) as HS. rewrite HE in HS. destruct HS as [HI' _]. split; [exact HI'|].
  pose proof (red_len _ _ _ _ (ei_red _ _ _ _ HI')) as HL'. pose proof (ei_pos _ _ _ _ HI) as HP.
  pose proof (red_good _ _ _ _ (ei_red _ _ _ _ HI)) as HG. destruct s as [hs hd]. unfold elim_step in HE. destruct hd as [|m rest]; [discriminate|].
  cbn [fst snd] in *. assert (Hm : In m (hs ++ m :: rest)) by (apply in_or_app; right; now left).
  rewrite Forall_forall in HG. specialize (HP m Hm). apply HG in Hm. destruct Hm as [[_ Hm] _].
  destruct (gauss_elim (m :: rest)) as [[[|] hd']| |e] eqn:EG; try discriminate.
  - injection HE as <-. unfold ones_mu. cbn [fst snd app] in *. apply (gauss_elim_ones C) in EG; [|lia].
    pose proof (merge_e_perm hs hd') as P. rewrite <- (ones_perm _ _ _ P), !ones_app.
    rewrite <- (Permutation_length P) in *. pose proof (ones_nonneg C hs). pose proof (ones_nonneg C hd'). nia.
  - destruct hd' as [|m' t]; [discriminate|]. injection HE as <-. unfold ones_mu. cbn [fst snd] in *.
    unfold gauss_elim in EG. destruct (Z.ltb_spec 0 (ekey m)) as [_|]; [|lia]. cbn [assert_ bind] in EG.
    destruct (map (sub_entry m) (filter (reduces m) rest)) as [|r0 rs] eqn:Er; [|discriminate]. injection EG as EG.
    assert (P : Permutation (m' :: t) (m :: rest)).
    { rewrite <- EG. rewrite <- (merge_e_perm [m]). cbn [app]. constructor. clear - Er. induction rest as [|x l IH]; [constructor|].
      cbn [filter] in *. destruct (reduces m x); [discriminate|]. cbn [negb]. constructor. auto. }
    rewrite <- app_assoc. cbn [app]. rewrite !ones_app, (ones_perm _ _ _ P). apply Permutation_length in P. cbn [length] in P. cbn [length]. lia.
Qed.
Lemma ents_ones C rows b i : (forall row, In row rows -> length row = C /\ bits row) -> (C <= 63)%nat -> length rows = length b ->
  ones C (ents i (combine rows b)) = zsum (concat rows).
Proof.
  intros Hr HC. revert b i. induction rows as [|r rows IH]; intros [|x b] i L; cbn [length] in L; try lia; [reflexivity|].
  cbn [combine ents concat]. unfold ones in *. cbn [map]. rewrite zsum_cons, zsum_app, IH; [|intros; apply Hr; now right|lia].
  unfold ekey at 1. cbn [fst]. destruct (Hr r (or_introl eq_refl)) as [<- B]. now rewrite row_of_pack.
Qed.
Lemma ents_good_any C B rows b i : (C <= 63)%nat -> (forall row, In row rows -> length row = C /\ bits row) -> (forall x, In x b -> 0 <= x <= B) ->
  Forall (good C B) (ents i (combine rows b)).
Proof.
  intros HC. revert b i. induction rows as [|r rows IH]; intros [|x b] i Hr Hb; cbn [combine ents]; try constructor.
  - destruct (Hr r (or_introl eq_refl)) as [L Br]. pose proof (pack_range r Br ltac:(lia)) as R. rewrite L in R.
    split; [exact R|apply Hb; now left].
  - apply IH; intros; [apply Hr|apply Hb]; now right.
Qed.

Theorem elim_turns_proof A b : (1 <= mcols A <= 63)%nat -> length b = mnrows A ->
  (forall row, In row (mrows A) -> length row = mcols A /\ bits row) -> (forall x, In x b -> 0 <= x) ->
  exists hd n hd', encode A b = Ok hd /\ loops elim_step n ([], sort_e (remove_zerokeys hd)) (Ok hd') /\ elim A b = decode hd'
    /\ Z.of_nat n <= zsum (concat (mrows A)) * (Z.of_nat (mnrows A) + 1) + Z.of_nat (mnrows A).
Proof.
  intros HC Hb Hr Hx. set (C := mcols A) in *. set (R := mnrows A) in *.
  pose proof (encode_ents A b ltac:(unfold C in *; lia) Hb) as HE. set (E0 := ents 0 (combine (mrows A) b)) in *.
  assert (HG : Forall (good C (zsum b)) E0).
  { apply ents_good_any; [lia|exact Hr|]. intros x Hin. split; [now apply Hx|now apply zsum_ge]. }
  assert (L0 : length E0 = R). { unfold E0. rewrite ents_length, combine_length. unfold R, mnrows in *. lia. }
  destruct (elim_core_spec C (zsum b) R E0 HG ltac:(lia)) as (E & HEc & _).
  set (E1 := remove_zerokeys E0).
  assert (HI : elim_inv C (zsum b) E0 ([], sort_e E1)).
  { assert (HP : positive_keys E1) by (intros e He; apply filter_In in He; lia).
    constructor; cbn [fst snd app].
    - apply sort_e_sorted.
    - intros e He. apply HP. eapply Permutation_in; [symmetry; apply sort_e_perm|exact He].
    - eapply reduced_perm; [apply sort_e_perm|]. now apply reduced_remove_zerokeys.
    - intros l1 m l2 E'. destruct l1; discriminate. }
  destruct (loops_bound elim_step (elim_inv C (zsum b) E0) (ones_mu C R)) with (s := ([] : list entry, sort_e E1)) as (n & r & HL & Hn); auto.
  { intros s Hs. unfold ones_mu. pose proof (ones_nonneg C (fst s ++ snd s)). nia. }
  { intros s s' Hs Hst. rewrite <- L0. now apply (elim_step_ones C (zsum b)). }
  assert (Er : r = Ok E).
  { unfold elim_core in HEc. cbv zeta in HEc. fold E1 in HEc. destruct (Nat.leb_spec (length E1) 1) as [L|L].
    - injection HEc as <-. destruct E1 as [|e [|? ?]] eqn:EE; cbn [length] in L; [| |lia].
      + refine (proj2 (loops_fun _ _ _ _ HL 0%nat (Ok []) _)). now constructor.
      + assert (Hp : 0 < ekey e). { assert (He : In e E1) by (rewrite EE; now left). apply filter_In in He. lia. }
        refine (proj2 (loops_fun _ _ _ _ HL 1%nat (Ok [e]) _)). refine (loops_turn elim_step 0 _ ([e], []) _ _ (loops_end elim_step ([e], []) _ eq_refl)).
        cbn. destruct (Z.ltb_spec 0 (ekey e)); [reflexivity|lia].
    - rewrite <- HEc. symmetry. apply (while_loops _ _ _ n); [rewrite HEc; discriminate|exact HL]. }
  exists E0, n, E. split; [exact HE|]. split; [now rewrite <- Er|]. split.
  { unfold elim. rewrite HE. cbn [bind]. fold C R. now rewrite HEc. }
  etransitivity; [exact Hn|]. unfold ones_mu. cbn [fst snd app]. rewrite <- (ones_perm C E1) by apply sort_e_perm.
  rewrite <- (Permutation_length (sort_e_perm E1)). pose proof (ones_filter C (fun e => 0 <? ekey e) E0) as HF.
  fold (remove_zerokeys E0) in HF. change (remove_zerokeys E0) with E1 in HF.
  assert (HO : ones C E0 = zsum (concat (mrows A))) by (apply ents_ones; [exact Hr|lia|unfold R, mnrows in *; lia]).
  assert (HLn : (length E1 <= R)%nat).
  { rewrite <- L0. unfold E1, remove_zerokeys. clear. induction E0 as [|e l IH]; cbn [filter length]; [lia|]. destruct (0 <? ekey e); cbn [length]; lia. }
  nia.
Qed.

(** ** refining and the stack *)
Lemma quiet_fuel {A} (r : res A) : quiet r -> r <> Raise OutOfFuel.
Proof. intros H ->. discriminate. Qed.
Theorem refine_turns_proof Q : loose Q -> exists n, loops refine_step n Q (refine Q) /\ (n <= 3 * qcols Q + 2)%nat.
Proof.
  intros HL. destruct (loops_bound refine_step loose turns) with (s := Q) as (n & r & HLp & Hn); auto.
  - intros s _. unfold turns. destruct (normalb s), (smallb s); lia.
  - intros s s' Hs E. pose proof (refine_step_any s Hs) as H. rewrite E in H. destruct H as [H1 H2]. split; [apply H1|exact H2].
  - exists n. split.
    + assert (E : refine Q = r).
      { apply (while_loops _ _ _ n); [|exact HLp]. destruct (refine_any Q HL) as [H _]. unfold refine in H. intros E. rewrite E in H. discriminate. }
      now rewrite E.
    + unfold turns in Hn. destruct (normalb Q), (smallb Q); lia.
Qed.
Theorem refine_turns_explicit Q :
  (forall row, In row (mrows (qA Q)) -> length row = mcols (qA Q) /\ bits row) -> length (qb Q) = mnrows (qA Q) ->
  (forall x, In x (qb Q) -> 0 <= x) -> length (qbounds Q) = mcols (qA Q) -> (forall x, In x (qbounds Q) -> 0 <= x <= 127) ->
  (1 <= mnrows (qA Q))%nat -> length (unknown_loc (qans Q)) = mcols (qA Q) ->
  exists n, loops refine_step n Q (refine Q) /\ (n <= 3 * mcols (qA Q) + 2)%nat.
Proof. intros. apply refine_turns_proof. now constructor. Qed.
Theorem question_turns_proof Q : loose Q -> exists n, loops question_step n ([Q], []) (solve_question Q) /\ Z.of_nat n <= vol Q.
Proof.
  intros HL. destruct (loops_bound question_step (fun s => forall P, In P (fst s) -> loose P) (fun s => vols (fst s))) with (s := ([Q], [] : list (list Z))) as (n & r & HLp & Hn); auto.
  - intros s. apply vols_nonneg.
  - intros s s' Hs E. pose proof (question_step_any s Hs) as H. now rewrite E in H.
  - intros P [<-|[]]. exact HL.
  - exists n. split.
    + assert (E : solve_question Q = r).
      { apply (while_loops _ _ _ n); [|exact HLp]. apply quiet_fuel. now apply solve_question_any. }
      now rewrite E.
    + etransitivity; [exact Hn|]. cbn [fst]. rewrite (vols_const [Q] (vol Q)) by (intros P [<-|[]]; reflexivity). cbn [length]. lia.
Qed.
Lemma from_matrix_bounds m Q : from_matrix m = Ok Q -> qcols Q = (mcols m - mnrows m - 1)%nat /\ qbounds Q = repeat 1 (mcols m - mnrows m - 1).
Proof.
  intros H. unfold from_matrix in H. apply bind_ok in H. destruct H as ([[[v k] l] u] & _ & H). destruct (_ <=? _)%nat; [discriminate|].
  cbv zeta in H. destruct (existsb _ _); [discriminate|]. unfold mk_question in H.
  do 6 (apply bind_ok in H; destruct H as (? & _ & H)). injection H as <-. unfold qcols. cbn [qA qbounds mcols]. auto.
Qed.
Lemma prodb_ones n : prodb (repeat 1 n) = 3 ^ Z.of_nat n.
Proof. induction n as [|n IH]; [reflexivity|]. cbn [repeat]. rewrite prodb_cons, IH, Nat2Z.inj_succ, Z.pow_succ_r by lia. lia. Qed.
Theorem level_turns_proof m Q : (2 <= mnrows m < mcols m)%nat ->
  (forall row, In row (mrows m) -> length row = mcols m /\ bits row) -> from_matrix m = Ok Q ->
  exists n k, loops refine_step k Q (refine Q) /\ (k <= 3 * (mcols m - mnrows m - 1) + 2)%nat
    /\ loops question_step n ([Q], []) (solve_question Q) /\ Z.of_nat n <= 3 ^ Z.of_nat (mcols m - mnrows m - 1).
Proof.
  intros HR Hb HQ. assert (HS : sheet (mcols m) (mnrows m) m) by (constructor; auto; lia).
  pose proof (proj2 (from_matrix_any _ _ _ HS ltac:(lia)) Q HQ) as HL. destruct (from_matrix_bounds m Q HQ) as [E1 E2].
  destruct (refine_turns_proof Q HL) as (k & L1 & L2). destruct (question_turns_proof Q HL) as (n & L3 & L4).
  exists n, k. rewrite E1 in L2. unfold vol in L4. rewrite E2, prodb_ones in L4. auto.
Qed.
