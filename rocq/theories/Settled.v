(** When the refinement loop stops, no step has anything left to do. *)
From Verif Require Import Np ModelGauss Model Spec QSpec StepSpec Lib QFacts StepFacts ForkFacts SolveFacts AnyFacts BitFacts ElimProps QuestionProps DebugProps.
From Coq Require Import ZifyBool ZifyNat.

(** ** columns are only removed *)
Lemma group_add_keys k j d : NoDup (map fst d) -> NoDup (map fst (group_add k j d))
  /\ forall x, In x (map fst (group_add k j d)) <-> x = k \/ In x (map fst d).
Proof.
  induction d as [|[k' ls] d IH]; intros H; simpl.
  - split; [constructor; [easy|constructor]|]. intros x. split; intros [|]; auto.
  - inversion H as [|? ? H1 H2]; subst. destruct (Z.eqb_spec k' k) as [->|Hk]; simpl.
    + split; [exact H|]. intros x. split; intros [|]; auto.
    + destruct (IH H2) as [I1 I2]. split.
      * constructor; auto. rewrite I2. simpl in H1. intros [F|F]; auto.
      * intros x. rewrite I2. tauto.
Qed.
Lemma groups_keys kjs : forall d, NoDup (map fst d) -> let d' := fold_left (fun d kj => group_add (fst kj) (snd kj) d) kjs d in
  NoDup (map fst d') /\ forall x, In x (map fst d') <-> In x (map fst kjs) \/ In x (map fst d).
Proof.
  induction kjs as [|[k j] kjs IH]; intros d H; cbn [fold_left fst snd map In]; [split; [auto|tauto]|].
  destruct (group_add_keys k j d H) as [I1 I2]. destruct (IH _ I1) as [J1 J2]. split; [exact J1|].
  intros x. rewrite J2, I2. split; intros [H0|H0]; auto; destruct H0; auto.
Qed.
Lemma map_fst_pair (enc : list Z) : forall i, map fst (map2 pair enc (seq i (length enc))) = enc.
Proof. induction enc as [|a l IH]; intros i; simpl; [reflexivity|]. now rewrite IH. Qed.
Lemma groups_count enc : (length (groups enc) <= length enc)%nat /\ (length (groups enc) = length enc -> NoDup enc).
Proof.
  unfold groups. destruct (groups_keys (map2 pair enc (seq 0 (length enc))) []) as [H1 H2]; [constructor|].
  rewrite map_fst_pair in H2. set (d := fold_left _ _ _) in *. rewrite map_length, <- (map_length fst d).
  assert (I : incl (map fst d) enc) by (intros x Hx; apply H2 in Hx; destruct Hx as [|[]]; auto).
  split; [now apply NoDup_incl_length|]. intros E. apply (NoDup_incl_NoDup (l := map fst d)); [exact H1|lia|exact I].
Qed.

Lemma reduce_col_shrinks Q Q' : reduce_col_body Q = Ok Q' -> (mcols (qA Q') <= mcols (qA Q))%nat.
Proof.
  unfold reduce_col_body. destruct (_ <? 2)%nat; [intros E; injection E as <-; lia|]. intros E. inv_bind E.
  unfold unique_encode in E0. destruct (Nat.eqb _ 0); [discriminate|]. injection E0 as <-.
  destruct (_ <? _)%nat; [discriminate|]. destruct (existsb _ _); [discriminate|]. inv_bind E. inv_bind E. inv_bind E. injection E as <-.
  cbn [qA mcols]. rewrite map_length. set (enc := map _ (seq 0 _)). pose proof (proj1 (groups_count enc)) as H.
  unfold enc in H at 2. rewrite map_length, seq_length in H. exact H.
Qed.
(** distinct columns *)
Definition columns_differ (Q : question) : Prop := forall i j, (i < j < mcols (qA Q))%nat ->
  exists row, In row (mrows (qA Q)) /\ nth i row 0 <> nth j row 0.
Lemma column_differ i j (rows : list (list Z)) : column i rows <> column j rows -> exists row, In row rows /\ nth i row 0 <> nth j row 0.
Proof.
  induction rows as [|r rows IH]; intros H; [exfalso; now apply H|]. destruct (Z.eq_dec (nth i r 0) (nth j r 0)) as [E|E].
  - destruct IH as (row & H1 & H2); [|exists row; split; auto; now right]. intros F. apply H. unfold column in *. cbn [map]. congruence.
  - exists r. split; auto. now left.
Qed.
Lemma reduce_col_same Q Q' : wf Q -> reduce_col_body Q = Ok Q' -> mcols (qA Q') = mcols (qA Q) ->
  qA Q' = qA Q /\ qb Q' = qb Q /\ qquota Q' = qquota Q /\ qans Q' = qans Q /\ columns_differ Q
  /\ (Q' = Q \/ qbounds Q' = map i8 (qbounds Q)).
Proof.
  intros HW E HC. unfold reduce_col_body in E. destruct (Nat.ltb_spec (mcols (qA Q)) 2) as [H2|H2].
  { injection E as <-. do 4 (split; [reflexivity|]). split; [|now left]. intros i j Hij. lia. }
  inv_bind E. unfold unique_encode in E0. destruct (Nat.eqb _ 0); [discriminate|]. injection E0 as <-.
  rewrite (wf_bounds _ HW), Nat.ltb_irrefl in E. set (C := mcols (qA Q)) in *. set (enc := map _ (seq 0 C)) in *.
  assert (HLe : length enc = C) by (unfold enc; now rewrite map_length, seq_length).
  assert (Hn : NoDup enc).
  { destruct (existsb _ _); [discriminate|]. inv_bind E. inv_bind E. inv_bind E. injection E as <-. cbn [qA mcols] in HC. rewrite map_length in HC.
    apply (proj2 (groups_count enc)). lia. }
  rewrite groups_nodup, HLe in E by auto.
  assert (E1 : map (fun ls : list nat => hd 0%nat ls) (map (fun j => [j]) (seq 0 C)) = seq 0 C).
  { rewrite map_map. simpl. apply map_id. }
  assert (E2 : concat (map (@tl nat) (map (fun j => [j]) (seq 0 C))) = []).
  { rewrite map_map. simpl. generalize (seq 0 C). clear. intros l. induction l; simpl; auto. }
  assert (E3 : map (fun ls => zsum (pick 0 ls (qbounds Q))) (map (fun j => [j]) (seq 0 C)) = qbounds Q).
  { rewrite map_map. etransitivity; [|apply map_nth_seq]. rewrite (wf_bounds _ HW). fold C.
    apply map_ext. intros j. unfold pick, zsum. simpl. lia. }
  rewrite E1, E2, E3 in E. cbv zeta in E. cbn [existsb] in E. change (pick 0%nat [] (unknown_loc (qans Q))) with (@nil nat) in E.
  rewrite !delete_nil, seq_length in E. inv_bind E. inv_bind E. inv_bind E. pose proof (wf_ans _ HW) as HA. unfold answer_copy in HA. rewrite HA in E4.
  injection E4 as <-. injection E as <-. cbn [qA qb qquota qans qbounds].
  assert (E6 : map (pick 0 (seq 0 C)) (mrows (qA Q)) = mrows (qA Q)).
  { rewrite <- (map_id (mrows (qA Q))) at 2. apply map_ext_in. intros row Hr.
    unfold C. rewrite <- (wf_rows _ HW row Hr). apply map_nth_seq. }
  rewrite E6. split; [unfold C; now destruct (qA Q)|]. do 3 (split; [reflexivity|]). split; [|now right].
  intros i j Hij. apply column_differ. intros F. apply (NoDup_nth enc 0) with (i := i) (j := j) in Hn; try lia.
  unfold enc. rewrite !(nth_indep _ 0 (pack (column 0 (mrows (qA Q))))) by (rewrite map_length, seq_length; fold C in Hij; lia).
  rewrite !(map_nth (fun j => pack (column j (mrows (qA Q))))), !seq_nth by (fold C in Hij; lia). simpl. now rewrite F.
Qed.

Lemma zero_same Q Q' : wf Q -> zero_in_b_body Q = Ok Q' ->
  (mcols (qA Q') <= mcols (qA Q))%nat /\ (mcols (qA Q') = mcols (qA Q) ->
     qA Q' = qA Q /\ qb Q' = qb Q /\ qquota Q' = qquota Q /\ qans Q' = qans Q
     /\ qbounds Q' = lower_upper_bound (mrows (qA Q)) (qb Q) (qbounds Q) /\ forall x, In x (qbounds Q') -> x <> 0).
Proof.
  intros HW E. pose proof (zero_wf Q Q' HW E) as HW'. unfold zero_in_b_body in E.
  assert (LB : length (lower_upper_bound (mrows (qA Q)) (qb Q) (qbounds Q)) = mcols (qA Q)).
  { rewrite <- (wf_bounds _ HW). apply lub_length. intros row Hr. rewrite (wf_rows _ HW row Hr). symmetry. apply (wf_bounds _ HW). }
  set (bd := lower_upper_bound _ _ _) in *. inv_bind E. inv_bind E. injection E as <-. cbn [qA qb qquota qans qbounds mcols].
  split; [lia|]. intros HC. pose proof (wf_bounds _ HW') as H1. cbn [qA qbounds mcols] in H1.
  assert (Z0 : zero_bound_loc bd = []).
  { apply (delete_all_nil bd); [|apply where_NoDup|intros j Hj; apply (where_spec _ 0) in Hj; apply Hj].
    assert (L0 : length (zero_bound_loc bd) = 0%nat).
    { destruct (zero_bound_loc bd) as [|j z] eqn:EZ; [reflexivity|]. assert (Hj : In j (zero_bound_loc bd)) by (rewrite EZ; now left).
      apply (where_spec _ 0) in Hj. simpl in HC. lia. }
    destruct (zero_bound_loc bd); [apply delete_nil|discriminate]. }
  rewrite Z0. cbn [length map]. rewrite !delete_nil. split.
  { replace (map (delete []) (mrows (qA Q))) with (mrows (qA Q)); [|rewrite <- (map_id (mrows (qA Q))) at 1; apply map_ext; intros; now rewrite delete_nil].
    rewrite Nat.sub_0_r. now destruct (qA Q). }
  do 2 (split; [reflexivity|]). split; [unfold assign_all; cbn [fold_left]; now destruct (qans Q)|]. split; [reflexivity|].
  intros x Hx ->. destruct (In_nth _ _ 0 Hx) as (j & Hj & Ej).
  assert (F : In j (zero_bound_loc bd)) by (apply (where_spec _ 0); split; [exact Hj|]; now rewrite Ej). rewrite Z0 in F. destruct F.
Qed.
Lemma only_same Q Q' : wf Q -> only_1_body Q = Ok Q' ->
  (mcols (qA Q') <= mcols (qA Q))%nat /\ (mcols (qA Q') = mcols (qA Q) -> Q' = Q /\ one_element_row_locs (mrows (qA Q)) = []).
Proof.
  intros HW E. unfold only_1_body, only_1_with in E.
  destruct (locs_rcs _ _ (one_element_row_locs_ok (mrows (qA Q)))) as [Hd Hr].
  set (rcs := one_element_row_locs (mrows (qA Q))) in *. inv_bind E.
  assert (HB : forall rc, In rc rcs -> (0 < mcols (qA Q))%nat).
  { intros [r1 c] Hin. destruct (Hr r1 c Hin) as [R1 R2]. apply single_lt in R2. rewrite (wf_rows _ HW) in R2 by (apply nth_In; auto). lia. }
  destruct rcs as [|rc rcs0] eqn:ER; [injection E as <-; split; [lia|auto]|]. specialize (HB rc ltac:(now left)).
  destruct (existsb _ _); [discriminate|]. destruct (_ <? _); [discriminate|]. destruct (any2 _ _ _); [discriminate|].
  inv_bind E. inv_bind E. inv_bind E. injection E as <-. cbn [qA mcols map length]. split; [lia|]. lia.
Qed.
Lemma eliminate_cols Q Q' : wf Q -> eliminate Q = Ok Q' -> mcols (qA Q') = mcols (qA Q) /\ qbounds Q' = qbounds Q /\ qquota Q' = qquota Q /\ qans Q' = qans Q.
Proof.
  intros HW E. destruct (eliminate_wf Q Q' HW E) as [HW' _]. unfold eliminate in E. inv_bind E. pose proof (post_check_id _ _ E) as ->.
  unfold eliminate_body in E0. destruct (Nat.eqb _ _); [injection E0 as <-; auto|]. inv_bind E0. destruct r0 as [Ae be]. inv_bind E0. injection E0 as <-.
  split; [|auto]. rewrite <- (wf_bounds _ HW'). apply (wf_bounds _ HW).
Qed.

(** ** the loop *)
Record still (Q : question) : Prop := {
  st_wf : wf Q;
  st_reduce : reduce_col Q = Ok Q; st_eliminate : eliminate Q = Ok Q;
  st_zero : zero_in_b Q = Ok Q; st_only : only_1_element_in_row Q = Ok Q }.
Lemma i8_range z : -128 <= i8 z <= 127.
Proof. unfold i8, wrap. destruct (_ && _) eqn:E; [lia|]. pose proof (Z.mod_pos_bound (z + 128) (2 * 128) ltac:(lia)). lia. Qed.
Lemma min_fix (A : list (list Z)) : forall b bd, length (lower_upper_bound A b bd) = length bd -> forall j, (j < length bd)%nat ->
  (forall row, In row A -> length row = length bd) -> nth j (lower_upper_bound A b bd) 0 <= nth j bd 0.
Proof.
  intros b bd HL j Hj HR. apply (proj1 (lub_spec A b bd j (nth j (lower_upper_bound A b bd) 0) HR Hj)). lia.
Qed.
Lemma turn_still Q Q1 Q2 Q3 : wf Q -> reduce_col Q = Ok Q1 -> eliminate Q1 = Ok Q2 -> zero_in_b Q2 = Ok Q3 ->
  only_1_element_in_row Q3 = Ok Q -> still Q.
Proof.
  intros HW E1 E2 E3 E4. pose proof (safe_reduce Q HW Q1 E1) as [W1 _]. pose proof (safe_eliminate Q1 W1 Q2 E2) as [W2 _].
  pose proof (safe_zero Q2 W2 Q3 E3) as [W3 _].
  pose proof (bind_ok _ _ _ E1) as (B1 & F1 & P1). pose proof (post_check_id _ _ P1). subst B1.
  pose proof (bind_ok _ _ _ E3) as (B3 & F3 & P3). pose proof (post_check_id _ _ P3). subst B3.
  pose proof (bind_ok _ _ _ E4) as (B4 & F4 & P4). pose proof (post_check_id _ _ P4). subst B4.
  pose proof (reduce_col_shrinks _ _ F1) as S1. destruct (eliminate_cols _ _ W1 E2) as (S2 & T2 & T3 & T4).
  destruct (zero_same _ _ W2 F3) as [S3 Z3]. destruct (only_same _ _ W3 F4) as [S4 O4].
  destruct (O4 ltac:(lia)) as [EQ _]. subst Q3.
  destruct (Z3 ltac:(lia)) as (A3 & b3 & q3 & a3 & bd3 & _). destruct (reduce_col_same _ _ HW F1 ltac:(lia)) as (A1 & b1 & q1 & a1 & _ & bd1).
  assert (BD : qbounds Q1 = qbounds Q).
  { destruct bd1 as [->|bd1]; [reflexivity|]. rewrite bd1. rewrite <- (map_id (qbounds Q)) at 2. apply map_ext_in. intros x Hx.
    pose proof (proj1 (nonneg_in _) (wf_nbd _ HW) x Hx) as H0. destruct (In_nth _ _ 0 Hx) as (j & Hj & Ej).
    assert (HL : length (qbounds Q1) = length (qbounds Q)) by (rewrite bd1; apply map_length).
    assert (H1 : nth j (qbounds Q) 0 <= nth j (qbounds Q1) 0).
    { rewrite bd3, T2. apply min_fix; [|lia|].
      - rewrite <- T2, <- bd3, (wf_bounds _ HW), (wf_bounds _ W2). lia.
      - intros row Hr. rewrite (wf_rows _ W2 row Hr), (wf_bounds _ W1). lia. }
    assert (H2 : nth j (map i8 (qbounds Q)) 0 = i8 x).
    { rewrite (nth_indep _ 0 (i8 0)) by (rewrite map_length; lia). rewrite map_nth. now rewrite Ej. }
    rewrite bd1 in H1. pose proof (i8_range x). apply i8_id. lia. }
  assert (EQ : Q1 = Q) by (destruct Q1, Q; cbn in *; congruence). subst Q1.
  assert (EQ : Q2 = Q).
  { assert (qbounds Q2 = qbounds Q) by congruence. destruct Q2, Q; cbn in *; congruence. }
  subst Q2. constructor; auto.
Qed.
Lemma refine_still Q Q' : wf Q -> refine Q = Ok Q' -> still Q'.
Proof.
  intros HW E. refine (while_inv wf still refine_step _ Q Q' _ HW E). clear. intros Q HW.
  unfold refine_step. rewrite (wf_copy Q HW). cbn [bind].
  destruct (reduce_col Q) as [Q1| |] eqn:E1; cbn [bind]; auto. pose proof (safe_reduce Q HW Q1 E1) as [W1 _].
  destruct (eliminate Q1) as [Q2| |] eqn:E2; cbn [bind]; auto. pose proof (safe_eliminate Q1 W1 Q2 E2) as [W2 _].
  destruct (zero_in_b Q2) as [Q3| |] eqn:E3; cbn [bind]; auto. pose proof (safe_zero Q2 W2 Q3 E3) as [W3 _].
  destruct (only_1_element_in_row Q3) as [Q4| |] eqn:E4; cbn [bind]; auto. pose proof (safe_only Q3 W3 Q4 E4) as [W4 _].
  destruct (question_eqb Q4 Q) eqn:EQ; [|exact W4]. apply question_eqb_spec in EQ. subst Q4. now apply (turn_still Q Q1 Q2 Q3).
Qed.

(** ** what that means *)
Lemma pos_bits_head p : exists t, pos_bits p = 1 :: t.
Proof. induction p as [p [t IH]|p [t IH]|]; simpl; [rewrite IH; eexists; reflexivity|rewrite IH; eexists; reflexivity|now exists []]. Qed.
Lemma max_len_reached (l : list (list Z)) : (0 < max_len l)%nat -> exists x, In x l /\ length x = max_len l.
Proof.
  unfold max_len. induction l as [|a l IH]; simpl; [lia|]. intros H.
  destruct (Nat.max_spec (length a) (fold_right Nat.max 0%nat (map (@length Z) l))) as [[H1 H2]|[H1 H2]]; rewrite H2 in *.
  - destruct IH as (x & Hx & Lx); [lia|]. exists x. auto.
  - exists a. auto.
Qed.
Lemma pos_bits_bits p : bits (pos_bits p).
Proof.
  induction p as [p IH|p IH|]; simpl; intros a Ha; [apply in_app_iff in Ha; destruct Ha as [Ha|[<-|[]]]; [auto|now right]|
   apply in_app_iff in Ha; destruct Ha as [Ha|[<-|[]]]; [auto|now left]|destruct Ha as [<-|[]]; now right].
Qed.
Lemma decode_facts hd A b : decode hd = Ok (A, b) -> (1 <= mcols A)%nat ->
  (forall row, In row (mrows A) -> bits row) /\ (exists row, In row (mrows A) /\ nth 0 row 0 = 1) /\ forall x, In x b -> x <= 127.
Proof.
  unfold decode. destruct hd as [|e0 hd0]; [discriminate|]. set (h := e0 :: hd0). intros E HC.
  assert (E' : A = Mat (max_len (map (fun e => dec2bin (ekey e)) h)) (map (pad_left (max_len (map (fun e => dec2bin (ekey e)) h))) (map (fun e => dec2bin (ekey e)) h))
     /\ b = map (fun e => i8 (eval_ e)) h) by (split; congruence).
  destruct E' as [-> ->]. clear E. cbn [mcols mrows] in *. split; [|split].
  - intros row Hr. apply in_map_iff in Hr. destruct Hr as (x & <- & Hx). apply in_map_iff in Hx. destruct Hx as (e & <- & _).
    intros a Ha. unfold pad_left in Ha. apply in_app_iff in Ha. destruct Ha as [Ha|Ha]; [apply repeat_spec in Ha; left; auto|].
    unfold dec2bin in Ha. destruct (ekey e); try easy. now apply pos_bits_bits in Ha.
  - destruct (max_len_reached _ HC) as (x & Hx & Lx). exists (pad_left (max_len (map (fun e => dec2bin (ekey e)) h)) x).
    split; [now apply in_map|]. unfold pad_left. rewrite Lx, Nat.sub_diag. cbn [repeat app].
    apply in_map_iff in Hx. destruct Hx as (e & <- & _). unfold dec2bin in *. destruct (ekey e) as [|p|p]; cbn [length] in Lx; try lia.
    destruct (pos_bits_head p) as [t ->]. reflexivity.
  - intros x Hx. apply in_map_iff in Hx. destruct Hx as (e & <- & _). apply i8_range.
Qed.
Lemma still_input Q : still Q -> (1 <= mcols (qA Q) <= 63)%nat -> elim_input (qA Q) (qb Q) /\ elim (qA Q) (qb Q) = Ok (qA Q, qb Q).
Proof.
  intros S HC. pose proof (st_eliminate _ S) as E. unfold eliminate in E. inv_bind E. pose proof (post_check_id _ _ E). subst r.
  unfold eliminate_body in E0. destruct (Nat.eqb_spec (mcols (qA Q)) 0) as [F|_]; [lia|]. inv_bind E0. destruct r as [Ae be]. inv_bind E0.
  assert (HA : Ae = qA Q) by (injection E0; intros <-; reflexivity). assert (HB : be = qb Q) by (injection E0; intros <-; reflexivity). subst Ae be.
  pose proof E1 as E1'. unfold elim in E1. inv_bind E1. inv_bind E1. destruct (decode_facts _ _ _ E1 ltac:(lia)) as (D1 & D2 & D3).
  pose proof (st_wf _ S) as W. split; [|exact E1']. split; [exact HC|]. split; [split; [apply (wf_b _ W)|apply (wf_rows _ W)]|]. split; [exact D1|]. split; [|exact D2].
  intros x Hx. split; [now apply (proj1 (nonneg_in _) (wf_nb _ W))|now apply D3].
Qed.
Lemma still_settled Q : still Q -> (mcols (qA Q) <= 63)%nat -> settled Q.
Proof.
  intros S HC. pose proof (st_wf _ S) as W.
  pose proof (bind_ok _ _ _ (st_reduce _ S)) as (B1 & F1 & P1). pose proof (post_check_id _ _ P1). subst B1.
  pose proof (bind_ok _ _ _ (st_zero _ S)) as (B3 & F3 & P3). pose proof (post_check_id _ _ P3). subst B3.
  pose proof (bind_ok _ _ _ (st_only _ S)) as (B4 & F4 & P4). pose proof (post_check_id _ _ P4). subst B4.
  destruct (reduce_col_same _ _ W F1 eq_refl) as (_ & _ & _ & _ & K1 & _).
  destruct (proj2 (zero_same _ _ W F3) eq_refl) as (_ & _ & _ & _ & K2 & K3). destruct (proj2 (only_same _ _ W F4) eq_refl) as [_ K4].
  unfold post_check in P1.
  constructor.
  - exact K1.
  - intros j Hj. rewrite <- (wf_bounds _ W) in Hj. assert (HR : forall row, In row (mrows (qA Q)) -> length row = length (qbounds Q)).
    { intros row Hr. rewrite (wf_rows _ W row Hr). symmetry. apply (wf_bounds _ W). }
    pose proof (nth_In _ 0 Hj) as Hin. pose proof (K3 _ Hin). pose proof (proj1 (nonneg_in _) (wf_nbd _ W) _ Hin). split; [lia|].
    intros i Hi Hc. rewrite K2. destruct (bounds_proof (mrows (qA Q)) (qb Q) (qbounds Q)) as (_ & HB & _); [apply (wf_b _ W)|exact HR|].
    apply (HB j Hj); auto. rewrite <- (wf_b _ W) in Hi. exact Hi.
  - intros H1 row Hr. destruct (still_input Q S ltac:(lia)) as [HI HE]. destruct (elim_normal_form_proof _ _ HI) as (A' & b' & HE' & _ & _ & _ & HN & _).
    rewrite HE in HE'. assert (EA : qA Q = A') by congruence. subst A'. destruct (HN row Hr) as (Hb & a & Ha & ->).
    destruct (In_nth _ _ 0 Ha) as (c & Hc & Ec). rewrite (wf_rows _ W row Hr) in Hc.
    destruct (In_nth _ _ [] Hr) as (r & Hlr & Er).
    assert (D : (exists j', (j' < mcols (qA Q))%nat /\ j' <> c /\ nth j' row 0 <> 0) \/ forall j', (j' < mcols (qA Q))%nat -> j' <> c -> nth j' row 0 = 0).
    { destruct (existsb (fun j' => if Nat.eqb j' c then false else negb (nth j' row 0 =? 0)) (seq 0 (mcols (qA Q)))) eqn:EX.
      - left. apply existsb_exists in EX. destruct EX as (j' & H2 & H3). apply in_seq in H2. destruct (Nat.eqb_spec j' c); [discriminate|]. exists j'. lia.
      - right. intros j' H2 H3. rewrite existsb_none in EX. specialize (EX j' ltac:(apply in_seq; lia)). destruct (Nat.eqb_spec j' c); [easy|]. lia. }
    destruct D as [(j' & H2 & H3 & H4)|D].
    + assert (E1 : nth j' row 0 = 1). { destruct (Hb (nth j' row 0)) as [|]; auto; [|easy]. apply nth_In. rewrite (wf_rows _ W row Hr). exact H2. }
      destruct (Nat.lt_gt_cases j' c) as [HD _]. destruct (HD H3); [exists j', c|exists c, j']; auto.
    + exfalso. assert (HS : only_entry row c).
      { split; [now rewrite (wf_rows _ W row Hr)|]. split; [lia|]. intros j Hj. destruct (Nat.lt_ge_cases j (mcols (qA Q))) as [Hl|Hl]; [now apply D|].
        apply nth_overflow. rewrite (wf_rows _ W row Hr). lia. }
      destruct (row_locs_proof (mrows (qA Q))) as [_ HL].
      (* the last row with this single entry *)
      assert (LAST : exists r', (r' < length (mrows (qA Q)))%nat /\ only_entry (nth r' (mrows (qA Q)) []) c
         /\ forall r'', (r' < r'' < length (mrows (qA Q)))%nat -> ~ only_entry (nth r'' (mrows (qA Q)) []) c).
      { pose proof (one_element_row_locs_ok (mrows (qA Q))) as OK. clear - HS Hlr Er HL.
        set (A := mrows (qA Q)) in *. assert (DEC : forall x, only_entry x c \/ ~ only_entry x c).
        { intros x. destruct (list_eqb Nat.eqb (where_ (fun x => negb (x =? 0)) x) [c]) eqn:EQ.
          - left. apply (list_eqb_spec _ Nat.eqb_eq) in EQ. apply only_entry_single. exact EQ.
          - right. intros HO. apply only_entry_single in HO. unfold single in HO. rewrite HO in EQ. cbn in EQ. rewrite Nat.eqb_refl in EQ. discriminate. }
        assert (G : forall n, (n <= length A)%nat -> (r < n)%nat -> exists r', (r' < n)%nat /\ only_entry (nth r' A []) c /\ forall r'', (r' < r'' < n)%nat -> ~ only_entry (nth r'' A []) c).
        { induction n as [|n IH]; intros H1 H2; [lia|]. destruct (DEC (nth n A [])) as [Y|N].
          - exists n. split; [lia|]. split; auto. intros; lia.
          - destruct (Nat.eq_dec r n) as [->|]; [rewrite Er in N; contradiction|]. destruct IH as (r' & I1 & I2 & I3); try lia.
            exists r'. split; [lia|]. split; auto. intros r'' H3. destruct (Nat.eq_dec r'' n) as [->|]; auto. apply I3. lia. }
        apply G; auto. }
      destruct LAST as (r' & L1 & L2 & L3). assert (In (r', c) (one_element_row_locs (mrows (qA Q)))) as HIN by (apply HL; auto). rewrite K4 in HIN. destruct HIN.
  - intros H1. destruct (still_input Q S ltac:(lia)) as [HI HE]. destruct (elim_normal_form_proof _ _ HI) as (A' & b' & HE' & _ & _ & _ & _ & _ & _ & HN & _).
    rewrite HE in HE'. assert (EA : qA Q = A') by congruence. assert (EB : qb Q = b') by congruence. now rewrite EA, EB.
  - intros H1. destruct (_ && _) in P1; [discriminate|]. inv_bind P1. rewrite (wf_bounds _ W) in P1.
    replace (0 <? mcols (qA Q))%nat with true in P1 by lia. cbn [andb] in P1. destruct (zsum (qbounds Q) <? qquota Q) eqn:EQ; [discriminate|]. lia.
  - intros H0. rewrite H0 in P1. cbn [Nat.eqb andb] in P1. destruct (existsb _ (qb Q)) eqn:EX; [discriminate|]. rewrite existsb_none in EX.
    intros x Hx. specialize (EX x Hx). lia.
Qed.
