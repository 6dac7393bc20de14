(** The steps of the solver loop: eliminate, zero_in_b, only_1_element_in_row,
    reduce_col, and the refinement loop made of them. *)
From Verif Require Import Np ModelGauss Model Spec Lib BitFacts Cone ElimFacts QFacts.
From Coq Require Import ZifyBool ZifyNat Sorting.Sorted.

(** split conjunctions only *)
Ltac conj := repeat match goal with |- _ /\ _ => split end.

(** ** Equality test *)
Lemma mat_eqb_spec a b : mat_eqb a b = true <-> a = b.
Proof.
  destruct a as [c r], b as [c' r']. unfold mat_eqb. simpl. rewrite andb_true_iff, Nat.eqb_eq.
  rewrite (list_eqb_spec vec_eqb vec_eqb_spec). split; [intros [-> ->]; auto|].
  intros E. injection E as -> ->. auto.
Qed.
Lemma answer_eqb_spec a b : answer_eqb a b = true <-> a = b.
Proof.
  destruct a, b. unfold answer_eqb. simpl. rewrite !andb_true_iff, !vec_eqb_spec, Z.eqb_eq.
  split; [intros [[-> ->] ->]; auto|]. intros E. injection E as -> -> ->. auto.
Qed.
Lemma question_eqb_spec p q : question_eqb p q = true <-> p = q.
Proof.
  destruct p, q. unfold question_eqb. simpl.
  rewrite !andb_true_iff, mat_eqb_spec, !vec_eqb_spec, Z.eqb_eq, answer_eqb_spec.
  split; [intros [[[[-> ->] ->] ->] ->]; auto|]. intros E. injection E as -> -> -> -> ->. auto.
Qed.

Lemma nonneg_true l : (forall x, In x l -> 0 <= x) -> nonneg l = true.
Proof. intros H. apply nonneg_spec_aux. auto. Qed.

(** ** eliminate *)
Lemma eliminate_body_spec s Q : base s Q -> distinct Q ->
  exists Q', eliminate_body Q = Ok Q' /\ base s Q' /\ distinct Q' /\ step s Q Q'
    /\ qcols Q' = qcols Q /\ qquota Q' = qquota Q /\ qbounds Q' = qbounds Q /\ qans Q' = qans Q
    /\ eliminate_body Q' = Ok Q'.
Proof.
  intros HB HD. unfold eliminate_body. fold (qcols Q).
  destruct (Nat.eqb_spec (qcols Q) 0) as [E|E].
  { assert (E1 : Nat.eqb (mcols (qA Q)) 0 = true) by (now apply Nat.eqb_eq).
    exists Q. rewrite E1. split; [reflexivity|]. split; [exact HB|]. split; [exact HD|].
    split; [apply step_refl|]. auto 10. }
  destruct (elim_spec (qcols Q) (qA Q) (qb Q)) as (A' & b' & HE & HR); auto.
  { pose proof (i_C _ _ HB). lia. }
  { apply (i_blen _ _ HB). }
  { apply (i_rows _ _ HB). }
  { apply (i_b _ _ HB). }
  { destruct (column_row s Q 0 HB ltac:(lia)) as (row & x & Hin & H1 & _).
    exists row. split; auto. now apply in_combine_l in Hin. }
  rewrite HE. cbn [bind].
  destruct HR as [R1 R2 R3 R4 R5 R6 R7 R8 R9 R10].
  assert (Hb' : forall x, In x b' -> 0 <= x <= 127).
  { apply (R5 127); [lia|]. intros x Hx. now apply (i_b _ _ HB) in Hx. }
  rewrite nonneg_true by (intros x Hx; now apply Hb' in Hx). cbn [assert_ bind].
  set (Q' := Qst A' b' (qquota Q) (qbounds Q) (qans Q)).
  assert (HC : qcols Q' = qcols Q) by exact R1.
  assert (HB' : base s Q').
  { constructor; [constructor|..]; rewrite ?HC; simpl.
    - intros row Hr. destruct (R2 _ Hr) as (? & ? & _). auto.
    - exact R3.
    - exact Hb'.
    - apply (i_bdlen _ _ HB).
    - apply (i_bd _ _ HB).
    - apply (i_quota _ _ HB).
    - apply (i_rooms _ _ HB).
    - apply (i_ul _ _ HB).
    - apply (cone_trans (qcols Q) (qsys Q)).
      + intros row b Hin. apply in_combine_l in Hin. now apply R2.
      + exact R6.
      + apply (i_cone _ _ HB).
    - apply (i_av _ _ HB).
    - apply (i_C _ _ HB).
    - intros H. pose proof (i_R _ _ HB H). pose proof (i_blen _ _ HB). unfold mnrows in *. lia. }
  exists Q'. split; auto. split; auto. split.
  { intros i j Hij. rewrite HC in Hij.
    destruct (existsb (fun row => negb (nth i row 0 =? nth j row 0)) (mrows (qA Q'))) eqn:Ex.
    - apply existsb_exists in Ex. destruct Ex as (row & Hr & Hne). exists row. split; auto. lia.
    - exfalso. rewrite existsb_none in Ex.
      destruct (HD _ _ Hij) as (row & Hr & Hne). destruct (qsys_in s Q row HB Hr) as (x & Hin & _).
      apply Hne. apply (cone_columns (qcols Q) (qsys Q') row x); try lia.
      + rewrite <- HC. eapply qsys_wide; eauto.
      + intros row' b Hin'. apply in_combine_l in Hin'. specialize (Ex _ Hin'). lia.
      + apply R6, Hin. }
  split.
  { constructor; [simpl; auto| | |simpl; lia|rewrite HC; lia|]; simpl.
    - intros w [W1 W2 W3 W4 W5]. constructor; auto.
      intros j Hj. rewrite HC in Hj. now apply W5.
    - intros w [W1 W2 W3]. constructor; auto.
      intros row b Hin. apply (cone_below (qcols Q) (qsys Q')); auto.
      rewrite <- HC. eapply qsys_wide; eauto.
    - pose proof (i_blen _ _ HB). unfold mnrows in *. lia. }
  repeat (split; [solve [auto]|]).
  simpl. fold (qcols Q'). destruct (Nat.eqb_spec (mcols A') 0) as [E0|E0]; auto.
  rewrite R8. cbn [bind]. rewrite nonneg_true by (intros x Hx; now apply Hb' in Hx). reflexivity.
Qed.

(** ** lower_upper_bound *)
Lemma tighten_row_length row x bd : length row = length bd -> length (tighten_row row x bd) = length bd.
Proof. intros H. unfold tighten_row. rewrite map2_length. lia. Qed.
Lemma nth_tighten_row row x bd j : length row = length bd -> (j < length bd)%nat ->
  nth j (tighten_row row x bd) 0 = if nth j row 0 =? 0 then nth j bd 0 else Z.min (nth j bd 0) x.
Proof. intros H Hj. unfold tighten_row. rewrite (nth_map2 _ _ _ _ 0 0); auto; lia. Qed.

Lemma lub_length A : forall b bd, (forall row, In row A -> length row = length bd) ->
  length (lower_upper_bound A b bd) = length bd.
Proof.
  induction A as [|row A IH]; intros [|x b] bd H; simpl; auto.
  rewrite IH; rewrite tighten_row_length; auto; try (apply H; now left).
  intros r Hr. apply H. now right.
Qed.
(** exact characterisation: the largest value below the old bound and below
    the right-hand side of each row that contains the column *)
Lemma lub_spec A : forall b bd j z, (forall row, In row A -> length row = length bd) -> (j < length bd)%nat ->
  (z <= nth j (lower_upper_bound A b bd) 0 <->
   z <= nth j bd 0 /\ forall row x, In (row, x) (combine A b) -> nth j row 0 <> 0 -> z <= x).
Proof.
  induction A as [|row A IH]; intros [|x b] bd j z H Hj; simpl; try (intuition; easy).
  assert (L : length row = length bd) by (apply H; now left).
  rewrite IH; rewrite ?tighten_row_length; auto; [|intros r Hr; apply H; now right].
  rewrite nth_tighten_row by auto.
  destruct (Z.eqb_spec (nth j row 0) 0) as [E|E]; split; intros [H1 H2]; split; auto.
  - intros row' x' [E'|Hin] Hne; eauto. injection E' as <- <-. easy.
  - intros row' x' Hin Hne. apply (H2 row' x'); auto.
  - lia.
  - intros row' x' [E'|Hin] Hne; eauto. injection E' as <- <-. lia.
  - assert (z <= x) by (eapply H2; [left; reflexivity|auto]). lia.
  - intros row' x' Hin Hne. apply (H2 row' x'); auto.
Qed.

(** tightening the bounds of a question *)
Definition tighten (Q : question) : question :=
  Qst (qA Q) (qb Q) (qquota Q) (lower_upper_bound (mrows (qA Q)) (qb Q) (qbounds Q)) (qans Q).

Section tighten.
  Variables (s : list Z) (Q : question).
  Hypothesis HB : base s Q.

  Lemma tighten_rows : forall row, In row (mrows (qA Q)) -> length row = length (qbounds Q).
  Proof. intros row Hr. rewrite (i_bdlen _ _ HB). now apply (i_rows _ _ HB). Qed.
  Lemma tighten_length : length (qbounds (tighten Q)) = qcols Q.
  Proof. simpl. rewrite lub_length by apply tighten_rows. apply (i_bdlen _ _ HB). Qed.
  Lemma tighten_spec j z : (j < qcols Q)%nat ->
    (z <= nth j (qbounds (tighten Q)) 0 <->
     z <= nth j (qbounds Q) 0 /\ forall row x, In (row, x) (qsys Q) -> nth j row 0 <> 0 -> z <= x).
  Proof. intros Hj. apply lub_spec; [apply tighten_rows|]. now rewrite (i_bdlen _ _ HB). Qed.
  Lemma tighten_le j : (j < qcols Q)%nat -> nth j (qbounds (tighten Q)) 0 <= nth j (qbounds Q) 0.
  Proof. intros Hj. apply (tighten_spec j (nth j (qbounds (tighten Q)) 0)); auto; lia. Qed.
  Lemma tighten_range : forall x, In x (qbounds (tighten Q)) -> 0 <= x <= 127.
  Proof.
    intros x Hx. apply (In_nth _ _ 0) in Hx. destruct Hx as (j & Hj & <-). rewrite tighten_length in Hj.
    assert (Hin : In (nth j (qbounds Q) 0) (qbounds Q)) by (apply nth_In; now rewrite (i_bdlen _ _ HB)).
    apply (i_bd _ _ HB) in Hin. pose proof (tighten_le j Hj). split; [|lia].
    apply tighten_spec; auto. split; [lia|].
    intros row x Hr _. destruct (qsys_good _ _ _ _ HB Hr) as (_ & _ & ?). lia.
  Qed.
  Lemma tighten_base : base s (tighten Q).
  Proof.
    constructor; [constructor|exact (i_cone _ _ HB)|exact (i_av _ _ HB)|exact (i_C _ _ HB)|exact (i_R _ _ HB)];
    [exact (i_rows _ _ HB)|exact (i_blen _ _ HB)|exact (i_b _ _ HB)|exact tighten_length|exact tighten_range
      |exact (i_quota _ _ HB)|exact (i_rooms _ _ HB)|exact (i_ul _ _ HB)].
  Qed.
  Lemma tighten_step : step s Q (tighten Q).
  Proof.
    constructor; simpl; auto.
    - intros w Hw. constructor; [exact (sw_ext _ _ _ Hw)|exact (sw_room _ _ _ Hw)|exact (sw_sys _ _ _ Hw)|exact (sw_quota _ _ _ Hw)|].
      intros j Hj. change (unknowns (tighten Q) w) with (unknowns Q w). change (qcols (tighten Q)) with (qcols Q) in Hj.
      apply tighten_spec; auto. split; [apply Hw; auto|].
      intros row x Hin Hne. destruct (qsys_good _ _ _ _ HB Hin) as (L & Bt & _).
      rewrite <- (sw_sys _ _ _ Hw _ _ Hin). apply dot_ge; auto.
      + apply pick_pos. apply (solw_pos s Q); auto. apply (i_rooms _ _ HB).
      + rewrite unknowns_length, (i_ul _ _ HB). auto.
      + destruct (Bt (nth j row 0)) as [?|?]; [apply nth_In; lia|easy|auto].
    - intros w [W1 W2 W3]. constructor; auto.
    - apply prodb_le.
      + change (length (qbounds (tighten Q)) = length (qbounds Q)). rewrite tighten_length. symmetry. apply (i_bdlen _ _ HB).
      + intros a Ha. now apply tighten_range in Ha.
      + intros j Hj. change (lower_upper_bound (mrows (qA Q)) (qb Q) (qbounds Q)) with (qbounds (tighten Q)) in *.
        rewrite tighten_length in Hj. now apply tighten_le.
  Qed.
  Lemma tighten_idem : tighten (tighten Q) = tighten Q.
  Proof.
    change (Qst (qA Q) (qb Q) (qquota Q) (lower_upper_bound (mrows (qA Q)) (qb Q) (qbounds (tighten Q))) (qans Q)
            = Qst (qA Q) (qb Q) (qquota Q) (qbounds (tighten Q)) (qans Q)).
    f_equal.
    assert (HL : forall row, In row (mrows (qA Q)) -> length row = length (qbounds (tighten Q))).
    { intros row Hr. rewrite tighten_length. now apply (i_rows _ _ HB). }
    apply nth_ext0; [now apply lub_length|]. rewrite lub_length by auto. intros j Hj.
    apply Z.le_antisymm.
    - apply (lub_spec (mrows (qA Q)) (qb Q) (qbounds (tighten Q)) j (nth j (lower_upper_bound (mrows (qA Q)) (qb Q) (qbounds (tighten Q))) 0)); auto; lia.
    - apply lub_spec; auto. split; [lia|]. rewrite tighten_length in Hj.
      intros row x Hin Hne. destruct (proj1 (tighten_spec j (nth j (qbounds (tighten Q)) 0) Hj) ltac:(lia)) as [_ H]. eauto.
  Qed.
End tighten.

(** ** zero_in_b *)
Lemma map_zero_pairs (l : list nat) : map (fun j => (j, 0)) l = map2 pair l (repeat 0 (length l)).
Proof. induction l as [|a l IH]; simpl; auto. now rewrite IH. Qed.

Lemma delete_all_nil {A} (l : list A) js : delete js l = l -> NoDup js -> (forall j, In j js -> (j < length l)%nat) -> js = [].
Proof.
  intros H Hn Hb. pose proof (delete_length js l Hn Hb) as HL. rewrite H in HL.
  destruct js as [|j js]; auto. pose proof (Hb j (or_introl eq_refl)). simpl in HL. lia.
Qed.

Lemma zero_in_b_body_spec s Q : base s Q ->
  exists Q', zero_in_b_body Q = Ok Q' /\ base s Q' /\ (distinct Q -> distinct Q') /\ step s Q Q'
    /\ (qcols Q' = qcols Q -> Q' = tighten Q /\ forall x, In x (qbounds Q') -> 0 < x).
Proof.
  intros HB. pose proof (tighten_base s Q HB) as HT. pose proof (tighten_length s Q HB) as HTL.
  unfold zero_in_b_body.
  change (lower_upper_bound (mrows (qA Q)) (qb Q) (qbounds Q)) with (qbounds (tighten Q)) in *.
  set (T := tighten Q) in *. cbv zeta.
  change (unknown_loc (qans Q)) with (unknown_loc (qans T)).
  rewrite (i_ul _ _ HT), (i_bdlen _ _ HT), Nat.eqb_refl. cbn [assert_ bind].
  set (zs := zero_bound_loc (qbounds T)).
  assert (Hzs : forall j, In j zs -> (j < qcols T)%nat /\ nth j (qbounds T) 0 = 0).
  { intros j Hj. apply (where_spec _ 0) in Hj. rewrite (i_bdlen _ _ HT) in Hj. lia. }
  assert (Hnd : NoDup zs) by apply where_NoDup.
  rewrite nonneg_true by (intros x Hx; apply in_delete in Hx; now apply (i_bd _ _ HT) in Hx). cbn [assert_ bind].
  eexists. split; [reflexivity|]. set (Q' := Qst _ _ _ _ _).
  assert (HS : substituted zs (repeat 0 (length zs)) T Q').
  { constructor; try reflexivity.
    - intros i Hi. rewrite dot_comm, dot_repeat0. simpl. lia.
    - rewrite zsum_repeat. simpl. lia.
    - simpl. now rewrite map_zero_pairs. }
  assert (HX : forall x, In x (repeat 0 (length zs)) -> 0 <= x) by (intros x Hx; apply repeat_spec in Hx; lia).
  assert (Hcs : forall j, In j zs -> (j < qcols T)%nat) by (intros j Hj; now apply Hzs).
  assert (HLx : length (repeat 0 (length zs)) = length zs) by apply repeat_length.
  split; [|split; [|split]].
  - apply (su_base s zs (repeat 0 (length zs)) T Q'); auto; simpl.
    + intros x Hx. now apply (i_b _ _ HB) in Hx.
    + apply (i_quota _ _ HB).
  - intros HD. apply (su_distinct s zs (repeat 0 (length zs)) T Q' HT HS); auto.
  - eapply step_trans; [apply tighten_step; auto|].
    apply (su_step s zs (repeat 0 (length zs)) T Q'); auto.
    intros w Hw. apply nth_ext0; [now rewrite pick_length, repeat_length|].
    rewrite pick_length. intros i Hi. rewrite nth_pick, nth_repeat_lt by auto.
    assert (Hin : In (nth i zs 0%nat) zs) by now apply nth_In. destruct (Hzs _ Hin) as [H1 H2].
    pose proof (sw_bd _ _ _ Hw _ H1) as Hle.
    assert (0 <= nth (nth i zs 0%nat) (unknowns T w) 0); [|lia].
    apply pick_pos with (ul := unknown_loc (qans T)) (w := w).
    + apply (solw_pos s T); auto. apply (i_rooms _ _ HT).
    + apply nth_In. rewrite pick_length, (i_ul _ _ HT). auto.
  - intros HE.
    assert (Hz : zs = []).
    { destruct zs as [|z zs'] eqn:Ez; auto. pose proof (Hcs z (or_introl eq_refl)) as Hz.
      rewrite (su_cols _ _ _ _ HS) in HE. change (qcols T) with (qcols Q) in *. simpl in HE. lia. }
    assert (EQ : Q' = T).
    { unfold Q'. rewrite Hz. unfold T, tighten. cbn [qans qbounds map length assign_all fold_left].
      rewrite delete_nil, Nat.sub_0_r.
      assert (EA : map (delete []) (mrows (qA Q)) = mrows (qA Q))
        by (rewrite <- (map_id (mrows (qA Q))) at 2; apply map_ext; intros; apply delete_nil).
      rewrite EA. unfold assign_all. simpl. destruct (qA Q), (qans Q). reflexivity. }
    split; auto. rewrite EQ. intros x Hx.
    apply (In_nth _ _ 0) in Hx. destruct Hx as (j & Hj & <-).
    assert (In (nth j (qbounds T) 0) (qbounds T)) as Hin by now apply nth_In.
    apply (i_bd _ _ HT) in Hin.
    assert (nth j (qbounds T) 0 <> 0); [|lia]. intros E0.
    assert (In j zs); [|rewrite Hz in *; easy]. apply (where_spec _ 0). split; auto. lia.
Qed.

(** ** one_element_row_locs *)
(** [c] is the only non-zero column of [row] *)
Definition single (row : list Z) (c : nat) : Prop := where_ (fun x => negb (x =? 0)) row = [c].

Lemma single_iff row c : single row c <->
  (c < length row)%nat /\ nth c row 0 <> 0 /\ forall j, j <> c -> nth j row 0 = 0.
Proof.
  unfold single. split.
  - intros E. 
    assert (Hin : forall j, In j [c] <-> (j < length row)%nat /\ negb (nth j row 0 =? 0) = true)
      by (intros j; rewrite <- E; apply (where_spec (fun x => negb (x =? 0)) 0)).
    destruct (proj1 (Hin c) (or_introl eq_refl)) as [H1 H2]. repeat split; auto; [lia|].
    intros j Hj. destruct (Nat.lt_ge_cases j (length row)) as [L|L]; [|now apply nth_overflow].
    destruct (Z.eq_dec (nth j row 0) 0) as [?|Hne]; auto. exfalso. apply Hj.
    assert (In j [c]) as [->|[]]; auto. apply Hin. split; auto. lia.
  - intros (H1 & H2 & H3). apply sorted_ext; [apply where_sorted|repeat constructor|].
    intros j. rewrite (where_spec _ 0). simpl. split.
    + intros [Hj Hne]. left. destruct (Nat.eq_dec j c) as [->|Hjc]; auto. rewrite H3 in Hne by auto. easy.
    + intros [<-|[]]. split; auto. lia.
Qed.

Lemma dot_single row y c : (c < length row)%nat -> (forall j, j <> c -> nth j row 0 = 0) ->
  dot row y = nth c row 0 * nth c y 0.
Proof.
  revert y c. induction row as [|a row IH]; intros [|z y] c Hc H; simpl in *; try lia.
  - destruct c; lia.
  - destruct c as [|c].
    + assert (Hz : dot row y = 0); [|lia].
      clear - H. assert (Hr : forall j, nth j row 0 = 0) by (intros j; apply (H (S j)); lia).
      clear H. revert y. induction row as [|b row IH]; intros [|q y]; simpl; auto.
      pose proof (Hr 0%nat) as H0. simpl in H0. rewrite H0, IH; [lia|]. intros j. apply (Hr (S j)).
    + pose proof (H 0%nat ltac:(lia)) as H0. simpl in H0. rewrite H0.
      rewrite (IH y c ltac:(lia)); [simpl; lia|]. intros j Hj. apply (H (S j)). lia.
Qed.

Definition locs_ok (rows : list (list Z)) (d : list (nat * nat)) : Prop :=
  NoDup (map snd d)
  /\ forall r c, In (r, c) d <->
       (r < length rows)%nat /\ single (nth r rows []) c
       /\ forall r', (r < r' < length rows)%nat -> ~ single (nth r' rows []) c.

Lemma crs_set_in c r d r' c' : NoDup (map snd d) ->
  (In (r', c') (crs_set c r d) <-> (c' = c /\ r' = r) \/ (c' <> c /\ In (r', c') d)).
Proof.
  induction d as [|[r0 c0] d IH]; intros Hn; simpl.
  - split; [intros [E|[]]; injection E as <- <-; auto|]. intros [[-> ->]|[_ []]]; auto.
  - simpl in Hn. inversion Hn as [|? ? Hn1 Hn2]; subst. destruct (Nat.eqb_spec c0 c) as [->|Hne]; simpl.
    + split.
      * intros [E|Hin]; [injection E as <- <-; auto|]. right. split; auto. intros ->. apply Hn1.
        apply in_map_iff. exists (r', c). auto.
      * intros [[-> ->]|[Hc [E|Hin]]]; auto. injection E as <- <-. easy.
    + rewrite IH by auto. split.
      * intros [E|[H|[H1 H2]]]; auto. injection E as <- <-. auto.
      * intros [H|[H1 [E|H2]]]; auto.
Qed.
Lemma crs_set_nodup c r d : NoDup (map snd d) -> NoDup (map snd (crs_set c r d)).
Proof.
  induction d as [|[r0 c0] d IH]; intros Hn; simpl.
  - repeat constructor. easy.
  - simpl in Hn. inversion Hn as [|? ? Hn1 Hn2]; subst. destruct (Nat.eqb_spec c0 c) as [->|Hne]; simpl; auto.
    constructor; auto. intros Hin. apply in_map_iff in Hin. destruct Hin as ([r' c'] & E & Hin). simpl in E. subst c'.
    apply crs_set_in in Hin; auto. destruct Hin as [[? _]|[_ Hin]]; [auto|].
    apply Hn1. apply in_map_iff. exists (r', c0). auto.
Qed.

Lemma crs_from_ok A : forall pre d, locs_ok pre d -> locs_ok (pre ++ A) (crs_from (length pre) A d).
Proof.
  induction A as [|row A IH]; intros pre d Hd; simpl; [now rewrite app_nil_r|].
  assert (E : pre ++ row :: A = (pre ++ [row]) ++ A) by now rewrite <- app_assoc.
  rewrite E. replace (S (length pre)) with (length (pre ++ [row])) by (rewrite app_length; simpl; lia).
  destruct Hd as [Hn Hd].
  assert (Hnew : nth (length pre) (pre ++ [row]) [] = row) by (rewrite app_nth2, Nat.sub_diag by lia; reflexivity).
  assert (Hold : forall r, (r < length pre)%nat -> nth r (pre ++ [row]) [] = nth r pre []) by (intros; now apply app_nth1).
  assert (HL : length (pre ++ [row]) = S (length pre)) by (rewrite app_length; simpl; lia).
  assert (Hskip : (forall c, ~ single row c) -> locs_ok (pre ++ [row]) d).
  { intros Hs. split; auto. intros r c. rewrite Hd, HL. split.
    - intros (H1 & H2 & H3). split; [lia|]. rewrite Hold by auto. split; auto.
      intros r' Hr'. destruct (Nat.eq_dec r' (length pre)) as [->|Hne]; [rewrite Hnew; auto|].
      rewrite Hold by lia. apply H3. lia.
    - intros (H1 & H2 & H3). destruct (Nat.eq_dec r (length pre)) as [->|Hne].
      + rewrite Hnew in H2. exfalso. eapply Hs; eauto.
      + rewrite Hold in H2 by lia. repeat split; auto; [lia|]. intros r' Hr'. rewrite <- Hold by lia. apply H3. lia. }
  destruct (where_ (fun x => negb (x =? 0)) row) as [|c0 [|c1 t]] eqn:W.
  - apply IH, Hskip. intros c Hc. unfold single in Hc. congruence.
  - apply IH. split; [now apply crs_set_nodup|]. intros r c. rewrite crs_set_in, HL by auto. rewrite Hd. split.
    + intros [[-> ->]|(Hc & H1 & H2 & H3)].
      * rewrite Hnew. split; [lia|]. split; [exact W|]. intros; lia.
      * rewrite Hold by auto. split; [lia|]. split; auto. intros r' Hr'.
        destruct (Nat.eq_dec r' (length pre)) as [->|Hne].
        -- rewrite Hnew. unfold single. rewrite W. intros E'. injection E' as <-. easy.
        -- rewrite Hold by lia. apply H3. lia.
    + intros (H1 & H2 & H3). destruct (Nat.eq_dec c c0) as [->|Hne].
      * left. split; auto. destruct (Nat.eq_dec r (length pre)) as [?|Hr]; auto.
        exfalso. apply (H3 (length pre)); [lia|]. rewrite Hnew. exact W.
      * right. split; auto. destruct (Nat.eq_dec r (length pre)) as [->|Hr].
        -- rewrite Hnew in H2. unfold single in H2. rewrite W in H2. injection H2 as <-. easy.
        -- rewrite Hold in H2 by lia. repeat split; auto; [lia|]. intros r' Hr'. rewrite <- Hold by lia. apply H3. lia.
  - apply IH, Hskip. intros c Hc. unfold single in Hc. rewrite W in Hc. discriminate.
Qed.
Lemma one_element_row_locs_ok A : locs_ok A (one_element_row_locs A).
Proof.
  apply (crs_from_ok A [] []). split; [constructor|]. simpl. intros r c. split; [easy|lia].
Qed.
Lemma one_element_row_locs_some A row c : In row A -> single row c -> exists r, In (r, c) (one_element_row_locs A).
Proof.
  intros Hr HS. destruct (one_element_row_locs_ok A) as [_ H].
  apply (In_nth _ _ []) in Hr. destruct Hr as (r & Hr & <-).
  remember (length A - r)%nat as n eqn:En. revert r Hr HS En. induction n as [n IH] using lt_wf_ind. intros r Hr HS En.
  destruct (existsb (fun r' => (r <? r')%nat && list_eqb Nat.eqb (where_ (fun x => negb (x =? 0)) (nth r' A [])) [c]) (seq 0 (length A))) eqn:Ex.
  - apply existsb_exists in Ex. destruct Ex as (r' & Hin & E). apply in_seq in Hin. apply andb_true_iff in E. destruct E as [E1 E2].
    apply Nat.ltb_lt in E1. apply (list_eqb_spec _ Nat.eqb_eq) in E2. apply (IH (length A - r')%nat ltac:(lia) r'); auto. lia.
  - exists r. apply H. split; auto. split; auto. intros r' Hr' HS'.
    apply Bool.not_true_iff_false in Ex. apply Ex, existsb_exists. exists r'. split; [apply in_seq; lia|]. apply andb_true_iff.
    split; [apply Nat.ltb_lt; lia|]. apply (list_eqb_spec _ Nat.eqb_eq). exact HS'.
Qed.

(** ** only_1_element_in_row *)
Lemma spend_ok xs : forall q, (forall x, In x xs -> 0 <= x) -> zsum xs <= q -> spend xs q = Ok (q - zsum xs).
Proof.
  induction xs as [|x xs IH]; intros q Hx Hq.
  - unfold zsum. simpl. f_equal. lia.
  - rewrite zsum_cons in *. simpl. assert (0 <= zsum xs) by (apply zsum_nonneg; intros; apply Hx; now right).
    destruct (Z.leb_spec 0 (q - x)); [|lia]. cbn [assert_ bind]. rewrite IH; [f_equal; lia| |lia].
    intros; apply Hx; now right.
Qed.
Lemma dot_le_sum row y : bits row -> (forall a, In a y -> 0 <= a) -> dot row y <= zsum y.
Proof.
  revert y. induction row as [|a row IH]; intros [|c y] Hb Hy; simpl.
  - unfold zsum; simpl; lia.
  - apply zsum_nonneg. auto.
  - unfold zsum; simpl; lia.
  - rewrite zsum_cons. assert (0 <= c) by (apply Hy; now left).
    assert (dot row y <= zsum y) by (apply IH; [intros z Hz; apply Hb; now right|intros z Hz; apply Hy; now right]).
    assert (bit a) as [->| ->] by (apply Hb; now left); lia.
Qed.
Lemma pick_bits cs row : bits row -> bits (pick 0 cs row).
Proof.
  intros Hb a Ha. apply in_map_iff in Ha. destruct Ha as (i & <- & _).
  destruct (Nat.lt_ge_cases i (length row)) as [L|L]; [apply Hb, nth_In; auto|]. left. now apply nth_overflow.
Qed.

(** an enumeration of rows with a single non-zero entry, one per column *)
Definition rcs_ok (rows : list (list Z)) (rcs : list (nat * nat)) : Prop :=
  NoDup (map snd rcs) /\ forall r c, In (r, c) rcs -> (r < length rows)%nat /\ single (nth r rows []) c.
Lemma locs_rcs rows d : locs_ok rows d -> rcs_ok rows d.
Proof. intros [H1 H2]. split; auto. intros r c Hin. apply H2 in Hin. tauto. Qed.

Lemma only_1_with_shell s Q rcs : shell s Q -> rcs_ok (mrows (qA Q)) rcs ->
  (only_1_with rcs Q = NoSolution /\ forall w, ~ solw s Q w)
  \/ exists Q', only_1_with rcs Q = Ok Q' /\ shell s Q' /\ (forall w, solw s Q w <-> solw s Q' w)
      /\ (rcs = [] /\ Q' = Q
          \/ exists xs, substituted (map snd rcs) xs Q Q' /\ length xs = length (map snd rcs)
               /\ (forall x, In x xs -> 0 <= x) /\ (forall j, In j (map snd rcs) -> (j < qcols Q)%nat)
               /\ (qcols Q' < qcols Q)%nat /\ (forall w, solw s Q w -> pick 0 (map snd rcs) (unknowns Q w) = xs)
               /\ (forall x, In x (qb Q') -> 0 <= x) /\ 0 <= qquota Q').
Proof.
  intros HB [Hnd Hrc]. unfold only_1_with.
  rewrite (i_ul _ _ HB), (i_bdlen _ _ HB), Nat.eqb_refl. cbn [assert_ bind].
  destruct rcs as [|rc0 rcs0] eqn:Ercs.
  { right. exists Q. conj; auto. reflexivity. }
  rewrite <- Ercs in *. assert (Hne : rcs <> []) by (rewrite Ercs; discriminate).
  clear Ercs rc0 rcs0. cbv zeta.
  set (rs := map fst rcs) in *. set (cs := map snd rcs) in *.
  set (subx := pick 0 rs (qb Q)).
  pose proof (i_blen _ _ HB) as HbL. unfold mnrows in HbL.
  assert (HLrs : length rs = length rcs) by apply map_length.
  assert (HLcs : length cs = length rcs) by apply map_length.
  assert (HLx : length subx = length cs) by (unfold subx; rewrite pick_length; lia).
  assert (Hnth : forall i, (i < length rcs)%nat ->
            (nth i rs 0 < length (mrows (qA Q)))%nat /\ single (nth (nth i rs 0%nat) (mrows (qA Q)) []) (nth i cs 0%nat)).
  { intros i Hi. apply Hrc. unfold rs, cs.
    rewrite !(nth_map_in _ _ _ (0%nat, 0%nat)) by auto.
    rewrite <- surjective_pairing. now apply nth_In. }
  assert (Hcs : forall j, In j cs -> (j < qcols Q)%nat).
  { intros j Hj. apply (In_nth _ _ 0%nat) in Hj. destruct Hj as (i & Hi & <-).
    destruct (Hnth i ltac:(lia)) as [H1 H2]. apply single_iff in H2. destruct H2 as [H2 _].
    destruct (i_rows _ _ HB (nth (nth i rs 0%nat) (mrows (qA Q)) [])) as [L _]; [now apply nth_In|]. lia. }
  assert (Hx : forall x, In x subx -> 0 <= x).
  { intros x Hin. apply in_map_iff in Hin. destruct Hin as (r & <- & Hr).
    destruct (Nat.lt_ge_cases r (length (qb Q))) as [L|L]; [|rewrite nth_overflow by auto; lia].
    assert (Hin : In (nth r (qb Q) 0) (qb Q)) by now apply nth_In. apply (i_b _ _ HB) in Hin. lia. }
  (* what a solution says *)
  assert (Hsol : forall w, solw s Q w -> pick 0 cs (unknowns Q w) = subx).
  { intros w Hw. apply nth_ext0; [now rewrite pick_length|]. rewrite pick_length. intros i Hi.
    unfold subx. rewrite !nth_pick by lia. destruct (Hnth i ltac:(lia)) as [H1 H2].
    assert (Hin : In (nth (nth i rs 0%nat) (mrows (qA Q)) [], nth (nth i rs 0%nat) (qb Q) 0) (qsys Q)).
    { apply nth_in_combine; auto. lia. }
    rewrite <- (sw_sys _ _ _ Hw _ _ Hin). apply single_iff in H2. destruct H2 as (S1 & S2 & S3).
    destruct (qsys_good _ _ _ _ HB Hin) as (L & Bt & _).
    rewrite (dot_single _ _ (nth i cs 0%nat)) by auto.
    destruct (Bt (nth (nth i cs 0%nat) (nth (nth i rs 0%nat) (mrows (qA Q)) []) 0)) as [E|E]; [now apply nth_In|easy|].
    rewrite E. lia. }
  destruct (existsb _ rcs) eqn:Ex1.
  { left. split; auto. intros w Hw. apply existsb_exists in Ex1. destruct Ex1 as ([r c] & Hin & Hlt). simpl in Hlt.
    apply (In_nth _ _ (0%nat, 0%nat)) in Hin. destruct Hin as (i & Hi & Ei).
    assert (Er : nth i rs 0%nat = r) by (unfold rs; rewrite (nth_map_in _ _ _ (0%nat, 0%nat)), Ei by auto; reflexivity).
    assert (Ec : nth i cs 0%nat = c) by (unfold cs; rewrite (nth_map_in _ _ _ (0%nat, 0%nat)), Ei by auto; reflexivity).
    pose proof (f_equal (fun l => nth i l 0) (Hsol w Hw)) as E. simpl in E. unfold subx in E.
    rewrite !nth_pick in E by lia. rewrite Er, Ec in E.
    assert (Hc : In c cs) by (rewrite <- Ec; apply nth_In; lia).
    pose proof (sw_bd _ _ _ Hw _ (Hcs _ Hc)). lia. }
  assert (LU : forall w, length (unknowns Q w) = qcols Q) by (intros w; rewrite unknowns_length; apply (i_ul _ _ HB)).
  assert (Hpos : forall w, solw s Q w -> forall x, In x (delete cs (unknowns Q w)) -> 0 <= x).
  { intros w Hw x Hin. apply in_delete in Hin. apply (pick_pos (unknown_loc (qans Q)) w); auto.
    apply (solw_pos s Q); auto. apply (i_rooms _ _ HB). }
  destruct (Z.ltb_spec (qquota Q) (zsum subx)) as [Hq|Hq].
  { left. split; auto. intros w Hw. pose proof (sw_quota _ _ _ Hw) as E.
    rewrite (zsum_split cs) in E by (auto; rewrite LU; auto). rewrite (Hsol w Hw) in E.
    pose proof (zsum_nonneg _ (Hpos w Hw)). lia. }
  pose proof (i_quota _ _ HB) as HQ.
  set (upd := matvec (map (pick 0 cs) (mrows (qA Q))) subx).
  assert (HLu : length upd = length (qb Q)) by (unfold upd, matvec; rewrite !map_length; lia).
  assert (Hupd : forall i, (i < length (qb Q))%nat -> nth i upd 0 = dot (pick 0 cs (nth i (mrows (qA Q)) [])) subx).
  { intros i Hi. unfold upd, matvec. rewrite map_map, (nth_map_in _ _ _ []) by lia. reflexivity. }
  assert (Hupdr : forall i, (i < length (qb Q))%nat -> 0 <= nth i upd 0 <= zsum subx).
  { intros i Hi. rewrite Hupd by auto.
    destruct (i_rows _ _ HB (nth i (mrows (qA Q)) [])) as [_ Bt]; [apply nth_In; lia|].
    split; [apply dot_nonneg|apply dot_le_sum]; auto using pick_bits. }
  assert (Ei8 : map i8 upd = upd).
  { apply map_i8_id. intros x Hin. apply (In_nth _ _ 0) in Hin. destruct Hin as (i & Hi & <-).
    specialize (Hupdr i ltac:(lia)). lia. }
  rewrite Ei8.
  destruct (any2 Z.gtb upd (qb Q)) eqn:Ex2.
  { left. split; auto. intros w Hw.
    assert (any2 Z.gtb upd (qb Q) = false); [|congruence]. apply any2_gtb_false; auto.
    intros i Hi. rewrite Hupd by lia.
    assert (Hin : In (nth i (mrows (qA Q)) [], nth i (qb Q) 0) (qsys Q)) by (apply nth_in_combine; auto; lia).
    pose proof (sw_sys _ _ _ Hw _ _ Hin) as E. destruct (qsys_good _ _ _ _ HB Hin) as (L & Bt & _).
    rewrite (dot_split cs) in E by (rewrite ?L, ?LU; auto). rewrite (Hsol w Hw) in E.
    assert (0 <= dot (delete cs (nth i (mrows (qA Q)) [])) (delete cs (unknowns Q w))); [|lia].
    apply dot_nonneg; [intros a Ha; apply in_delete in Ha; auto|exact (Hpos w Hw)]. }
  rewrite any2_gtb_false in Ex2 by auto.
  rewrite (spend_ok subx) by auto. cbn [bind].
  set (b' := map2 (fun x y => i8 (x - y)) (qb Q) upd).
  assert (HLb' : length b' = length (qb Q)) by (unfold b'; rewrite map2_length; lia).
  assert (Hb' : forall i, (i < length (qb Q))%nat -> nth i b' 0 = nth i (qb Q) 0 - nth i upd 0 /\ 0 <= nth i b' 0).
  { intros i Hi. unfold b'. rewrite (nth_map2 _ _ _ _ 0 0) by lia.
    assert (Hin : In (nth i (qb Q) 0) (qb Q)) by now apply nth_In. apply (i_b _ _ HB) in Hin.
    specialize (Ex2 i ltac:(lia)). specialize (Hupdr i Hi). rewrite i8_id by lia. lia. }
  assert (Hb'n : forall x, In x b' -> 0 <= x).
  { intros x Hin. apply (In_nth _ _ 0) in Hin. destruct Hin as (i & Hi & <-). apply Hb'. lia. }
  rewrite (nonneg_true b') by auto. cbn [assert_ bind].
  rewrite nonneg_true by (intros x Hin; apply in_delete in Hin; now apply (i_bd _ _ HB) in Hin). cbn [assert_ bind].
  right. eexists. split; [reflexivity|]. set (Q' := Qst _ _ _ _ _).
  assert (HS : substituted cs subx Q Q').
  { constructor; try reflexivity; auto.
    intros i Hi. simpl. destruct (Hb' i Hi) as [-> _]. now rewrite Hupd. }
  assert (Hq' : 0 <= qquota Q') by (simpl; lia).
  split; [|split].
  - apply (su_shell s cs subx Q Q'); auto.
  - intros w. split; intros Hw.
    + apply (su_sol s cs subx Q Q'); auto.
    + apply (su_sol_inv s cs subx Q Q'); auto. intros i Hi. rewrite existsb_none in Ex1.
      assert (Hin : In (nth i rcs (0%nat, 0%nat)) rcs) by (apply nth_In; lia). specialize (Ex1 _ Hin).
      unfold subx. rewrite nth_pick by lia. unfold rs, cs. rewrite !(nth_map_in _ _ _ (0%nat, 0%nat)) by lia. lia.
  - right. exists subx. conj; auto.
    rewrite (su_cols _ _ _ _ HS).
    assert (exists c, In c cs) as (c & Hc).
    { destruct rcs as [|[r c] l]; [easy|]. exists c. unfold cs. now left. }
    pose proof (Hcs _ Hc). assert (1 <= length cs)%nat by (destruct cs; [easy|simpl; lia]). lia.
Qed.

Lemma only_1_with_spec s Q rcs : base s Q -> rcs_ok (mrows (qA Q)) rcs ->
  (only_1_with rcs Q = NoSolution /\ forall w, ~ solw s Q w)
  \/ exists Q', only_1_with rcs Q = Ok Q' /\ base s Q' /\ (distinct Q -> distinct Q') /\ step s Q Q'
      /\ (rcs = [] /\ Q' = Q \/ (qcols Q' < qcols Q)%nat).
Proof.
  intros HB HR. destruct (only_1_with_shell s Q rcs HB HR) as [H|(Q' & E & HS & Hsol & H)]; [left; exact H|right].
  exists Q'. split; auto. destruct H as [[-> ->]|(xs & H1 & H2 & H3 & H4 & H5 & H6 & H7 & H8)].
  - conj; auto using step_refl.
  - destruct HR as [Hnd _]. conj; auto.
    + apply (su_base s (map snd rcs) xs Q Q'); auto.
    + intros HD. apply (su_distinct s (map snd rcs) xs Q Q' HB H1); auto.
    + apply (su_step s (map snd rcs) xs Q Q'); auto.
Qed.

(** two different columns: some row contains one of them only *)
Lemma two_columns_single s Q : base s Q -> distinct Q -> qcols Q = 2%nat -> one_element_row_locs (mrows (qA Q)) <> [].
Proof.
  intros HB HD HC E. destruct (HD 0%nat 1%nat ltac:(lia)) as (row & Hr & Hne).
  destruct (i_rows _ _ HB row Hr) as [HL Hb]. rewrite HC in HL.
  assert (HS : exists c, single row c).
  { destruct row as [|a [|b [|]]]; try discriminate. simpl in Hne.
    destruct (Hb a ltac:(simpl; auto)) as [-> | ->], (Hb b ltac:(simpl; auto)) as [-> | ->]; try lia; unfold single; eexists; reflexivity. }
  destruct HS as (c & HS). destruct (one_element_row_locs_some _ row c Hr HS) as (r & Hin). rewrite E in Hin. destruct Hin.
Qed.

Lemma only_1_body_spec s Q : base s Q ->
  (only_1_body Q = NoSolution /\ forall w, ~ solw s Q w)
  \/ exists Q', only_1_body Q = Ok Q' /\ base s Q' /\ (distinct Q -> distinct Q') /\ step s Q Q'
      /\ (Q' = Q /\ (distinct Q -> qcols Q <> 2%nat) \/ (qcols Q' < qcols Q)%nat).
Proof.
  intros HB. destruct (only_1_with_spec s Q (one_element_row_locs (mrows (qA Q))) HB) as [H|(Q' & H1 & H2 & H3 & H4 & H5)].
  - apply locs_rcs, one_element_row_locs_ok.
  - left. exact H.
  - right. exists Q'. conj; auto. destruct H5 as [[E1 E2]|H5]; auto. left. split; auto.
    intros HD HC. now apply (two_columns_single s Q HB HD HC).
Qed.

(** ** reduce_col on distinct columns *)
Lemma group_add_new key j d : ~ In key (map fst d) -> group_add key j d = d ++ [(key, [j])].
Proof.
  induction d as [|[k ls] d IH]; intros H; simpl; auto.
  destruct (Z.eqb_spec k key) as [->|Hne]; [exfalso; apply H; now left|].
  rewrite IH; auto. intros Hin. apply H. now right.
Qed.
Lemma groups_nodup_aux enc : forall i d, NoDup (map fst d ++ enc) ->
  fold_left (fun d kj => group_add (fst kj) (snd kj) d) (map2 pair enc (seq i (length enc))) d
  = d ++ map2 (fun k j => (k, [j])) enc (seq i (length enc)).
Proof.
  induction enc as [|k enc IH]; intros i d Hn; simpl; [now rewrite app_nil_r|].
  rewrite group_add_new.
  - rewrite IH; [now rewrite <- app_assoc|]. rewrite map_app, <- app_assoc. exact Hn.
  - intros Hin. apply NoDup_remove_2 in Hn. apply Hn. apply in_app_iff. now left.
Qed.
Lemma groups_nodup enc : NoDup enc -> groups enc = map (fun j => [j]) (seq 0 (length enc)).
Proof.
  intros H. unfold groups. rewrite groups_nodup_aux by auto. simpl app.
  generalize 0%nat as i. clear H. induction enc as [|k enc IH]; intros i; simpl; auto. now rewrite IH.
Qed.

Lemma column_length j rows : length (column j rows) = length rows.
Proof. apply map_length. Qed.
Lemma column_bits j rows : (forall row, In row rows -> bits row) -> bits (column j rows).
Proof.
  intros H a Ha. apply in_map_iff in Ha. destruct Ha as (row & <- & Hr).
  destruct (Nat.lt_ge_cases j (length row)) as [L|L]; [apply (H _ Hr), nth_In; auto|]. left. now apply nth_overflow.
Qed.
Lemma column_eq i j rows : column i rows = column j rows -> forall row, In row rows -> nth i row 0 = nth j row 0.
Proof.
  unfold column. induction rows as [|r rows IH]; intros H row Hr; [easy|]. simpl in H. injection H as H1 H2.
  destruct Hr as [<-|Hr]; auto.
Qed.

Lemma NoDup_map_seq {A} (f : nat -> A) n :
  (forall i j, (i < j < n)%nat -> f i <> f j) -> NoDup (map f (seq 0 n)).
Proof.
  intros H. assert (G : forall m p, (forall i j, (p <= i < j)%nat -> (j < p + m)%nat -> f i <> f j) -> NoDup (map f (seq p m))).
  { induction m as [|m IH]; intros p Hp; simpl; constructor.
    - intros Hin. apply in_map_iff in Hin. destruct Hin as (j & E & Hj). apply in_seq in Hj.
      apply (Hp p j); try lia; auto.
    - apply IH. intros; apply Hp; lia. }
  apply G. intros; apply H; lia.
Qed.

Lemma reduce_col_body_id s Q : base s Q -> distinct Q -> fits Q -> reduce_col_body Q = Ok Q.
Proof.
  intros HB HD HF. unfold reduce_col_body. fold (qcols Q).
  destruct (Nat.ltb_spec (qcols Q) 2) as [_|HC]; auto.
  unfold unique_encode. fold (qcols Q).
  destruct (column_row s Q 0 HB ltac:(lia)) as (row0 & x0 & Hin0 & _). apply in_combine_l in Hin0.
  destruct (Nat.eqb_spec (mnrows (qA Q)) 0) as [E|_].
  { unfold mnrows in E. destruct (mrows (qA Q)); [easy|discriminate]. }
  cbn [bind]. set (enc := map (fun j => pack (column j (mrows (qA Q)))) (seq 0 (qcols Q))).
  assert (HLe : length enc = qcols Q) by (unfold enc; now rewrite map_length, seq_length).
  assert (Hn : NoDup enc).
  { apply NoDup_map_seq. intros i j Hij E. destruct (HD i j Hij) as (row & Hr & Hne). apply Hne.
    apply (column_eq i j (mrows (qA Q))); auto. apply pack_inj64; auto.
    - apply column_bits. intros r Hr'. now apply (i_rows _ _ HB).
    - apply column_bits. intros r Hr'. now apply (i_rows _ _ HB).
    - now rewrite !column_length.
    - rewrite column_length. apply HF. lia. }
  rewrite groups_nodup, HLe by auto. rewrite (i_bdlen _ _ HB), Nat.ltb_irrefl.
  assert (E1 : map (fun ls : list nat => hd 0%nat ls) (map (fun j => [j]) (seq 0 (qcols Q))) = seq 0 (qcols Q)).
  { rewrite map_map. simpl. apply map_id. }
  assert (E2 : concat (map (@tl nat) (map (fun j => [j]) (seq 0 (qcols Q)))) = []).
  { rewrite map_map. simpl. generalize (seq 0 (qcols Q)). clear. intros l. induction l; simpl; auto. }
  assert (E3 : map (fun ls => zsum (pick 0 ls (qbounds Q))) (map (fun j => [j]) (seq 0 (qcols Q))) = qbounds Q).
  { rewrite map_map. etransitivity; [|apply map_nth_seq]. rewrite (i_bdlen _ _ HB).
    apply map_ext. intros j. unfold pick, zsum. simpl. lia. }
  rewrite E1, E2, E3. cbv zeta. cbn [existsb]. change (pick 0%nat [] (unknown_loc (qans Q))) with (@nil nat).
  rewrite !delete_nil, seq_length.
  rewrite map_i8_id by (intros x Hx; apply (i_bd _ _ HB) in Hx; lia).
  rewrite nonneg_true by (intros x Hx; apply (i_bd _ _ HB) in Hx; lia). cbn [assert_ bind].
  pose proof (rooms_copy _ _ (i_rooms _ _ HB)) as Hcopy. unfold answer_copy in Hcopy. rewrite Hcopy. cbn [bind].
  unfold answer_fits. cbn [mcols]. rewrite (i_ul _ _ HB), Nat.eqb_refl. cbn [assert_ bind].
  assert (E4 : map (pick 0 (seq 0 (qcols Q))) (mrows (qA Q)) = mrows (qA Q)).
  { rewrite <- (map_id (mrows (qA Q))) at 2. apply map_ext_in. intros row Hr.
    destruct (i_rows _ _ HB _ Hr) as [L _]. rewrite <- L. apply map_nth_seq. }
  rewrite E4. destruct Q as [[c r] b q bd a]. reflexivity.
Qed.

(** ** one turn of the refinement loop *)
Definition turn (Q : question) : res question :=
  Q2 <- eliminate Q ;; Q3 <- zero_in_b Q2 ;; only_1_element_in_row Q3.

(** none of the steps changes [Q] *)
Definition normal (Q : question) : Prop :=
  eliminate_body Q = Ok Q /\ zero_in_b_body Q = Ok Q /\ only_1_body Q = Ok Q.

Lemma turn_spec s Q : base s Q -> distinct Q ->
  (turn Q = NoSolution /\ forall w, ~ solw s Q w)
  \/ exists Q', turn Q = Ok Q' /\ base s Q' /\ distinct Q' /\ fits Q' /\ step s Q Q' /\ passed s Q'
       /\ (qcols Q' = qcols Q -> normal Q').
Proof.
  intros HB HD. unfold turn, eliminate.
  destruct (eliminate_body_spec s Q HB HD) as (Q2 & E2 & B2 & D2 & S2 & C2 & _ & _ & _ & N2).
  rewrite E2. cbn [bind].
  destruct (post_check_spec s Q2 B2) as [(P2 & _)|(P2 & F2)]; rewrite P2; cbn [bind].
  2:{ left. split; auto. intros w Hw. apply (F2 w), (st_sol _ _ _ S2), Hw. }
  unfold zero_in_b.
  destruct (zero_in_b_body_spec s Q2 B2) as (Q3 & E3 & B3 & D3 & S3 & N3). rewrite E3. cbn [bind].
  specialize (D3 D2).
  destruct (post_check_spec s Q3 B3) as [(P3 & _)|(P3 & F3)]; rewrite P3; cbn [bind].
  2:{ left. split; auto. intros w Hw. apply (F3 w), (st_sol _ _ _ S3), (st_sol _ _ _ S2), Hw. }
  unfold only_1_element_in_row.
  destruct (only_1_body_spec s Q3 B3) as [[E4 F4]|(Q4 & E4 & B4 & D4 & S4 & N4)]; rewrite E4; cbn [bind].
  { left. split; auto. intros w Hw. apply (F4 w), (st_sol _ _ _ S3), (st_sol _ _ _ S2), Hw. }
  specialize (D4 D3).
  destruct (post_check_spec s Q4 B4) as [P4|(P4 & F4)].
  2:{ left. split; auto. intros w Hw. apply (F4 w), (st_sol _ _ _ S4), (st_sol _ _ _ S3), (st_sol _ _ _ S2), Hw. }
  pose proof P4 as (P4e & _). rewrite P4e. right. exists Q4. split; auto. split; auto. split; auto.
  pose proof (st_cols _ _ _ S3) as C3. pose proof (st_cols _ _ _ S4) as C4. split.
  { intros H2. assert (R4 : (mnrows (qA Q4) <= mnrows (qA Q))%nat).
    { pose proof (st_rows _ _ _ S2). pose proof (st_rows _ _ _ S3). pose proof (st_rows _ _ _ S4). lia. }
    assert (3 <= qcols Q)%nat; [|pose proof (i_R _ _ HB); lia].
    destruct N4 as [[-> N4]|N4]; [|lia]. specialize (N4 D3). lia. }
  split; [eauto using step_trans|]. split; auto.
  intros EC. destruct N4 as [[-> _]|N4]; [|lia].
  destruct (N3 ltac:(lia)) as [-> Hpos].
  assert (HelimT : eliminate_body (tighten Q2) = Ok (tighten Q2)).
  { clear - N2. unfold eliminate_body in *. cbn [qA qb qquota qbounds qans tighten] in *.
    destruct (Nat.eqb (mcols (qA Q2)) 0); auto.
    destruct (elim (qA Q2) (qb Q2)) as [[Ae be]| |]; cbn [bind] in *; try discriminate.
    destruct (assert_ (nonneg be)); cbn [bind] in *; try discriminate.
    injection N2 as N2. assert (EA : Ae = qA Q2) by (rewrite <- N2; reflexivity).
    assert (Eb : be = qb Q2) by (rewrite <- N2; reflexivity). rewrite EA, Eb. reflexivity. }
  split; [exact HelimT|]. split; [|exact E4].
  destruct (zero_in_b_body_spec s (tighten Q2) B3) as (Q5 & E5 & _ & _ & S5 & N5).
  assert (C5 : qcols Q5 = qcols (tighten Q2)).
  { clear - E5 Hpos B2. unfold zero_in_b_body in E5.
    change (lower_upper_bound (mrows (qA (tighten Q2))) (qb (tighten Q2)) (qbounds (tighten Q2)))
      with (qbounds (tighten (tighten Q2))) in E5. rewrite (tighten_idem s) in E5 by auto.
    destruct (assert_ _); cbn [bind] in E5; try discriminate.
    assert (Ez : zero_bound_loc (qbounds (tighten Q2)) = []).
    { apply where_from_none. intros x Hx. specialize (Hpos _ Hx). lia. }
    rewrite Ez in E5. cbn [length] in E5.
    destruct (assert_ _); cbn [bind] in E5; try discriminate. injection E5 as <-.
    unfold qcols. simpl. lia. }
  destruct (N5 C5) as [-> _]. rewrite E5. f_equal. now apply (tighten_idem s).
Qed.

Lemma turn_normal s Q : base s Q -> normal Q -> turn Q = NoSolution \/ turn Q = Ok Q.
Proof.
  intros HB (N1 & N2 & N3). unfold turn, eliminate, zero_in_b, only_1_element_in_row.
  rewrite N1. cbn [bind].
  destruct (post_check_spec s Q HB) as [(P & _)|(P & _)]; rewrite P; cbn [bind]; auto.
  rewrite N2. cbn [bind]. rewrite P. cbn [bind]. rewrite N3. cbn [bind]. rewrite P. auto.
Qed.

Definition res_is (r : res question) (Q : question) : bool :=
  match r with Ok Q' => question_eqb Q' Q | _ => false end.
Lemma res_is_spec r Q : res_is r Q = true <-> r = Ok Q.
Proof.
  destruct r; simpl; try (split; discriminate). rewrite question_eqb_spec. split; congruence.
Qed.
Definition normalb (Q : question) : bool :=
  res_is (eliminate_body Q) Q && res_is (zero_in_b_body Q) Q && res_is (only_1_body Q) Q.
Lemma normalb_spec Q : normalb Q = true <-> normal Q.
Proof. unfold normalb, normal. rewrite !andb_true_iff, !res_is_spec. tauto. Qed.

Definition refine_mu (Q : question) : Z := 2 * Z.of_nat (qcols Q) + (if normalb Q then 0 else 1).

Lemma question_copy_ok s Q : shell s Q -> question_copy Q = Ok Q.
Proof.
  intros HB. unfold question_copy. rewrite (rooms_copy s) by apply HB. cbn [bind].
  unfold mk_question. fold (qcols Q). rewrite (i_blen _ _ HB), (i_bdlen _ _ HB), !Nat.eqb_refl. cbn [assert_ bind].
  rewrite nonneg_true by (intros x Hx; now apply (i_b _ _ HB) in Hx). cbn [assert_ bind].
  pose proof (i_quota _ _ HB). destruct (Z.leb_spec 0 (qquota Q)); [|lia]. cbn [assert_ bind].
  rewrite nonneg_true by (intros x Hx; now apply (i_bd _ _ HB) in Hx). cbn [assert_ bind].
  destruct Q; reflexivity.
Qed.

(** what holds of a question that leaves the refinement loop *)
Definition refined (s : list Z) (Q : question) : Prop :=
  base s Q /\ distinct Q /\ fits Q /\ passed s Q /\ normal Q.

(** Refinement of [Q], where the first reduce_col turns [Q] into [Q1]. *)
Lemma refine_spec s0 s Q Q1 : shell s0 Q -> reduce_col Q = Ok Q1 -> base s Q1 -> distinct Q1 ->
  (Q1 = Q \/ (qcols Q1 < qcols Q)%nat) ->
  (refine Q = NoSolution /\ forall w, ~ solw s Q1 w)
  \/ exists Q', refine Q = Ok Q' /\ refined s Q' /\ step s Q1 Q'.
Proof.
  intros HB0 HR HB1 HD1 HQ1. unfold refine.
  apply (while_spec refine_step
           (fun X => X = Q \/ (base s X /\ distinct X /\ fits X /\ step s Q1 X))
           refine_mu
           (fun r => (r = NoSolution /\ forall w, ~ solw s Q1 w)
                     \/ exists Q', r = Ok Q' /\ refined s Q' /\ step s Q1 Q')).
  - intros X _. unfold refine_mu. destruct (normalb X); lia.
  - intros X HX.
    (* reduce_col of X *)
    assert (HXc : question_copy X = Ok X).
    { destruct HX as [->|(HX & _)]; eapply question_copy_ok; eauto. }
    assert (Hred : (reduce_col X = NoSolution /\ forall w, ~ solw s Q1 w)
                   \/ exists X1, reduce_col X = Ok X1 /\ base s X1 /\ distinct X1 /\ step s Q1 X1
                       /\ (X1 = X \/ (qcols X1 < qcols X)%nat)).
    { destruct HX as [->|(BX & DX & FX & SX)].
      - right. exists Q1. conj; auto using step_refl.
      - unfold reduce_col. rewrite (reduce_col_body_id s) by auto. cbn [bind].
        destruct (post_check_spec s X BX) as [(P & _)|(P & F)].
        + right. exists X. conj; auto.
        + left. split; auto. intros w Hw. apply (F w), (st_sol _ _ _ SX), Hw. }
    unfold refine_step. rewrite HXc. cbn [bind].
    destruct Hred as [[-> F]|(X1 & -> & B1 & D1 & S1 & EX1)]; cbn [bind]; [left; auto|].
    assert (ET : forall k, (Q2 <- eliminate X1 ;; Q3 <- zero_in_b Q2 ;; Q4 <- only_1_element_in_row Q3 ;; k Q4)
                 = (bind (turn X1) k : res (question * bool))).
    { intros k. unfold turn. destruct (eliminate X1); cbn [bind]; auto. destruct (zero_in_b a); cbn [bind]; auto. }
    rewrite ET.
    destruct (turn_spec s X1 B1 D1) as [[T F]|(X4 & T & B4 & D4 & F4 & S4 & P4 & N4)]; rewrite T; cbn [bind].
    + left. split; auto. intros w Hw. apply (F w), (st_sol _ _ _ S1), Hw.
    + pose proof (st_cols _ _ _ S4) as C4.
      destruct (question_eqb X4 X) eqn:E.
      * apply question_eqb_spec in E. subst X4. right. exists X. split; auto.
        split; [|eauto using step_trans]. unfold refined. conj; auto.
        destruct EX1 as [->|EX1]; [|lia]; now apply N4.
      * assert (NE : X4 <> X) by (intros ->; rewrite (proj2 (question_eqb_spec X X) eq_refl) in E; discriminate).
        split; [right; conj; eauto using step_trans|].
        unfold refine_mu.
        destruct EX1 as [->|EX1]; [|destruct (normalb X4), (normalb X); lia].
        destruct (Nat.eq_dec (qcols X4) (qcols X)) as [EC|EC]; [|destruct (normalb X4), (normalb X); lia].
        rewrite (proj2 (normalb_spec X4) (N4 EC)).
        destruct (normalb X) eqn:NX; [|lia]. apply normalb_spec in NX.
        destruct (turn_normal s X B1 NX) as [T'|T']; rewrite T' in T; [discriminate|]. congruence.
  - left. reflexivity.
  - unfold refine_mu. fold (qcols Q).
    assert (HP := pow2_gt (qcols Q)).
    replace (Z.of_nat (qcols Q + 3)) with (Z.of_nat (qcols Q) + 3) by lia.
    rewrite Z.pow_add_r by lia. change (2 ^ 3) with 8. destruct (normalb Q); lia.
Qed.

Lemma refine_distinct s Q : base s Q -> distinct Q -> fits Q ->
  (refine Q = NoSolution /\ forall w, ~ solw s Q w)
  \/ exists Q', refine Q = Ok Q' /\ refined s Q' /\ step s Q Q'.
Proof.
  intros HB HD HF.
  assert (HR : reduce_col Q = Q' <- Ok Q ;; post_check Q') by (unfold reduce_col; now rewrite (reduce_col_body_id s)).
  cbn [bind] in HR.
  destruct (post_check_spec s Q HB) as [(P & _)|(P & F)].
  - rewrite P in HR. apply (refine_spec s s Q Q); auto.
  - left. split; auto. unfold refine, while_. rewrite P in HR.
    assert (E : forall n, iter2 n refine_step Q = inr NoSolution).
    { assert (E0 : refine_step Q = inr NoSolution).
      { unfold refine_step. rewrite (question_copy_ok s) by auto. cbn [bind]. now rewrite HR. }
      induction n as [|n IH]; simpl; auto. now rewrite IH. }
    now rewrite E.
Qed.
