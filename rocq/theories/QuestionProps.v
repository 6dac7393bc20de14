(** Proofs of the properties of single solver steps (C14-C17, C19, C20). *)
From Verif Require Import Np ModelGauss Model Spec QSpec Lib BitFacts Cone ElimFacts QFacts StepFacts ForkFacts.
From Coq Require Import ZifyBool ZifyNat Sorting.Sorted Sorting.Permutation.

(** ** Answers *)
Lemma open_unknown a : open a = unknown_loc a.
Proof. unfold open, unknown_loc. rewrite (where_filter is_unknown 0). reflexivity. Qed.

Lemma starts_diff e : forall x, starts x (diff (x :: e)) ++ [last (x :: e) 0] = x :: e.
Proof.
  induction e as [|y e IH]; intros x; [reflexivity|].
  change (diff (x :: y :: e)) with (y - x :: diff (y :: e)).
  change (last (x :: y :: e) 0) with (last (y :: e) 0). cbn [starts app].
  replace (x + (y - x)) with y by lia. now rewrite IH.
Qed.
Lemma diff_length e : forall x, length (diff (x :: e)) = length e.
Proof. induction e as [|y e IH]; intros x; [reflexivity|]. change (diff (x :: y :: e)) with (y - x :: diff (y :: e)). cbn [length]. now rewrite IH. Qed.
Lemma nth_diff e : forall x i, (i < length e)%nat -> nth i (diff (x :: e)) 0 = nth (S i) (x :: e) 0 - nth i (x :: e) 0.
Proof.
  induction e as [|y e IH]; intros x i Hi; simpl in Hi; [lia|].
  change (diff (x :: y :: e)) with (y - x :: diff (y :: e)). destruct i as [|i]; [reflexivity|].
  cbn [nth]. rewrite IH by lia. reflexivity.
Qed.
Lemma zsum_diff e : forall x, zsum (diff (x :: e)) = last (x :: e) 0 - x.
Proof.
  induction e as [|y e IH]; intros x; [unfold zsum; simpl; lia|].
  change (diff (x :: y :: e)) with (y - x :: diff (y :: e)). rewrite zsum_cons, IH.
  change (last (x :: y :: e) 0) with (last (y :: e) 0). lia.
Qed.
Lemma diff_pos e : forall x, StronglySorted Z.lt (x :: e) -> forall d, In d (diff (x :: e)) -> 1 <= d.
Proof.
  induction e as [|y e IH]; intros x H d Hd; [easy|].
  inversion H as [|? ? H1 H2]; subst. inversion H2 as [|? ? Hxy _]; subst.
  change (diff (x :: y :: e)) with (y - x :: diff (y :: e)) in Hd. destruct Hd as [<-|Hd]; [lia|]. eapply IH; eauto.
Qed.
Lemma starts_sorted s : (forall x, In x s -> 1 <= x) -> forall p,
  StronglySorted Z.lt (starts p s ++ [p + zsum s]) /\ forall x, In x (starts p s ++ [p + zsum s]) -> p <= x.
Proof.
  induction s as [|n s IH]; intros Hs p.
  - unfold zsum. simpl. rewrite Z.add_0_r. split; [repeat constructor|]. intros x [<-|[]]. lia.
  - destruct (IH ltac:(intros; apply Hs; now right) (p + n)) as [H1 H2].
    rewrite zsum_cons, Z.add_assoc. simpl. assert (1 <= n) by (apply Hs; now left). split.
    + constructor; auto. apply Forall_forall. intros x Hx. apply H2 in Hx. lia.
    + intros x [<-|Hx]; [lia|]. apply H2 in Hx. lia.
Qed.

Lemma answer_rooms a : answer_ok a -> rooms (diff (edges a)) a.
Proof.
  intros (H1 & H2 & H3). unfold edges in *.
  assert (E : aloc a ++ [alen a] = starts 0 (diff (aloc a ++ [alen a])) ++ [alen a]).
  { assert (HL : last (aloc a ++ [alen a]) 0 = alen a) by apply last_last.
    destruct (aloc a ++ [alen a]) as [|x e] eqn:Ee; [destruct (aloc a); discriminate|].
    simpl in H2. subst x. rewrite <- HL at 1. now rewrite starts_diff. }
  apply app_inj_tail in E. destruct E as [E _]. unfold rooms. conj; auto.
  - destruct (aloc a ++ [alen a]) as [|x e] eqn:Ee; [destruct (aloc a); discriminate|].
    rewrite zsum_diff, <- Ee, last_last. simpl in H2. lia.
  - rewrite E in H1 at 1. rewrite starts_length in H1. exact H1.
  - destruct (aloc a ++ [alen a]) as [|x e]; [easy|]. now apply diff_pos.
Qed.
Lemma rooms_answer s a : rooms s a -> answer_ok a /\ diff (edges a) = s.
Proof.
  intros (H1 & H2 & H3 & H4). unfold answer_ok, edges.
  pose proof (quota_of_starts s) as Hq. unfold quota_of in Hq. rewrite H1, H2. split; auto. conj.
  - now rewrite starts_length.
  - destruct s; reflexivity.
  - now apply (starts_sorted s H4 0).
Qed.
Lemma rooms_room s a i : rooms s a -> (i < length (av a))%nat -> room a i = nth i s 0.
Proof.
  intros HR Hi. destruct (rooms_answer s a HR) as [(H1 & _) <-]. unfold room, edges.
  destruct (aloc a ++ [alen a]) as [|x e] eqn:E; [destruct (aloc a); discriminate|].
  rewrite nth_diff; auto. apply (f_equal (@length Z)) in E. rewrite app_length in E. simpl in E. lia.
Qed.

(** ** Questions *)
Lemma shell_ok s Q : shell s Q -> question_ok Q.
Proof.
  intros H. pose proof (i_blen _ _ H) as HL. constructor.
  - split; [symmetry; exact HL|]. intros row Hr. now apply (i_rows _ _ H).
  - intros row Hr. now apply (i_rows _ _ H).
  - apply (i_b _ _ H).
  - apply (i_quota _ _ H).
  - split; [apply (i_bdlen _ _ H)|apply (i_bd _ _ H)].
  - now apply (rooms_answer s), (i_rooms _ _ H).
  - rewrite open_unknown. apply (i_ul _ _ H).
Qed.
Lemma ok_shell Q : question_ok Q -> shell (diff (edges (qans Q))) Q.
Proof.
  intros [[H1 H1'] H2 H3 H4 [H5 H5'] H6 H7]. constructor; auto.
  - now apply answer_rooms.
  - now rewrite <- open_unknown.
Qed.
Lemma open_values_unknowns Q w : open_values Q w = unknowns Q w.
Proof. unfold open_values, unknowns. now rewrite open_unknown. Qed.
Lemma solution_solw s Q w : shell s Q -> (solution Q w <-> solw s Q w).
Proof.
  intros HB. pose proof (i_rooms _ _ HB) as HR. pose proof HR as (_ & _ & HL & _).
  pose proof (i_blen _ _ HB) as HbL. unfold mnrows in HbL.
  split.
  - intros [S1 S2 S3 S4 S5 S6]. rewrite open_values_unknowns in *. constructor; auto.
    + split; auto. intros i Hi. destruct (Z.eq_dec (nth i (av (qans Q)) 0) UNKNOWN) as [?|Hne]; auto.
      right. apply S2; auto. lia.
    + intros i Hi. rewrite <- (rooms_room s (qans Q)) by (auto; lia). apply S3. lia.
    + destruct S4 as [S4 S4']. intros row x Hin. unfold qsys, msys in Hin.
      apply (in_combine_nth _ _ _ _ [] 0) in Hin. destruct Hin as (i & Hi & _ & <- & <-). auto.
  - intros [[W1 W1'] W2 W3 W4 W5]. constructor; rewrite ?open_values_unknowns; auto.
    + intros i Hi Hne. destruct (W1' i ltac:(lia)) as [E|E]; auto. contradiction.
    + intros i Hi. rewrite (rooms_room s (qans Q)) by (auto; lia). apply W2. lia.
    + split; [lia|]. intros i Hi. apply W3. apply nth_in_combine; auto; lia.
Qed.

(** ** C14 *)
Lemma bounds_proof A b bd : length A = length b -> (forall row, In row A -> length row = length bd) ->
  length (lower_upper_bound A b bd) = length bd
  /\ (forall j, (j < length bd)%nat ->
        nth j (lower_upper_bound A b bd) 0 <= nth j bd 0
        /\ (forall i, (i < length A)%nat -> cell A i j <> 0 -> nth j (lower_upper_bound A b bd) 0 <= nth i b 0)
        /\ (nth j (lower_upper_bound A b bd) 0 = nth j bd 0
            \/ exists i, (i < length A)%nat /\ cell A i j <> 0 /\ nth j (lower_upper_bound A b bd) 0 = nth i b 0))
  /\ lower_upper_bound A b (lower_upper_bound A b bd) = lower_upper_bound A b bd.
Proof.
  intros HL HA. set (bd' := lower_upper_bound A b bd).
  assert (HL' : length bd' = length bd) by now apply lub_length.
  assert (Hle : forall j, (j < length bd)%nat -> nth j bd' 0 <= nth j bd 0
      /\ forall i, (i < length A)%nat -> cell A i j <> 0 -> nth j bd' 0 <= nth i b 0).
  { intros j Hj. destruct (proj1 (lub_spec A b bd j (nth j bd' 0) HA Hj)) as [H1 H2]; [unfold bd'; lia|].
    split; auto. intros i Hi Hne. apply (H2 (nth i A [])); auto. apply nth_in_combine; auto; lia. }
  split; auto. split.
  - intros j Hj. destruct (Hle j Hj) as [H1 H2]. conj; auto.
    destruct (Z.eq_dec (nth j bd' 0) (nth j bd 0)) as [?|Hne]; auto. right.
    destruct (existsb (fun i => negb (cell A i j =? 0) && (nth i b 0 <=? nth j bd' 0)) (seq 0 (length A))) eqn:E.
    + apply existsb_exists in E. destruct E as (i & Hi & E). apply in_seq in Hi.
      exists i. assert (cell A i j <> 0) by lia. specialize (H2 i ltac:(lia) H). conj; auto; lia.
    + exfalso. rewrite existsb_none in E.
      assert (nth j bd' 0 + 1 <= nth j bd' 0); [|lia]. apply lub_spec; auto. split; [lia|].
      intros row x Hin Hn. apply (in_combine_nth _ _ _ _ [] 0) in Hin. destruct Hin as (i & Hi & _ & <- & <-).
      specialize (E i ltac:(apply in_seq; lia)). unfold cell in E. lia.
  - assert (HA' : forall row, In row A -> length row = length bd') by (intros r Hr; rewrite HL'; auto).
    apply nth_ext0; [now apply lub_length|]. rewrite lub_length by auto. rewrite HL'. intros j Hj.
    apply Z.le_antisymm.
    + apply (lub_spec A b bd' j (nth j (lower_upper_bound A b bd') 0) HA'); rewrite ?HL'; auto; lia.
    + apply lub_spec; auto; [now rewrite HL'|]. split; [lia|].
      intros row x Hin Hn. apply (in_combine_nth _ _ _ _ [] 0) in Hin. destruct Hin as (i & Hi & _ & <- & <-).
      apply (Hle j Hj); auto.
Qed.

Lemma dot_ge_nonneg row : forall y j, (forall a, In a row -> 0 <= a) -> (forall a, In a y -> 0 <= a) ->
  (j < length row)%nat -> (j < length y)%nat -> nth j row 0 <> 0 -> nth j y 0 <= dot row y.
Proof.
  assert (P : forall row y, (forall a, In a row -> 0 <= a) -> (forall a, In a y -> 0 <= a) -> 0 <= dot row y).
  { induction row0 as [|a r IH]; intros [|c y] Hr Hy; simpl; try lia.
    assert (0 <= a) by (apply Hr; now left). assert (0 <= c) by (apply Hy; now left).
    assert (0 <= dot r y) by (apply IH; [intros z Hz; apply Hr; now right|intros z Hz; apply Hy; now right]). nia. }
  induction row as [|a row IH]; intros [|c y] j Hr Hy Hj Hjy Hne; simpl in Hj, Hjy; try lia.
  assert (0 <= a) by (apply Hr; now left). assert (0 <= c) by (apply Hy; now left).
  assert (Hr' : forall a, In a row -> 0 <= a) by (intros z Hz; apply Hr; now right).
  assert (Hy' : forall a, In a y -> 0 <= a) by (intros z Hz; apply Hy; now right).
  destruct j as [|j]; simpl in *.
  - specialize (P row y Hr' Hy'). nia.
  - specialize (IH y j Hr' Hy' ltac:(lia) ltac:(lia) Hne). nia.
Qed.
Lemma bounds_keep_proof A b bd x : length A = length b -> (forall row, In row A -> length row = length bd) ->
  (forall row a, In row A -> In a row -> 0 <= a) -> length x = length bd -> (forall a, In a x -> 0 <= a) ->
  solves A b x -> (forall j, (j < length bd)%nat -> nth j x 0 <= nth j bd 0) ->
  forall j, (j < length bd)%nat -> nth j x 0 <= nth j (lower_upper_bound A b bd) 0.
Proof.
  intros HL HA Hpos Hx Hxp [_ Hs] Hb j Hj. apply lub_spec; auto. split; auto.
  intros row y Hin Hne. apply (in_combine_nth _ _ _ _ [] 0) in Hin. destruct Hin as (i & Hi & _ & <- & <-).
  rewrite <- Hs by auto. assert (Hr : In (nth i A []) A) by now apply nth_In.
  apply dot_ge_nonneg; auto; try lia; [eauto|]. rewrite HA by auto. lia.
Qed.

(** ** C15 *)
Lemma only_entry_single row c : only_entry row c <-> single row c.
Proof. symmetry. apply single_iff. Qed.
Lemma row_locs_proof A :
  NoDup (map snd (one_element_row_locs A))
  /\ forall r c, In (r, c) (one_element_row_locs A) <->
       (r < length A)%nat /\ only_entry (nth r A []) c
       /\ forall r', (r < r' < length A)%nat -> ~ only_entry (nth r' A []) c.
Proof.
  destruct (one_element_row_locs_ok A) as [H1 H2]. split; auto. intros r c. rewrite H2, only_entry_single.
  split; intros (L1 & L2 & L3); conj; auto; intros r' Hr'; specialize (L3 r' Hr'); now rewrite only_entry_single in *.
Qed.

(** ** C16 *)
Lemma delete_ext {A} (a b : list nat) (l : list A) : (forall i, In i a <-> In i b) -> delete a l = delete b l.
Proof.
  intros H. unfold delete. generalize 0%nat as i. induction l as [|x l IH]; intros i; simpl; auto.
  rewrite IH. assert (E : memn i a = memn i b); [|now rewrite E].
  destruct (memn i b) eqn:Eb; [apply memn_spec, H, memn_spec, Eb|apply memn_false; rewrite H; now apply memn_false].
Qed.
Lemma existsb_perm {A} (p : A -> bool) x y : Permutation x y -> existsb p x = existsb p y.
Proof.
  induction 1; simpl; auto; try congruence. now rewrite !orb_assoc, (orb_comm (p y)).
Qed.
Lemma map2_pair_map {A B C} (f : A -> B) (g : A -> C) l : map2 pair (map f l) (map g l) = map (fun x => (f x, g x)) l.
Proof. induction l as [|a l IH]; simpl; auto. now rewrite IH. Qed.
Lemma assign_all_perm ul jx jx' v : NoDup ul -> (forall i, In i ul -> (i < length v)%nat) ->
  NoDup (map fst jx) -> (forall j x, In (j, x) jx -> (j < length ul)%nat) -> Permutation jx jx' ->
  assign_all ul jx v = assign_all ul jx' v.
Proof.
  intros Hul Hv Hd Hb HP.
  assert (Hd' : NoDup (map fst jx')) by (eapply Permutation_NoDup; [|exact Hd]; now apply Permutation_map).
  assert (Hb' : forall j x, In (j, x) jx' -> (j < length ul)%nat).
  { intros j x Hin. apply (Hb j x). eapply Permutation_in; [|exact Hin]. now apply Permutation_sym. }
  apply nth_ext0; [now rewrite !assign_all_length|]. intros i Hi.
  destruct (existsb (fun p => Nat.eqb (nth (fst p) ul 0%nat) i) jx) eqn:E.
  - apply existsb_exists in E. destruct E as ([j x] & Hin & E). apply Nat.eqb_eq in E. simpl in E. subst i.
    rewrite (assign_all_here ul jx Hul Hd Hb v Hv j x Hin).
    rewrite (assign_all_here ul jx' Hul Hd' Hb' v Hv j x); auto. eapply Permutation_in; eauto.
  - assert (Ho : forall j x, In (j, x) jx -> nth j ul 0%nat <> i).
    { rewrite existsb_none in E. intros j x Hin Ej. specialize (E _ Hin). simpl in E. lia. }
    rewrite !assign_all_other; auto. intros j x Hin. apply (Ho j x). eapply Permutation_in; [|exact Hin]. now apply Permutation_sym.
Qed.

Lemma only_1_with_perm s Q rcs rcs' : shell s Q -> rcs_ok (mrows (qA Q)) rcs -> Permutation rcs rcs' ->
  only_1_with rcs Q = only_1_with rcs' Q.
Proof.
  intros HB [Hnd Hrc] HP. unfold only_1_with.
  rewrite (i_ul _ _ HB), (i_bdlen _ _ HB), Nat.eqb_refl. cbn [assert_ bind].
  assert (Hcs : forall r c, In (r, c) rcs -> (c < qcols Q)%nat).
  { intros r c Hin. destruct (Hrc r c Hin) as [H1 H2]. apply single_iff in H2. destruct H2 as [H2 _].
    destruct (i_rows _ _ HB (nth r (mrows (qA Q)) [])) as [L _]; [now apply nth_In|]. lia. }
  destruct rcs as [|rc0 l] eqn:E1.
  { apply Permutation_nil in HP. now subst. }
  destruct rcs' as [|rc1 l'] eqn:E2; [apply Permutation_sym, Permutation_nil in HP; discriminate|].
  rewrite <- E1, <- E2 in *. clear E1 E2 rc0 l rc1 l'. cbv zeta.
  assert (Ex : forall f, existsb f rcs = existsb f rcs') by (intros f; now apply existsb_perm).
  rewrite Ex.
  assert (Ez : zsum (pick 0 (map fst rcs) (qb Q)) = zsum (pick 0 (map fst rcs') (qb Q))).
  { apply zsum_perm. unfold pick. now apply Permutation_map, Permutation_map. }
  rewrite Ez.
  assert (Em : matvec (map (pick 0 (map snd rcs)) (mrows (qA Q))) (pick 0 (map fst rcs) (qb Q))
             = matvec (map (pick 0 (map snd rcs')) (mrows (qA Q))) (pick 0 (map fst rcs') (qb Q))).
  { assert (G : forall l row, dot (pick 0 (map snd l) row) (pick 0 (map fst l) (qb Q))
                = zsum (map (fun rc => nth (snd rc) row 0 * nth (fst rc) (qb Q) 0) l)).
    { clear. induction l as [|[r c] l IH]; intros row; [reflexivity|]. simpl. rewrite zsum_cons, <- IH. reflexivity. }
    unfold matvec. rewrite !map_map. apply map_ext. intros row. rewrite !G. apply zsum_perm. now apply Permutation_map. }
  rewrite Em.
  assert (Ed : forall {A} (l : list A), delete (map snd rcs) l = delete (map snd rcs') l).
  { intros A l. apply delete_ext. intros i. split; apply Permutation_in; [|apply Permutation_sym]; now apply Permutation_map. }
  assert (Edr : map (delete (map snd rcs)) (mrows (qA Q)) = map (delete (map snd rcs')) (mrows (qA Q))) by (apply map_ext; intros; apply Ed).
  rewrite Ed, Edr.
  assert (El : length (map snd rcs) = length (map snd rcs')) by (rewrite !map_length; now apply Permutation_length).
  rewrite El.
  assert (Ea : assign_all (unknown_loc (qans Q)) (map2 pair (map snd rcs) (pick 0 (map fst rcs) (qb Q))) (av (qans Q))
             = assign_all (unknown_loc (qans Q)) (map2 pair (map snd rcs') (pick 0 (map fst rcs') (qb Q))) (av (qans Q))).
  { unfold pick. rewrite !map_map, !map2_pair_map. apply assign_all_perm.
    - apply where_NoDup.
    - intros i Hi. apply in_unknown in Hi. tauto.
    - rewrite map_map. simpl. exact Hnd.
    - intros j x Hin. apply in_map_iff in Hin. destruct Hin as ([r c] & E & Hin). injection E as <- _.
      rewrite (i_ul _ _ HB). eauto.
    - now apply Permutation_map. }
  rewrite Ea.
  destruct (existsb _ rcs'); auto.
  destruct (Z.ltb_spec (qquota Q) (zsum (pick 0 (map fst rcs') (qb Q)))) as [|Hq]; auto.
  destruct (any2 _ _ _); auto.
  assert (Hx : forall l x, In x (pick 0 l (qb Q)) -> 0 <= x).
  { intros l. apply pick_pos. intros x Hx. now apply (i_b _ _ HB) in Hx. }
  rewrite (spend_ok (pick 0 (map fst rcs) (qb Q))) by (eauto; lia).
  rewrite (spend_ok (pick 0 (map fst rcs') (qb Q))) by (eauto; lia). now rewrite Ez.
Qed.

Lemma only_1_proof Q rcs : question_ok Q -> Permutation rcs (one_element_row_locs (mrows (qA Q))) ->
  only_1_with rcs Q = only_1_body Q
  /\ ((only_1_body Q = NoSolution /\ forall w, ~ solution Q w)
      \/ exists Q', only_1_body Q = Ok Q' /\ question_ok Q' /\ forall w, solution Q w <-> solution Q' w).
Proof.
  intros HQ HP. pose proof (ok_shell Q HQ) as HB.
  pose proof (locs_rcs _ _ (one_element_row_locs_ok (mrows (qA Q)))) as HR. split.
  - unfold only_1_body. symmetry. eapply only_1_with_perm; eauto. now apply Permutation_sym.
  - unfold only_1_body. destruct (only_1_with_shell _ Q _ HB HR) as [[E F]|(Q' & E & HS & Hs & _)].
    + left. split; auto. intros w Hw. apply (F w). now apply (solution_solw _ Q).
    + right. exists Q'. split; auto. split; [eapply shell_ok; eauto|]. intros w.
      rewrite (solution_solw _ Q w HB), (solution_solw _ Q' w HS). auto.
Qed.

(** the checks made after each step do not lose solutions *)
Lemma post_check_proof Q : question_ok Q ->
  post_check Q = Ok Q \/ (post_check Q = NoSolution /\ forall w, ~ solution Q w).
Proof.
  intros HQ. pose proof (ok_shell Q HQ) as HB. destruct (post_check_spec _ Q HB) as [[H _]|[H F]]; auto.
  right. split; auto. intros w Hw. apply (F w). now apply (solution_solw _ Q).
Qed.
Lemma only_1_step_proof Q : question_ok Q ->
  (only_1_element_in_row Q = NoSolution /\ forall w, ~ solution Q w)
  \/ exists Q', only_1_element_in_row Q = Ok Q' /\ question_ok Q' /\ forall w, solution Q w <-> solution Q' w.
Proof.
  intros HQ. unfold only_1_element_in_row.
  destruct (only_1_proof Q _ HQ (Permutation_refl _)) as [_ [[E F]|(Q' & E & HS & Hs)]]; rewrite E; cbn [bind]; auto.
  destruct (post_check_proof Q' HS) as [H|[H F]]; rewrite H; eauto.
  left. split; auto. intros w Hw. apply (F w). now apply Hs.
Qed.

(** ** C17 *)
Lemma fork_values_proof quota bounds loc : (loc < length bounds)%nat ->
  (forall q, In q (fork_enum_values quota bounds loc) <->
     0 <= q <= nth loc bounds 0 /\ quota - q <= zsum bounds - nth loc bounds 0)
  /\ StronglySorted Z.lt (fork_enum_values quota bounds loc).
Proof.
  intros Hl. unfold fork_enum_values. split.
  - intros q. rewrite in_zrange.
    rewrite (zsum_split [loc] bounds); [|repeat constructor; easy|intros j [<-|[]]; auto].
    unfold pick. simpl. change (zsum [nth loc bounds 0]) with (nth loc bounds 0 + 0). lia.
  - unfold zrange. generalize (Z.max 0 (quota - zsum (delete [loc] bounds))) as a. intros a.
    generalize (Z.to_nat (nth loc bounds 0 + 1 - a)) as n.
    assert (G : forall n i, StronglySorted Z.lt (map (fun i => a + Z.of_nat i) (seq i n))); [|intros; apply G].
    induction n as [|n IH]; intros i; simpl; constructor; auto.
    apply Forall_forall. intros x Hx. apply in_map_iff in Hx. destruct Hx as (k & <- & Hk). apply in_seq in Hk. lia.
Qed.

Lemma argmin_from_spec l : forall i best m pre,
  length pre = i -> (best < i)%nat -> nth best pre 0 = m ->
  (forall j, (j < i)%nat -> m <= nth j pre 0 /\ ((j < best)%nat -> m < nth j pre 0)) ->
  first_minimum (pre ++ l) (argmin_from i best m l).
Proof.
  induction l as [|x l IH]; intros i best m pre HL Hb Hm Hmin; simpl.
  - rewrite app_nil_r. split; [lia|]. rewrite Hm, HL. auto.
  - replace (pre ++ x :: l) with ((pre ++ [x]) ++ l) by now rewrite <- app_assoc.
    assert (HL' : length (pre ++ [x]) = S i) by (rewrite app_length; simpl; lia).
    assert (N1 : forall j, (j < i)%nat -> nth j (pre ++ [x]) 0 = nth j pre 0) by (intros; apply app_nth1; lia).
    assert (N2 : nth i (pre ++ [x]) 0 = x) by (rewrite app_nth2, HL, Nat.sub_diag by lia; reflexivity).
    destruct (Z.ltb_spec x m) as [Hx|Hx]; apply IH; auto.
    + intros j Hj. destruct (Nat.eq_dec j i) as [->|Hne]; [rewrite N2; lia|].
      rewrite N1 by lia. specialize (Hmin j ltac:(lia)). lia.
    + rewrite N1; auto.
    + intros j Hj. destruct (Nat.eq_dec j i) as [->|Hne]; [rewrite N2; lia|].
      rewrite N1 by lia. apply Hmin. lia.
Qed.
Lemma argmin_spec l : l <> [] -> exists m, argmin l = Ok m /\ first_minimum l m.
Proof.
  destruct l as [|x l]; intros H; [easy|]. eexists. split; [reflexivity|].
  apply (argmin_from_spec l 1 0 x [x]); auto. intros j Hj. assert (j = 0%nat) as -> by lia. simpl. lia.
Qed.

Section fork.
  Variables (s : list Z) (Q : question) (m : nat).
  Hypothesis HB : shell s Q.
  Hypothesis Hm : (m < qcols Q)%nat.
  (* the chosen unknown cannot exceed the quota *)
  Hypothesis Hq : nth m (qbounds Q) 0 <= qquota Q
                  \/ exists i, (i < length (qb Q))%nat /\ cell (mrows (qA Q)) i m = 1 /\ nth i (qb Q) 0 <= qquota Q.

  Let vals := fork_enum_values (qquota Q) (qbounds Q) m.
  Let child := fun q => Qst (Mat (mcols (qA Q) - 1) (map (delete [m]) (mrows (qA Q))))
                  (map2 (fun bv row => i8 (bv - i8 (nth m row 0 * q))) (qb Q) (mrows (qA Q)))
                  (qquota Q - q) (delete [m] (qbounds Q))
                  (Ans (set_nth (nth m (unknown_loc (qans Q)) 0%nat) q (av (qans Q))) (aloc (qans Q)) (alen (qans Q))).
  Let keepq := fun q => negb (existsb (fun x => x <? 0) (qb (child q))).

  Lemma fk_vals q : In q vals <-> 0 <= q <= nth m (qbounds Q) 0 /\ qquota Q - q <= zsum (qbounds Q) - nth m (qbounds Q) 0.
  Proof. apply fork_values_proof. now rewrite (i_bdlen _ _ HB). Qed.
  Lemma fk_bound : 0 <= nth m (qbounds Q) 0 <= 127.
  Proof. apply (i_bd _ _ HB), nth_In. now rewrite (i_bdlen _ _ HB). Qed.
  Lemma fk_b q i : In q vals -> (i < length (qb Q))%nat ->
    nth i (qb (child q)) 0 = nth i (qb Q) 0 - cell (mrows (qA Q)) i m * q.
  Proof.
    intros Hv Hi. apply fk_vals in Hv. pose proof fk_bound. simpl.
    pose proof (i_blen _ _ HB) as HL. unfold mnrows in HL.
    rewrite (nth_map2 _ _ _ _ 0 []) by lia.
    assert (Hin : In (nth i (mrows (qA Q)) [], nth i (qb Q) 0) (qsys Q)) by (apply nth_in_combine; auto; lia).
    destruct (qsys_good _ _ _ _ HB Hin) as (L & Bt & Hr). unfold cell.
    destruct (Bt (nth m (nth i (mrows (qA Q)) []) 0)) as [E|E]; [apply nth_In; lia| |];
      rewrite E; [rewrite (i8_id (0 * q))|rewrite (i8_id (1 * q))]; try lia; rewrite i8_id by lia; lia.
  Qed.
  Lemma fk_blen q : length (qb (child q)) = length (qb Q).
  Proof. simpl. rewrite map2_length. pose proof (i_blen _ _ HB) as HL. unfold mnrows in HL. lia. Qed.
  Lemma fk_sub q : In q vals -> substituted [m] [q] Q (child q).
  Proof.
    intros Hv. constructor; try reflexivity; auto using fk_blen.
    - intros i Hi. rewrite fk_b by auto. simpl. unfold cell. lia.
    - unfold zsum; simpl; lia.
  Qed.
  Lemma fk_keep q : keepq q = true <-> forall x, In x (qb (child q)) -> 0 <= x.
  Proof.
    unfold keepq. rewrite negb_true_iff, existsb_none. split; intros H x Hx; specialize (H x Hx); lia.
  Qed.
  Lemma fk_quota q : In q vals -> keepq q = true -> 0 <= qquota Q - q.
  Proof.
    intros Hv Hk. rewrite fk_keep in Hk. destruct Hq as [H|(i & Hi & Hc & Hb)].
    - apply fk_vals in Hv. lia.
    - specialize (Hk (nth i (qb (child q)) 0) ltac:(apply nth_In; now rewrite fk_blen)).
      rewrite fk_b, Hc in Hk by auto. lia.
  Qed.
  Lemma fk_shell q : In q vals -> keepq q = true -> shell s (child q).
  Proof.
    intros Hv Hk. apply (su_shell s [m] [q] Q (child q)); auto using fk_sub.
    - repeat constructor; easy.
    - intros j [<-|[]]; auto.
    - intros x [<-|[]]. apply fk_vals in Hv. lia.
    - now apply fk_keep.
    - now apply fk_quota.
  Qed.
  Lemma fk_one q : In q vals -> fork_one Q m q = Ok (if keepq q then Some (child q) else None).
  Proof.
    intros Hv. unfold fork_one.
    change (map2 (fun bv row => i8 (bv - i8 (nth m row 0 * q))) (qb Q) (mrows (qA Q))) with (qb (child q)).
    destruct (existsb (fun x => x <? 0) (qb (child q))) eqn:E; unfold keepq; rewrite E; [reflexivity|]. cbn [negb].
    assert (Hk : keepq q = true) by (unfold keepq; now rewrite E).
    rewrite (rooms_copy s) by apply (i_rooms _ _ HB). cbn [bind].
    pose proof (fk_shell q Hv Hk) as HB'. unfold mk_question.
    change (delete [m] (qbounds Q)) with (qbounds (child q)).
    change (Mat (mcols (qA Q) - 1) (map (delete [m]) (mrows (qA Q)))) with (qA (child q)).
    change (qquota Q - q) with (qquota (child q)).
    fold (qcols (child q)). rewrite (i_blen _ _ HB'), (i_bdlen _ _ HB'), !Nat.eqb_refl. cbn [assert_ bind].
    rewrite (nonneg_true (qb (child q))) by now apply fk_keep.
    rewrite (nonneg_true (qbounds (child q))) by (intros x Hx; now apply (i_bd _ _ HB') in Hx). cbn [assert_ bind].
    pose proof (i_quota _ _ HB') as HQ'. destruct (Z.leb_spec 0 (qquota (child q))); [|lia]. reflexivity.
  Qed.
  Lemma fk_sol q w : In q vals -> keepq q = true ->
    (solw s (child q) w <-> solw s Q w /\ nth m (unknowns Q w) 0 = q).
  Proof.
    intros Hv Hk. pose proof (fk_sub q Hv) as HS.
    assert (Hnd : NoDup [m]) by (repeat constructor; easy).
    assert (Hcs : forall j, In j [m] -> (j < qcols Q)%nat) by (intros j [<-|[]]; auto).
    assert (Hx : forall x, In x [q] -> 0 <= x) by (intros x [<-|[]]; apply fk_vals in Hv; lia).
    split.
    - intros Hw. destruct (su_sol_inv s [m] [q] Q (child q) HB HS Hnd Hcs eq_refl Hx w) as [H1 H2]; auto.
      { intros i Hi. simpl in Hi. assert (i = 0%nat) as -> by lia. simpl. apply fk_vals in Hv. lia. }
      split; auto. simpl in H2. now injection H2.
    - intros [Hw E]. apply (su_sol s [m] [q] Q (child q)); auto. simpl. now rewrite E.
  Qed.
  Lemma fk_all w : solw s Q w -> In (nth m (unknowns Q w) 0) (filter keepq vals).
  Proof.
    intros Hw.
    assert (LU : length (unknowns Q w) = qcols Q) by (rewrite unknowns_length; apply (i_ul _ _ HB)).
    assert (Hpos : forall x, In x (unknowns Q w) -> 0 <= x).
    { apply pick_pos. apply (solw_pos s Q); auto. apply (i_rooms _ _ HB). }
    set (q := nth m (unknowns Q w) 0).
    assert (Hv : In q vals).
    { apply fk_vals. split; [split; [apply Hpos, nth_In; lia|now apply (sw_bd _ _ _ Hw)]|].
      rewrite <- (sw_quota _ _ _ Hw).
      rewrite (zsum_split [m] (unknowns Q w)); [|repeat constructor; easy|intros j [<-|[]]; lia].
      rewrite (zsum_split [m] (qbounds Q)); [|repeat constructor; easy|intros j [<-|[]]; rewrite (i_bdlen _ _ HB); lia].
      assert (HK : length (keep [m] (qcols Q)) = (qcols Q - 1)%nat) by (apply (keep_length [m]); [repeat constructor; easy|intros j [<-|[]]; auto]).
      assert (zsum (delete [m] (unknowns Q w)) <= zsum (delete [m] (qbounds Q))).
      { rewrite !(delete_pick 0), LU, (i_bdlen _ _ HB).
        apply zsum_le_nth; [now rewrite !pick_length|]. rewrite pick_length. intros i Hi. rewrite !nth_pick by auto.
        apply (sw_bd _ _ _ Hw). assert (In (nth i (keep [m] (qcols Q)) 0%nat) (keep [m] (qcols Q))) as Hin by (apply nth_In; lia).
        apply in_keep in Hin. tauto. }
      unfold pick. cbn [map]. fold q. change (zsum [q]) with (q + 0). change (zsum [nth m (qbounds Q) 0]) with (nth m (qbounds Q) 0 + 0). lia. }
    apply filter_In. split; auto. apply fk_keep. intros x Hx. apply (In_nth _ _ 0) in Hx. destruct Hx as (i & Hi & <-).
    rewrite fk_blen in Hi. rewrite fk_b by auto.
    pose proof (i_blen _ _ HB) as HL. unfold mnrows in HL.
    assert (Hin : In (nth i (mrows (qA Q)) [], nth i (qb Q) 0) (qsys Q)) by (apply nth_in_combine; auto; lia).
    pose proof (sw_sys _ _ _ Hw _ _ Hin) as E. destruct (qsys_good _ _ _ _ HB Hin) as (L & Bt & _).
    pose proof (dot_nonneg (nth i (mrows (qA Q)) []) (unknowns Q w) Bt Hpos) as Hd.
    unfold cell. destruct (Bt (nth m (nth i (mrows (qA Q)) []) 0)) as [E1|E1]; [apply nth_In; lia| |]; rewrite E1; [lia|].
    pose proof (dot_ge (nth i (mrows (qA Q)) []) (unknowns Q w) m Bt Hpos ltac:(lia) E1). fold q in H. lia.
  Qed.
  Lemma fk_value q : (nth m (unknown_loc (qans Q)) 0 < length (av (qans Q)))%nat ->
    nth (nth m (unknown_loc (qans Q)) 0%nat) (av (qans (child q))) 0 = q.
  Proof.
    intros H. simpl. rewrite nth_set_nth, Nat.eqb_refl. apply Nat.ltb_lt in H. now rewrite H.
  Qed.

  Lemma fork_shell : argmin (qbounds Q) = Ok m -> post_check Q = Ok Q ->
    exists qs, fork_enum Q = Ok qs /\
      Forall2 (fun q Q' => shell s Q' /\ nth (nth m (unknown_loc (qans Q)) 0%nat) (av (qans Q')) 0 = q
                 /\ forall w, solw s Q' w <-> solw s Q w /\ nth m (unknowns Q w) 0 = q)
        (filter keepq vals) qs.
  Proof.
    intros Em HP. exists (map child (filter keepq vals)). split.
    - unfold fork_enum. rewrite HP. cbn [bind]. rewrite (i_ul _ _ HB).
      destruct (Nat.ltb_spec 0 (qcols Q)); [|lia]. cbn [assert_ bind]. rewrite Em. cbn [bind].
      fold vals. rewrite (mapM_ok _ (fun q => if keepq q then Some (child q) else None)) by apply fk_one.
      cbn [bind]. f_equal. generalize vals as l. induction l as [|q l IH]; simpl; auto.
      rewrite IH. destruct (keepq q); reflexivity.
    - assert (Hl : (nth m (unknown_loc (qans Q)) 0 < length (av (qans Q)))%nat).
      { assert (In (nth m (unknown_loc (qans Q)) 0%nat) (unknown_loc (qans Q))) as Hin by (apply nth_In; now rewrite (i_ul _ _ HB)).
        apply in_unknown in Hin. tauto. }
      assert (G : forall l, (forall q, In q l -> In q vals /\ keepq q = true) ->
        Forall2 (fun q Q' => shell s Q' /\ nth (nth m (unknown_loc (qans Q)) 0%nat) (av (qans Q')) 0 = q
                 /\ forall w, solw s Q' w <-> solw s Q w /\ nth m (unknowns Q w) 0 = q) l (map child l)).
      { induction l as [|q l IH]; intros Hl'; simpl; constructor.
        - destruct (Hl' q ltac:(now left)) as [Hv Hk]. conj; auto using fk_shell.
          + now apply fk_value.
          + intros w. now apply fk_sol.
        - apply IH. intros; apply Hl'; now right. }
      apply G. intros q Hin. now apply filter_In in Hin.
  Qed.
End fork.

Lemma Forall2_mono {A B} (P R : A -> B -> Prop) : (forall a b, P a b -> R a b) ->
  forall x y, Forall2 P x y -> Forall2 R x y.
Proof. intros H x y. induction 1; constructor; auto. Qed.
Lemma sorted_filter_Z (p : Z -> bool) l : StronglySorted Z.lt l -> StronglySorted Z.lt (filter p l).
Proof.
  induction 1 as [|x l H IH HF]; simpl; [constructor|]. destruct (p x); auto. constructor; auto.
  apply Forall_forall. intros y Hy. apply filter_In in Hy. rewrite Forall_forall in HF. apply HF. tauto.
Qed.

Lemma fork_proof Q : question_ok Q -> (1 <= mcols (qA Q))%nat ->
  (forall m, first_minimum (qbounds Q) m -> nth m (qbounds Q) 0 <= qquota Q
     \/ exists i, (i < length (qb Q))%nat /\ cell (mrows (qA Q)) i m = 1 /\ nth i (qb Q) 0 <= qquota Q) ->
  (fork_enum Q = NoSolution /\ forall w, ~ solution Q w)
  \/ exists qs m vals, fork_enum Q = Ok qs /\ first_minimum (qbounds Q) m /\ StronglySorted Z.lt vals
     /\ Forall2 (fun q Q' => question_ok Q'
          /\ nth (nth m (open (qans Q)) 0%nat) (av (qans Q')) 0 = q
          /\ forall w, solution Q' w <-> solution Q w /\ nth (nth m (open (qans Q)) 0%nat) w 0 = q) vals qs
     /\ forall w, solution Q w -> In (nth (nth m (open (qans Q)) 0%nat) w 0) vals.
Proof.
  intros HQ HC Hq. pose proof (ok_shell Q HQ) as HB.
  destruct (post_check_proof Q HQ) as [HP|[HP F]].
  2:{ left. split; auto. unfold fork_enum. now rewrite HP. }
  right. destruct (argmin_spec (qbounds Q)) as (m & Em & Hm).
  { intros E. pose proof (i_bdlen _ _ HB) as HL. rewrite E in HL. unfold qcols in HL. simpl in HL. lia. }
  assert (Hml : (m < qcols Q)%nat) by (rewrite <- (i_bdlen _ _ HB); apply Hm).
  destruct (fork_shell _ Q m HB Hml (Hq m Hm) Em HP) as (qs & E & HF).
  assert (Hn : forall w, nth m (unknowns Q w) 0 = nth (nth m (open (qans Q)) 0%nat) w 0).
  { intros w. unfold unknowns. rewrite nth_pick by now rewrite (i_ul _ _ HB). now rewrite open_unknown. }
  eexists qs, m, _. split; [exact E|]. split; [exact Hm|]. split; [|split].
  - apply sorted_filter_Z. apply (fork_values_proof (qquota Q) (qbounds Q) m). apply Hm.
  - eapply Forall2_mono; [|exact HF]. cbv beta. intros q Q' (H1 & H2 & H3). rewrite open_unknown. conj; auto.
    + eapply shell_ok; eauto.
    + intros w. rewrite (solution_solw _ Q' w H1), (solution_solw _ Q w HB), H3, Hn, open_unknown. reflexivity.
  - intros w Hw. rewrite <- Hn. eapply fk_all; eauto. now apply (solution_solw _ Q).
Qed.

(** ** C19 *)
Lemma nth_bucket n c o : 0 <= c <= n -> (o < Z.to_nat n)%nat -> nth o (bucket n c) 0 = if Z.of_nat o <? c then 1 else 0.
Proof.
  intros Hc Ho. unfold bucket. destruct (Z.ltb_spec (Z.of_nat o) c) as [L|L].
  - rewrite app_nth1 by (rewrite repeat_length; lia). apply nth_repeat_lt. lia.
  - rewrite app_nth2 by (rewrite repeat_length; lia). apply nth_repeat.
Qed.
Lemma nth_expand s : forall w, length w = length s ->
  (forall i, (i < length s)%nat -> 0 <= nth i w 0 <= nth i s 0) ->
  forall p i o, 0 <= p -> (i < length s)%nat -> 0 <= o < nth i s 0 ->
    nth (Z.to_nat (nth i (starts p s) 0 + o - p)) (expand s w) 0 = if o <? nth i w 0 then 1 else 0.
Proof.
  induction s as [|n s IH]; intros [|c w] HL H p i o Hp Hi Ho; simpl in HL, Hi; try lia.
  pose proof (H 0%nat ltac:(simpl; lia)) as H0. simpl in H0.
  assert (Hs : forall i, (i < length s)%nat -> 0 <= nth i w 0 <= nth i s 0) by (intros k Hk; apply (H (S k)); simpl; lia).
  unfold expand. cbn [map2 concat starts]. fold (expand s w). destruct i as [|i]; cbn [nth] in *.
  - replace (p + o - p) with o by lia. rewrite app_nth1 by (rewrite bucket_length; lia).
    rewrite nth_bucket by lia. rewrite Z2Nat.id by lia. reflexivity.
  - assert (Hst : forall s p i, (i < length s)%nat -> (forall k, (k < length s)%nat -> 0 <= nth k s 0) -> p <= nth i (starts p s) 0).
    { clear. induction s as [|n s IH]; intros p i Hi Hk; simpl in Hi; [lia|]. destruct i as [|i]; simpl; [lia|].
      specialize (IH (p + n) i ltac:(lia) ltac:(intros k Hk'; apply (Hk (S k)); simpl; lia)).
      pose proof (Hk 0%nat ltac:(simpl; lia)). simpl in *. lia. }
    assert (Hge : p + n <= nth i (starts (p + n) s) 0) by (apply Hst; [lia|]; intros k Hk; specialize (Hs k Hk); lia).
    rewrite app_nth2 by (rewrite bucket_length; lia). rewrite bucket_length by lia.
    rewrite <- (IH w ltac:(lia) Hs (p + n) i o) by lia. f_equal. lia.
Qed.

Lemma binarize_proof a : answer_ok a ->
  (forall i, (i < length (av a))%nat -> 0 <= nth i (av a) 0 <= room a i) ->
  exists x, binarize a = Ok x /\ Z.of_nat (length x) = alen a /\ bits x
    /\ forall i p, (i < length (av a))%nat -> nth i (edges a) 0 <= p < nth (S i) (edges a) 0 ->
         nth (Z.to_nat p) x 0 = if p <? nth i (edges a) 0 + nth i (av a) 0 then 1 else 0.
Proof.
  intros HA Hv. pose proof (answer_rooms a HA) as HR. set (s := diff (edges a)) in *.
  pose proof HR as (H1 & H2 & H3 & H4).
  assert (Hr : forall i, (i < length s)%nat -> 0 <= nth i (av a) 0 <= nth i s 0).
  { intros i Hi. rewrite <- (rooms_room s a) by (auto; lia). apply Hv. lia. }
  exists (expand s (av a)). split; [now apply binarize_spec|].
  assert (Hz : 0 <= zsum s) by (apply zsum_nonneg; intros x Hx; apply H4 in Hx; lia).
  split; [rewrite expand_length by auto; lia|]. split.
  - assert (G : forall s w, bits (expand s w)); [|apply G]. clear.
    unfold expand. induction s as [|n s IH]; intros [|c w] b Hb; simpl in Hb; try easy.
    apply in_app_iff in Hb. destruct Hb as [Hb|Hb]; [|eapply IH; eauto]. unfold bucket in Hb.
    apply in_app_iff in Hb. destruct Hb as [Hb|Hb]; apply repeat_spec in Hb; [right|left]; auto.
  - intros i p Hi Hp.
    assert (Ei : nth i (edges a) 0 = nth i (starts 0 s) 0).
    { unfold edges. rewrite app_nth1; [now rewrite H1|]. rewrite H1, starts_length. lia. }
    pose proof (rooms_room s a i HR Hi) as Hroom. unfold room in Hroom.
    pose proof (nth_expand s (av a) ltac:(lia) Hr 0 i (p - nth i (edges a) 0) ltac:(lia) ltac:(lia) ltac:(lia)) as E.
    rewrite <- Ei in E. replace (nth i (edges a) 0 + (p - nth i (edges a) 0) - 0) with p in E by lia. rewrite E.
    destruct (Z.ltb_spec p (nth i (edges a) 0 + nth i (av a) 0)), (Z.ltb_spec (p - nth i (edges a) 0) (nth i (av a) 0)); lia.
Qed.
Lemma binarize_inj_proof a a' x : answer_ok a -> answer_ok a' -> aloc a = aloc a' -> alen a = alen a' ->
  (forall i, (i < length (av a))%nat -> 0 <= nth i (av a) 0 <= room a i) ->
  (forall i, (i < length (av a'))%nat -> 0 <= nth i (av a') 0 <= room a' i) ->
  binarize a = Ok x -> binarize a' = Ok x -> a = a'.
Proof.
  intros HA HA' El En Hv Hv' E E'.
  pose proof (answer_rooms a HA) as HR. pose proof (answer_rooms a' HA') as HR'.
  assert (Es : diff (edges a') = diff (edges a)) by (unfold edges; now rewrite El, En). rewrite Es in HR'.
  set (s := diff (edges a)) in *. pose proof HR as (_ & _ & H3 & _). pose proof HR' as (_ & _ & H3' & _).
  assert (Hr : forall i, (i < length s)%nat -> 0 <= nth i (av a) 0 <= nth i s 0).
  { intros i Hi. rewrite <- (rooms_room s a) by (auto; lia). apply Hv. lia. }
  assert (Hr' : forall i, (i < length s)%nat -> 0 <= nth i (av a') 0 <= nth i s 0).
  { intros i Hi. rewrite <- (rooms_room s a') by (auto; lia). apply Hv'. lia. }
  rewrite (binarize_spec s a HR Hr) in E. rewrite (binarize_spec s a' HR' Hr') in E'.
  assert (Ev : av a = av a') by (apply (expand_inj s); auto; congruence).
  destruct a, a'. simpl in *. congruence.
Qed.
(** ... and it refuses everything else *)
Lemma binarize_reject_proof a : answer_ok a ->
  (exists i, (i < length (av a))%nat /\ (nth i (av a) 0 = -1 \/ room a i < nth i (av a) 0)) ->
  binarize a = Raise AssertionError.
Proof.
  intros HA (i & Hi & Hbad). pose proof (answer_rooms a HA) as HR. set (s := diff (edges a)) in *.
  pose proof HR as (_ & _ & H3 & _).
  unfold binarize. destruct (forallb _ (av a)) eqn:Ef; [|reflexivity]. cbn [assert_ bind].
  rewrite (rooms_quota s) by auto. cbn [bind].
  destruct (any2 Z.gtb (av a) s) eqn:E; [reflexivity|]. exfalso.
  rewrite any2_gtb_false in E by auto. specialize (E i Hi). rewrite <- (rooms_room s a) in E by auto.
  destruct Hbad as [Hu|Hu]; [|lia]. rewrite forallb_forall in Ef.
  specialize (Ef (nth i (av a) 0) ltac:(now apply nth_In)). rewrite Hu in Ef. discriminate.
Qed.

(** ** C20 *)
Lemma mk_answer_proof v loc len :
  (mk_answer v loc len = Ok (Ans v loc len) \/ mk_answer v loc len = Raise AssertionError)
  /\ (mk_answer v loc len = Ok (Ans v loc len) <->
      length v = length loc
      /\ (loc = [] \/ (hd 0 loc = 0 /\ last loc 0 < len
            /\ forall i, (S i < length loc)%nat -> nth i loc 0 <> nth (S i) loc 0))).
Proof.
  unfold mk_answer. destruct (Nat.eqb_spec (length v) (length loc)) as [HL|HL]; cbn [assert_ bind].
  2:{ split; auto. split; [discriminate|]. intros [H _]. lia. }
  destruct loc as [|l0 loc]; cbn [bind]; [split; auto; split; auto|].
  destruct (Z.eqb_spec l0 0) as [E0|E0]; cbn [assert_ bind].
  2:{ split; auto. split; [discriminate|]. intros [_ [H|[H _]]]; [discriminate|]. simpl in H. lia. }
  assert (Hd : forallb (fun d => negb (d =? 0)) (diff (l0 :: loc)) = true
          <-> forall i, (S i < length (l0 :: loc))%nat -> nth i (l0 :: loc) 0 <> nth (S i) (l0 :: loc) 0).
  { rewrite forallb_forall. split.
    - intros H i Hi. specialize (H (nth i (diff (l0 :: loc)) 0)). rewrite nth_diff in H by (simpl in Hi; lia).
      specialize (H ltac:(rewrite <- nth_diff by (simpl in Hi; lia); apply nth_In; rewrite diff_length; simpl in Hi; lia)). lia.
    - intros H d Hin. apply (In_nth _ _ 0) in Hin. destruct Hin as (i & Hi & <-). rewrite diff_length in Hi.
      rewrite nth_diff by auto. specialize (H i ltac:(simpl; lia)). lia. }
  destruct (forallb _ (diff (l0 :: loc))) eqn:Ef; cbn [assert_ bind].
  2:{ split; auto. split; [discriminate|]. intros [_ [H|(_ & _ & H)]]; [discriminate|]. apply Hd in H. discriminate. }
  destruct (Z.ltb_spec (last (l0 :: loc) 0) len) as [Hlt|Hge]; cbn [assert_ bind].
  - split; auto. split; auto. intros _. split; auto. right. conj; auto. now apply Hd.
  - split; auto. split; [discriminate|]. intros [_ [H|(_ & H & _)]]; [discriminate|]. lia.
Qed.
Lemma mk_answer_increasing_proof v loc len : length v = length loc -> StronglySorted Z.lt (loc ++ [len]) ->
  hd 0 loc = 0 -> mk_answer v loc len = Ok (Ans v loc len).
Proof.
  intros HL HS Hh. apply mk_answer_proof. split; auto. destruct loc as [|l0 loc]; auto. right.
  assert (G : forall l, StronglySorted Z.lt l -> forall i, (S i < length l)%nat -> nth i l 0 < nth (S i) l 0).
  { clear. induction 1 as [|x l H IH HF]; intros i Hi; simpl in Hi; [lia|]. destruct i as [|i].
    - rewrite Forall_forall in HF. simpl. apply HF, nth_In. lia.
    - apply (IH i). lia. }
  conj; auto.
  - pose proof (G _ HS (length loc)) as H. rewrite app_length in H. simpl length in H. specialize (H ltac:(lia)).
    rewrite app_nth1 in H by (simpl; lia). rewrite app_nth2 in H by (simpl; lia). simpl length in H.
    rewrite Nat.sub_diag in H. simpl nth at 2 in H.
    assert (E : last (l0 :: loc) 0 = nth (length loc) (l0 :: loc) 0); [|now rewrite E].
    clear. revert l0. induction loc as [|y loc IH]; intros l0; [reflexivity|]. apply (IH y).
  - intros i Hi. specialize (G _ HS i). rewrite app_length in G. specialize (G ltac:(lia)).
    rewrite !app_nth1 in G by lia. lia.
Qed.
