(** C34: nothing wraps around in a search of admissible size. *)
From Verif Require Import Np ModelGauss Model ModelWidth Spec Lib BitFacts Cone ElimFacts QFacts StepFacts ForkFacts GroupFacts LevelFacts SolveFacts AnyFacts WidthFacts.
From Coq Require Import ZifyBool ZifyNat.

Lemma filter_idem {A} (f : A -> bool) l : filter f (filter f l) = filter f l.
Proof. induction l as [|a l IH]; simpl; auto. destruct (f a) eqn:E; simpl; rewrite ?E, IH; auto. Qed.
Lemma filter_len {A} (f : A -> bool) l : (length (filter f l) <= length l)%nat.
Proof. induction l as [|a l IH]; simpl; auto. destruct (f a); simpl; lia. Qed.
Lemma pack_zeros r : (forall a, In a r -> a = 0) -> pack r = 0.
Proof.
  induction r as [|a r IH]; intros H; [reflexivity|]. cbn [pack]. rewrite (H a (or_introl eq_refl)), IH by (intros; apply H; now right).
  rewrite Z.shiftl_0_l. reflexivity.
Qed.

(** ** every step keeps a question slim *)
Lemma eliminate_slim s Q Q' : base s Q -> narrow Q -> eliminate_body Q = Ok Q' -> slim Q'.
Proof.
  intros HB HN HE. pose proof (i_C _ _ HB) as H63. unfold eliminate_body in HE.
  destruct (Nat.eqb_spec (mcols (qA Q)) 0) as [E0|E0].
  { injection HE as <-. left. unfold qcols. lia. }
  destruct (elim (qA Q) (qb Q)) as [[Ae be]| |] eqn:E; try discriminate. cbn [bind] in HE.
  destruct (assert_ (nonneg be)); try discriminate. cbn [bind] in HE. injection HE as <-.
  destruct (Nat.lt_ge_cases (qcols Q) 2) as [L2|L2].
  { left. destruct (elim_spec (qcols Q) (qA Q) (qb Q)) as (A' & b' & HE & HR); auto.
    - unfold qcols in *. lia.
    - apply (i_blen _ _ HB).
    - apply (i_rows _ _ HB).
    - apply (i_b _ _ HB).
    - destruct (column_row s Q 0 HB ltac:(unfold qcols in *; lia)) as (row & x & Hin & H1 & _).
      exists row. split; auto. now apply in_combine_l in Hin.
    - rewrite E in HE. injection HE as <- <-. unfold qcols. cbn [qA]. destruct HR as [R1 _]. unfold qcols in *. lia. }
  right. cbn [qA]. unfold elim in E.
  destruct (encode (qA Q) (qb Q)) as [E1| |] eqn:E3; try discriminate. cbn [bind] in E.
  destruct (wd_entries s Q HB E1 ltac:(lia) E3) as (HG & HK & HL).
  destruct (elim_core _ E1) as [EE| |] eqn:E4; try discriminate. cbn [bind] in E.
  set (F := remove_zerokeys E1) in *.
  assert (HF : elim_core (2 * mnrows (qA Q) + mcols (qA Q) + 1) F = Ok EE).
  { rewrite <- E4. unfold elim_core, F, remove_zerokeys. now rewrite filter_idem. }
  assert (HGF : Forall (good (qcols Q) 127) F).
  { apply Forall_forall. intros e He. apply filter_In in He. rewrite Forall_forall in HG. now apply HG. }
  assert (HLF : (length F <= length E1)%nat) by apply filter_len.
  destruct (elim_core_spec (qcols Q) 127 (mnrows (qA Q)) F HGF ltac:(lia)) as (E' & C1 & _ & _ & C2 & _).
  unfold qcols in C1. rewrite HF in C1. injection C1 as <-. pose proof (red_len _ _ _ _ C2) as C3.
  assert (HA : mnrows Ae = length EE).
  { unfold decode in E. destruct EE as [|e0 EE]; [discriminate|]. injection E as <- _. unfold mnrows. cbn [mrows].
    simpl. now rewrite !map_length. }
  rewrite HA. destruct HN as [?|[?|[H64 H0]]]; [lia|lia|].
  assert (length F <= 63)%nat; [|lia]. unfold F, remove_zerokeys.
  clear - HL HK H64 H0. unfold mnrows in *. destruct (mrows (qA Q)) as [|r rs]; destruct E1 as [|e E1]; simpl in HL; try discriminate; [simpl; lia|].
  cbn [map hd] in *. injection HK as HK _. rewrite pack_zeros in HK by auto. cbn [filter]. rewrite HK. simpl.
  pose proof (filter_len (fun e => 0 <? ekey e) E1). simpl in *. lia.
Qed.
Lemma zero_slim Q Q' : zero_in_b_body Q = Ok Q' -> slim Q -> slim Q'.
Proof.
  unfold zero_in_b_body, slim, qcols, mnrows. intros H. inv_bind H. inv_bind H. injection H as <-. cbn [qA mrows mcols].
  rewrite map_length. lia.
Qed.
Lemma only1_slim Q Q' : only_1_body Q = Ok Q' -> slim Q -> slim Q'.
Proof.
  unfold only_1_body, only_1_with, slim, qcols, mnrows. intros H. inv_bind H.
  destruct (one_element_row_locs _) as [|rc rcs]; [injection H as <-; auto|].
  destruct (existsb _ _); [discriminate|]. destruct (_ <? _); [discriminate|]. destruct (any2 _ _ _); [discriminate|].
  inv_bind H. inv_bind H. inv_bind H. injection H as <-. cbn [qA mrows mcols]. rewrite !map_length. lia.
Qed.

(** ** refine *)
Definition wq (s : list Z) (Q : question) : Prop := base s Q /\ distinct Q /\ narrow Q.
Record ready (s : list Z) (Q : question) : Prop := {
  rd_copy : question_copy_w Q = question_copy Q;
  rd_red : reduce_col_w Q = reduce_col Q;
  rd_out : forall Q1, reduce_col Q = Ok Q1 -> wq s Q1 }.

Lemma groups_len enc : forall g, In g (groups enc) -> (length g <= length enc)%nat.
Proof.
  unfold groups.
  assert (G : forall kjs d n, (forall ls, In ls (map snd d) -> (length ls <= n)%nat) ->
    forall ls, In ls (map snd (fold_left (fun d kj => group_add (fst kj) (snd kj) d) kjs d)) -> (length ls <= n + length kjs)%nat).
  { induction kjs as [|[k j] kjs IH]; intros d n Hd ls Hin; simpl in *; [specialize (Hd ls Hin); lia|].
    apply (IH _ (S n)) in Hin; [lia|]. clear - Hd. intros ls Hin.
    induction d as [|[k' ls'] d IHd]; simpl in *.
    - destruct Hin as [<-|[]]. simpl. lia.
    - destruct (k' =? k); simpl in Hin.
      + destruct Hin as [<-|Hin]; [rewrite app_length; simpl; specialize (Hd ls' (or_introl eq_refl)); lia|].
        specialize (Hd ls (or_intror Hin)). lia.
      + destruct Hin as [<-|Hin]; [specialize (Hd ls' (or_introl eq_refl)); lia|].
        apply IHd; auto. }
  intros g Hg. apply (G _ [] 0%nat) in Hg; [|easy]. rewrite map2_length, seq_length in Hg. lia.
Qed.

Lemma wq_ready s Q : zsum s <= 63 -> wq s Q -> ready s Q.
Proof.
  intros Hs (HB & HD & HN).
  assert (HF : fits Q) by (intros L2; unfold narrow, mnrows in *; destruct HN as [?|[?|[? _]]]; lia).
  assert (HR : reduce_col_body Q = Ok Q) by now apply (reduce_col_body_id s).
  constructor.
  - now apply (wd_qcopy s).
  - unfold reduce_col_w, reduce_col. rewrite (wd_reduce_body s Q HB Hs HN).
    + rewrite HR. cbn [bind]. now apply (wd_post s).
    + intros enc g HE Hg. unfold unique_encode in HE. destruct (Nat.eqb (mnrows (qA Q)) 0) eqn:E0; [discriminate|]. injection HE as <-.
      destruct (Nat.lt_ge_cases (qcols Q) 2) as [L2|L2].
      * apply groups_len in Hg. rewrite map_length, seq_length in Hg. unfold qcols in L2.
        destruct g as [|j [|]]; simpl in Hg; try lia; [unfold zsum; simpl; lia|]. unfold pick. cbn [map]. rewrite zsum_cons. unfold zsum. cbn [fold_right].
        destruct (Nat.lt_ge_cases j (length (qbounds Q))) as [L|L]; [|rewrite nth_overflow by auto; lia].
        assert (Hin : In (nth j (qbounds Q) 0) (qbounds Q)) by now apply nth_In. apply (i_bd _ _ HB) in Hin. lia.
      * rewrite groups_nodup in Hg.
        -- apply in_map_iff in Hg. destruct Hg as (j & <- & _). unfold pick. cbn [map]. rewrite zsum_cons. unfold zsum. cbn [fold_right].
           destruct (Nat.lt_ge_cases j (length (qbounds Q))) as [L|L]; [|rewrite nth_overflow by auto; lia].
           assert (Hin : In (nth j (qbounds Q) 0) (qbounds Q)) by now apply nth_In. apply (i_bd _ _ HB) in Hin. lia.
        -- apply NoDup_map_seq. intros i j Hij HE. fold (qcols Q) in Hij.
           destruct (HD i j Hij) as (row & Hr & Hne). apply Hne. apply (column_eq i j (mrows (qA Q))); auto.
           apply pack_inj64; auto; rewrite ?column_length; auto;
           try (apply column_bits; intros r Hr'; now apply (i_rows _ _ HB)).
  - intros Q1 E. unfold reduce_col in E. rewrite HR in E. cbn [bind] in E. apply post_check_id in E. subst. split; [auto|]. split; auto.
Qed.

Section level.
  Variable s : list Z.
  Hypothesis Hs : zsum s <= 63.

  Lemma refine_step_w_ok Q : ready s Q ->
    refine_step_w Q = refine_step Q
    /\ match refine_step Q with
       | inl Q' => ready s Q' /\ slim Q'
       | inr (Ok Q') => slim Q'
       | inr _ => True
       end.
  Proof.
    intros [R1 R2 R3]. unfold refine_step_w, refine_step. rewrite R1, R2.
    destruct (question_copy Q) as [Qd| |]; cbn [bind]; auto.
    destruct (reduce_col Q) as [Q1| |]; cbn [bind]; auto.
    destruct (R3 Q1 eq_refl) as (B1 & D1 & N1). unfold eliminate_w, eliminate.
    rewrite (wd_eliminate_body s Q1 B1 D1).
    destruct (eliminate_body_spec s Q1 B1 D1) as (Q2 & E2 & B2 & D2 & _).
    pose proof (eliminate_slim s Q1 Q2 B1 N1 E2) as S2. rewrite E2. cbn [bind].
    rewrite (wd_post s Q2 B2 Hs). destruct (post_check Q2) as [Q2'| |] eqn:P2; cbn [bind]; auto.
    apply post_check_id in P2. subst Q2'. unfold zero_in_b_w, zero_in_b. rewrite (wd_zero_body s Q2 B2).
    destruct (zero_in_b_body_spec s Q2 B2) as (Q3 & E3 & B3 & D3 & _). specialize (D3 D2).
    pose proof (zero_slim Q2 Q3 E3 S2) as S3. rewrite E3. cbn [bind].
    rewrite (wd_post s Q3 B3 Hs). destruct (post_check Q3) as [Q3'| |] eqn:P3; cbn [bind]; auto.
    apply post_check_id in P3. subst Q3'. unfold only_1_element_in_row_w, only_1_element_in_row. rewrite (wd_only1_body s Q3 B3).
    destruct (only_1_body_spec s Q3 B3) as [[E4 _]|(Q4 & E4 & B4 & D4 & _)]; rewrite E4; cbn [bind]; auto.
    specialize (D4 D3). pose proof (only1_slim Q3 Q4 E4 S3) as S4.
    rewrite (wd_post s Q4 B4 Hs). destruct (post_check Q4) as [Q4'| |] eqn:P4; cbn [bind]; auto.
    apply post_check_id in P4. subst Q4'. split; auto. destruct (question_eqb Q4 Qd); auto.
    split; auto. apply wq_ready; auto. split; [auto|]. split; [auto|]. now apply slim_narrow.
  Qed.
  Lemma refine_w_ok Q : ready s Q -> refine_w Q = refine Q /\ forall Q', refine Q = Ok Q' -> slim Q'.
  Proof.
    intros HR. split.
    - apply (while_same (ready s)); auto. intros Q' H'. destruct (refine_step_w_ok Q' H') as [E G]. split; auto.
      destruct (refine_step Q'); auto. apply G.
    - intros Q'. apply (while_inv (ready s)); auto. intros Q2 H2. destruct (refine_step_w_ok Q2 H2) as [E G].
      destruct (refine_step Q2) as [Q3|[Q3| |]]; auto. apply G.
  Qed.

  (** ** solve_question *)
  Definition queued (Q : question) : Prop := ready s Q /\ exists R, cand s R Q.
  Lemma question_step_w_ok st : Forall queued (fst st) ->
    question_step_w st = question_step st
    /\ match question_step st with inl st' => Forall queued (fst st') | inr _ => True end.
  Proof.
    destruct st as [stack out]. cbn [fst]. intros HF. unfold question_step_w, question_step. destruct stack as [|Q rest]; auto.
    inversion HF as [|? ? [HR (R & _ & _ & HC)] HF']; subst. destruct (refine_w_ok Q HR) as [-> HSl].
    destruct HC as [[E _]|(Q' & E & (HB & HD & HFt & HP & HNm) & _)]; rewrite E; auto.
    assert (HRf : refined s Q') by (unfold refined; conj; auto).
    specialize (HSl Q' E). rewrite (answer_unknown_cols s) by auto. destruct (Nat.eqb_spec (qcols Q') 0) as [E0|E0]; cbn [negb].
    - rewrite (wd_binarize s Q' HB Hs). split; auto. destruct (binarize (qans Q')); auto.
    - rewrite (wd_fork s Q' HB Hs). destruct (fork_enum_spec s Q' HRf ltac:(lia)) as (m & qs & _ & _ & -> & HQ).
      split; auto. cbn [fst]. apply Forall_app. split; auto. apply Forall_rev. apply Forall_forall. intros q Hq.
      destruct (Forall2_in_r _ _ _ _ HQ Hq) as (x & _ & HS & HB' & HD'). split.
      + apply wq_ready; auto. split; [auto|]. split; [auto|]. apply slim_narrow. unfold slim, mnrows in *.
        rewrite (su_rows _ _ _ _ HS), (su_cols _ _ _ _ HS), map_length. lia.
      + exists q. apply cand_self; auto. now apply (su_fits [m] [x] Q').
  Qed.
  Lemma solve_question_w_ok Q : queued Q -> solve_question_w Q = solve_question Q.
  Proof.
    intros HQ. apply (while_same (fun st => Forall queued (fst st))); [apply question_step_w_ok|].
    cbn [fst]. constructor; auto.
  Qed.
End level.

(** ** a level *)
Lemma fresh_queued C Q : (C <= 63)%nat -> fresh C Q -> equal_columns_adjacent C (mrows (qA Q)) -> narrow Q ->
  exists s, zsum s <= 63 /\ queued s Q.
Proof.
  intros H63 HF HA HN. destruct (sizes_exist C Q HF HA) as (ns & Hns & HRb & Hcase).
  pose proof (fresh_base C Q HF H63) as HB0.
  pose proof (fresh_cand_at C Q HF ns Hns HRb Hcase) as HC.
  assert (H1 : zsum (repeat 1 C) <= 63).
  { assert (E : forall n, zsum (repeat 1 n) = Z.of_nat n) by (clear; induction n as [|n IH]; [reflexivity|]; simpl repeat; rewrite zsum_cons, IH; lia).
    rewrite E. lia. }
  assert (Hs : zsum (map Z.of_nat ns) <= 63) by (rewrite natsum_Z; destruct Hns as [-> _]; lia).
  pose proof (grouped_base C Q HF ns Hns) as HB1.
  exists (map Z.of_nat ns). split; auto. split; [|exists (grouped ns Q); exact HC]. constructor.
  - now apply (wd_qcopy (repeat 1 C)).
  - unfold reduce_col_w, reduce_col. rewrite (wd_reduce_body (repeat 1 C) Q HB0 H1 HN).
    + rewrite HRb. cbn [bind]. now apply (wd_post (map Z.of_nat ns)).
    + intros enc g HE Hg. apply groups_len in Hg. unfold unique_encode in HE.
      destruct (Nat.eqb (mnrows (qA Q)) 0); [discriminate|]. injection HE as <-.
      rewrite map_length, seq_length in Hg. pose proof (f_cols _ _ HF) as EC. unfold qcols in EC. rewrite EC in Hg.
      assert (Hp : forall x, In x (pick 0 g (qbounds Q)) -> 0 <= x <= 1).
      { intros x Hx. apply in_map_iff in Hx. destruct Hx as (i & <- & _). rewrite (f_bounds _ _ HF).
        destruct (Nat.lt_ge_cases i (length (repeat 1 C))) as [L|L]; [|rewrite nth_overflow by auto; lia].
        assert (Hin : In (nth i (repeat 1 C) 0) (repeat 1 C)) by now apply nth_In. apply repeat_spec in Hin. lia. }
      pose proof (zsum_le_len _ 1 Hp) as G. rewrite pick_length in G. lia.
  - intros Q1 E. unfold reduce_col in E. rewrite HRb in E. cbn [bind] in E. apply post_check_id in E. subst Q1.
    split; auto. split; [now apply (grouped_distinct C Q ns)|].
    pose proof (sizes_le C Q ns Hns). unfold narrow, mnrows in *. unfold grouped, qcols. cbn [qA mrows mcols]. rewrite map_length.
    pose proof (f_cols _ _ HF) as EC. destruct HN as [HN|[HN|[HN H0]]]; [left; lia|auto|right; right].
    split; auto. intros a Ha. destruct (mrows (qA Q)) as [|r rs]; [easy|]. cbn [map hd] in *.
    apply in_map_iff in Ha. destruct Ha as (i & <- & _).
    destruct (Nat.lt_ge_cases i (length r)) as [L|L]; [apply H0, nth_In; auto|now apply nth_overflow].
Qed.

(** ** from_matrix *)
Lemma bits_sum' x : bits x -> 0 <= zsum x <= Z.of_nat (length x).
Proof. apply (bits_sum 1 0 []); lia. Qed.
Lemma bits_dot' x y : bits x -> bits y -> 0 <= dot x y <= Z.of_nat (length y).
Proof. apply (bits_dot 1 0 []); lia. Qed.
Lemma bits_w x : bits x -> (length x <= 66)%nat -> sum_w x = Ok (zsum x).
Proof.
  intros Hb HL. pose proof (bits_sum' x Hb). apply sum_w_ok; [|lia]. intros a Ha. destruct (Hb a Ha); lia.
Qed.
Lemma bits_dot_w x y : bits x -> bits y -> (length y <= 66)%nat -> dot_w x y = Ok (dot x y) /\ 0 <= dot x y <= 66.
Proof.
  intros Hx Hy HL. pose proof (bits_sum' y Hy). pose proof (bits_dot' x y Hx Hy). split; [|lia].
  apply dot_w_ok; auto; [|lia]. intros a Ha. destruct (Hy a Ha); lia.
Qed.
Lemma default_answer_w_ok C : (C <= 100)%nat -> default_answer_w C = default_answer C.
Proof.
  intros HC. unfold default_answer_w, default_answer. apply mk_answer_w_ok. intros x Hx. apply in_map_iff in Hx.
  destruct Hx as (i & <- & Hi). apply in_seq in Hi. lia.
Qed.
Lemma bits_firstn n x : bits x -> bits (firstn n x).
Proof. intros B a Ha. apply B. rewrite <- (firstn_skipn n). apply in_app_iff. now left. Qed.

Section from_matrix.
  Variables (v R : nat) (M : list (list Z)).
  Hypothesis HV : partial_matrix v R M.
  Hypothesis Hv : (v <= 66)%nat.
  Hypothesis HR : (R < v)%nat.
  Hypothesis Hu : 0 <= par_u v M <= 127.

  Lemma vklu_w_ok : vklu_w (Mat v M) = vklu (Mat v M).
  Proof.
    pose proof (vklu_level v R M HV ltac:(lia) HR) as EL. rewrite EL.
    pose proof (lv_R _ _ _ HV) as H2. pose proof (lv_len _ _ _ HV) as HL.
    destruct (lv_nrow _ _ _ HV 0 ltac:(lia)) as [L0 B0]. destruct (lv_nrow _ _ _ HV 1 ltac:(lia)) as [L1 B1].
    assert (Ek : par_k M = zsum (nth 0 M [])) by reflexivity. assert (El : par_l M = i8 (dot (nth 0 M []) (nth 1 M []))) by reflexivity.
    assert (Eu : par_u v M = np_floordiv (par_k M * (par_k M - par_l M - 1)) (Z.of_nat v - par_k M - 1)) by reflexivity.
    unfold vklu_w. cbn [mrows mcols]. destruct M as [|r0 [|r1 rest]] eqn:EM; simpl in HL; try lia. cbn [nth] in L0, B0, L1, B1, Ek, El.
    rewrite (bits_w r0) by (auto; lia). cbn [bind]. destruct (bits_dot_w r0 r1 B0 B1 ltac:(lia)) as [-> Hd]. cbn [bind].
    rewrite i8_id in El by lia. pose proof (bits_sum' r0 B0) as Hk. rewrite <- Ek, <- El in *.
    rewrite w64_small by lia. cbn [bind]. rewrite w64_small by lia. cbn [bind].
    assert (Hm : -10000 <= par_k (r0 :: r1 :: rest) * (par_k (r0 :: r1 :: rest) - par_l (r0 :: r1 :: rest) - 1) <= 10000) by nia.
    rewrite w64_small by lia. cbn [bind]. rewrite w64_small by lia. cbn [bind].
    rewrite w64_small by lia. cbn [bind]. rewrite <- Eu. rewrite w64_small by lia. reflexivity.
  Qed.
  Lemma from_matrix_w_ok : from_matrix_w (Mat v M) = from_matrix (Mat v M).
  Proof.
    pose proof (lv_len _ _ _ HV) as HL. pose proof (l_range v R M HV ltac:(lia) HR) as Hl. pose proof (k_range v R M HV ltac:(lia) HR) as Hk.
    pose proof (known_bits v R M HV) as HKb. pose proof (known_length v R M HV ltac:(lia) HR) as HKl.
    unfold from_matrix_w, from_matrix. rewrite vklu_w_ok, (vklu_level v R M HV ltac:(lia) HR). cbn [bind mcols mrows]. unfold mnrows. cbn [mrows]. rewrite HL.
    destruct (Nat.leb_spec v R) as [|_]; [lia|].
    set (known := column R M ++ [0]) in *.
    assert (Hd : forall row, In row M -> dot_w (firstn (R + 1) row) known = Ok (dot (firstn (R + 1) row) known)
                  /\ 0 <= dot (firstn (R + 1) row) known <= 66).
    { intros row Hr. destruct (lv_row _ _ _ HV row Hr) as [_ B]. apply bits_dot_w; auto; [now apply bits_firstn|lia]. }
    rewrite (mapM_eq _ (fun row => i8 (dot (firstn (R + 1) row) known))).
    2:{ intros row Hr. destruct (Hd row Hr) as [-> H]. now rewrite i8_id by lia. }
    cbn [bind]. set (used := map _ M).
    assert (Hused : forall x, In x used -> 0 <= x <= 66).
    { intros x Hx. apply in_map_iff in Hx. destruct Hx as (row & <- & Hr). destruct (Hd row Hr) as [_ H]. rewrite i8_id; lia. }
    rewrite (mapM_eq _ (fun e => i8 (if e =? 0 then par_u v M else par_l M))).
    2:{ intros e _. rewrite w8_ok, i8_id; auto; destruct (e =? 0); lia. }
    cbn [bind]. set (quota := map _ (column R M)).
    assert (Hq : forall x, In x quota -> 0 <= x <= 127).
    { intros x Hx. apply in_map_iff in Hx. destruct Hx as (e & <- & _). rewrite i8_id; destruct (e =? 0); lia. }
    assert (Eb : forall b y, (forall x, In x b -> 0 <= x <= 127) -> (forall x, In x y -> 0 <= x <= 66) ->
      mapM (fun xy => w8 (fst xy - snd xy)) (map2 pair b y) = Ok (map2 (fun x y => i8 (x - y)) b y)).
    { clear. induction b as [|x b IH]; intros [|y ys] Hb Hy; try reflexivity. cbn [map2 mapM fst snd].
      pose proof (Hb x (or_introl eq_refl)). pose proof (Hy y (or_introl eq_refl)).
      rewrite w8_ok, i8_id by lia. cbn [bind].
      rewrite IH; [reflexivity|intros; apply Hb; now right|intros; apply Hy; now right]. }
    rewrite Eb by auto. cbn [bind]. pose proof (bits_sum' known HKb) as HKs.
    rewrite (bits_w known) by (auto; lia). cbn [bind]. rewrite w64_small by lia. cbn [bind].
    destruct (existsb _ _); auto. unfold mk_question_w, mk_question.
    destruct (assert_ _); auto. cbn [bind]. destruct (assert_ _); auto. cbn [bind]. destruct (assert_ _); auto. cbn [bind].
    destruct (assert_ _); auto. cbn [bind]. destruct (assert_ _); auto. cbn [bind mcols].
    rewrite default_answer_w_ok by lia. reflexivity.
  Qed.
End from_matrix.

(** ** advance, solve *)
Lemma advance_w_ok v R M k l : level v R M -> (R < v)%nat -> (v <= 66)%nat -> 0 <= par_u v M <= 127 ->
  firstn 2 M = seed_rows v k l -> (v <= 65)%nat \/ k <= 63 -> 1 <= k < Z.of_nat v ->
  advance_w (Mat v M) = advance (Mat v M).
Proof.
  intros HL HR Hv Hu HM Hw Hk. unfold advance_w, advance. destruct (assert_ _); auto. cbn [bind].
  rewrite (from_matrix_w_ok v R M HL Hv HR Hu). rewrite (from_matrix_eq v R M HL ltac:(lia) HR).
  match goal with |- context [if existsb ?p ?b then _ else _] => set (bb := b) in *; destruct (existsb p bb) eqn:Ex end; auto.
  match goal with |- context [solve_question ?q] => set (Q := q) end.
  assert (HF : fresh (v - R - 1) Q) by exact (Q_fresh v R M HL ltac:(lia) HR (or_introl Hv) Ex).
  assert (HA : equal_columns_adjacent (v - R - 1) (mrows (qA Q))) by exact (Q_adjacent v R M HL ltac:(lia) HR HL).
  destruct (fresh_queued (v - R - 1) Q ltac:(pose proof (lv_R _ _ _ HL); lia) HF HA) as (s & Hs & HQ).
  - unfold narrow. rewrite (f_cols _ _ HF). pose proof (lv_len _ _ _ HL) as HLen.
    assert (HN : mnrows (qA Q) = (R + 1)%nat) by (unfold mnrows, Q; cbn [qA mrows]; rewrite app_length, map_length, HLen; reflexivity).
    rewrite HN. destruct (Nat.lt_ge_cases (v - R - 1) 2) as [?|H2]; auto.
    destruct (Nat.le_gt_cases (R + 1) 63) as [?|H63]; auto. right. right. split; [lia|].
    unfold Q. cbn [qA mrows]. pose proof (lv_R _ _ _ HL) as HR2.
    assert (E0 : forall j, nth j (nth 0 M []) 0 = nth j (nth 0 (seed_rows v k l) []) 0).
    { intros j. rewrite <- HM. destruct M as [|r0 [|r1 M']]; reflexivity. }
    destruct (lv_nrow _ _ _ HL 0 ltac:(lia)) as [L0 _].
    destruct M as [|r0 M']; [simpl in HLen; lia|]. cbn [map app hd nth] in *.
    intros z Hz. apply (In_nth _ _ 0) in Hz. destruct Hz as (j & Hj & <-). rewrite skipn_length in Hj.
    rewrite nth_skipn, E0. change (cell (seed_rows v k l) 0 (R + 1 + j) = 0). rewrite seed0_cell by lia.
    unfold seed0. destruct (Z.leb_spec 1 (Z.of_nat (R + 1 + j))), (Z.ltb_spec (Z.of_nat (R + 1 + j)) (k + 1)); simpl; auto. lia.
  - now rewrite (solve_question_w_ok s Hs Q HQ).
Qed.

Section solve.
  Variables (v : nat) (k l : Z).
  Hypothesis Hv : (3 <= v <= 66)%nat.
  Hypothesis Hw : (v <= 65)%nat \/ k <= 63.
  Hypothesis Hk : 1 <= k < Z.of_nat v.
  Hypothesis Hl : 0 <= l < k.
  Let M0 := seed_rows v k l.
  Hypothesis Hu : 0 <= par_u v M0 <= 127.

  Lemma advance_all_w_ok R lst : linv v M0 R lst -> (2 <= R < v)%nat ->
    advance_all_w (map (Mat v) lst) = advance_all (map (Mat v) lst).
  Proof.
    intros HI HR. unfold advance_all_w, advance_all. rewrite (mapM_same advance_w advance); auto.
    intros m Hm. apply in_map_iff in Hm. destruct Hm as (N & <- & HN). destruct (li_level _ _ _ _ HI N HN) as [HL E].
    apply (advance_w_ok v R N k l); auto; try lia.
    destruct (par_firstn v N M0 E) as (_ & _ & ->); auto. rewrite (lv_len _ _ _ HL). lia.
  Qed.
  Lemma solve_loop_w_ok : forall fuel R lst ys, linv v M0 R lst -> (2 <= R <= v)%nat ->
    solve_loop_w fuel (map (Mat v) lst) ys = solve_loop fuel (map (Mat v) lst) ys.
  Proof.
    induction fuel as [|fuel IH]; intros R lst ys HI HR.
    { destruct lst; reflexivity. }
    destruct lst as [|N lst0] eqn:El; [reflexivity|]. rewrite <- El in *.
    assert (E1 : forall (A : Type) (x y : A), match map (Mat v) lst with [] => x | _ => y end = y) by (rewrite El; reflexivity).
    cbn [solve_loop_w solve_loop]. rewrite !E1. destruct (Nat.eq_dec R v) as [->|Hneq].
    - destruct (done_all v lst (linv_len _ _ _ _ HI)) as [-> ->]. unfold advance_all_w, advance_all. simpl. destruct fuel; reflexivity.
    - destruct (undone_all v R lst (linv_len _ _ _ _ HI) Hneq) as [-> ->].
      rewrite (advance_all_w_ok R) by (auto; lia).
      destruct (advance_lst v M0 R lst HI ltac:(lia) ltac:(lia) ltac:(left; lia)) as (lst' & -> & HI'). cbn [bind].
      apply (IH (S R)); auto; lia.
  Qed.
  Lemma solve_w_ok : solve_w (Mat v M0) = solve (Mat v M0).
  Proof.
    pose proof (seed_level v k l ltac:(lia) Hk Hl) as HL. fold M0 in HL.
    assert (HI : linv v M0 2 [M0]).
    { constructor.
      - intros N [<-|[]]. split; auto.
      - intros; lia.
      - intros; lia.
      - repeat constructor; easy.
      - intros Hp T (_ & HT & _). left. auto. }
    unfold solve_w, solve. rewrite (advance_w_ok v 2 M0 k l); auto; try lia.
    destruct (advance_lst v M0 2 [M0] HI ltac:(lia) ltac:(lia) ltac:(left; lia)) as (lst & E & HI3).
    unfold advance_all in E. simpl in E. destruct (advance (Mat v M0)) as [ms| |]; cbn [bind] in E; try discriminate. cbn [bind].
    injection E as E. rewrite app_nil_r in E. subst ms. unfold mnrows. cbn [mcols mrows]. rewrite (lv_len _ _ _ HL).
    destruct (Nat.eq_dec v 3) as [E3|Hne].
    - assert (HI3' : linv v M0 v lst) by (rewrite E3 at 2; exact HI3).
      destruct (done_all v lst (linv_len _ _ _ _ HI3')) as [-> ->]. unfold advance_all_w, advance_all. simpl. destruct (v - 2)%nat; reflexivity.
    - destruct (undone_all v 3 lst (linv_len _ _ _ _ HI3) ltac:(lia)) as [-> ->].
      rewrite (advance_all_w_ok 3) by (auto; lia).
      destruct (advance_lst v M0 3 lst HI3 ltac:(lia) ltac:(lia) ltac:(left; lia)) as (lst' & -> & HI4). cbn [bind].
      apply (solve_loop_w_ok (v - 2) 4); auto; lia.
  Qed.
End solve.

Theorem run_main_w_ok v k l u : admissible v k l u -> (v <= 66)%nat -> u <= 127 -> (v <= 65)%nat \/ k <= 63 ->
  run_main_w (Z.of_nat v) k l u = run_main (Z.of_nat v) k l u.
Proof.
  intros HA Hv Hu Hw. pose proof (seed_par_u v k l u HA ltac:(lia)) as EP. destruct HA as (Hv3 & Hk & Hl & Hu0 & He).
  unfold run_main_w, run_main. destruct (assert_srg _ _ _ _); auto. cbn [bind].
  rewrite seed_ok by (auto; lia). cbn [bind]. apply solve_w_ok; auto. rewrite EP. destruct (k =? _); lia.
Qed.

(** ** the encoding *)
(** a 64-entry vector that starts with 1 gets a negative key *)
Lemma pack_negative x : bits x -> length x = 63%nat -> pack (1 :: x) < 0.
Proof.
  intros Hx HL. cbn [pack]. rewrite HL. rewrite pack_pack0 by (auto; lia).
  pose proof (pack0_range x Hx) as P. rewrite HL in P.
  change (Z.shiftl 1 (Z.of_nat 63)) with 9223372036854775808.
  change (i64 9223372036854775808) with (-9223372036854775808). change (2 ^ Z.of_nat 63) with 9223372036854775808 in P.
  rewrite i64_id by lia. lia.
Qed.

(** ** what the properties say *)
Lemma no_wrap_proof v k l u : admissible v k l u -> (v <= 66)%nat -> u <= 127 -> (v <= 65)%nat \/ k <= 63 ->
  exists ms, run_main_w (Z.of_nat v) k l u = Ok ms /\ run_main (Z.of_nat v) k l u = Ok ms.
Proof.
  intros HA Hv Hu Hw. rewrite run_main_w_ok by auto. destruct (solve_well_formed v k l u HA ltac:(lia)) as (ms & E & _). eauto.
Qed.
Lemma wrap_u_proof : admissible 15 13 0 156 /\ run_main_w 15 13 0 156 = Raise Overflow.
Proof. split; [unfold admissible; lia|]. vm_compute. reflexivity. Qed.
Lemma wrap_key_proof : admissible 66 64 62 64 /\ run_main_w 66 64 62 64 = Raise Overflow.
Proof. split; [unfold admissible; lia|]. vm_compute. reflexivity. Qed.
Lemma wrap_proof : exists v k l u, admissible v k l u /\ (v <= 66)%nat /\ run_main_w (Z.of_nat v) k l u = Raise Overflow.
Proof. exists 15%nat, 13, 0, 156. destruct wrap_u_proof. split; [auto|]. split; [lia|auto]. Qed.
