(** The checked copy of the model equals the model: nothing wraps around. *)
From Verif Require Import Np ModelGauss Model ModelWidth Spec Lib BitFacts Cone ElimFacts QFacts StepFacts ForkFacts GroupFacts LevelFacts SolveFacts AnyFacts.

Definition top64 : Z := 9223372036854775808.
Lemma w8_ok z : -128 <= z < 128 -> w8 z = Ok z.
Proof. intros H. unfold w8. destruct (Z.leb_spec (-128) z), (Z.ltb_spec z 128); simpl; auto; lia. Qed.
Lemma w64_ok z : - top64 <= z < top64 -> w64 z = Ok z.
Proof.
  unfold top64. intros H. unfold w64.
  destruct (Z.leb_spec (- 9223372036854775808) z), (Z.ltb_spec z 9223372036854775808); simpl; auto; lia.
Qed.
Lemma w64_small z : -100000 <= z <= 100000 -> w64 z = Ok z.
Proof. intros H. apply w64_ok. unfold top64. lia. Qed.
Lemma mapM_eq {A B} (f : A -> res B) (g : A -> B) l : (forall x, In x l -> f x = Ok (g x)) -> mapM f l = Ok (map g l).
Proof. apply mapM_ok. Qed.
Lemma mapM_same {A B} (f g : A -> res B) l : (forall x, In x l -> f x = g x) -> mapM f l = mapM g l.
Proof.
  induction l as [|a l IH]; intros H; simpl; auto. rewrite (H a (or_introl eq_refl)).
  destruct (g a); simpl; auto. rewrite IH; auto. intros; apply H; now right.
Qed.

Lemma zsum_nonneg l : (forall x, In x l -> 0 <= x) -> 0 <= zsum l.
Proof.
  induction l as [|a l IH]; intros H; [unfold zsum; simpl; lia|]. rewrite zsum_cons.
  specialize (IH ltac:(intros; apply H; now right)). specialize (H a (or_introl eq_refl)). lia.
Qed.
Lemma zsum_le_len l n : (forall x, In x l -> 0 <= x <= n) -> zsum l <= Z.of_nat (length l) * n.
Proof.
  induction l as [|a l IH]; intros H; [unfold zsum; simpl; lia|]. rewrite zsum_cons.
  specialize (IH ltac:(intros; apply H; now right)). specialize (H a (or_introl eq_refl)).
  change (length (a :: l)) with (S (length l)). rewrite Nat2Z.inj_succ. lia.
Qed.
Lemma sum_w_ok l : (forall x, In x l -> 0 <= x) -> zsum l <= 100000 -> sum_w l = Ok (zsum l).
Proof.
  induction l as [|a l IH]; intros H HS; [reflexivity|]. rewrite zsum_cons in *.
  pose proof (zsum_nonneg l ltac:(intros; apply H; now right)) as H0.
  pose proof (H a (or_introl eq_refl)). simpl. rewrite IH; [|intros; apply H; now right|lia]. simpl.
  rewrite w64_small by lia. reflexivity.
Qed.
Lemma dot_w_ok x : forall y, bits x -> (forall a, In a y -> 0 <= a) -> zsum y <= 127 -> dot_w x y = Ok (dot x y).
Proof.
  induction x as [|a x IH]; intros [|b y] Hx Hy HS; try reflexivity.
  apply bits_cons in Hx. destruct Hx as [Ha Hx]. rewrite zsum_cons in HS.
  pose proof (zsum_nonneg y ltac:(intros; apply Hy; now right)) as H0.
  pose proof (Hy b (or_introl eq_refl)) as Hb. simpl.
  assert (Hy' : forall a, In a y -> 0 <= a) by (intros; apply Hy; now right).
  pose proof (dot_nonneg x y Hx Hy') as D1. pose proof (dot_le_sum x y Hx Hy') as D2.
  assert (Hab : 0 <= a * b <= b) by (destruct Ha as [->| ->]; lia).
  rewrite w8_ok by lia. simpl. rewrite IH by (auto; lia). simpl. apply w8_ok. lia.
Qed.

(** packing *)
Lemma pack_w_ok x : bits x -> (length x <= 63)%nat -> pack_w x = Ok (pack x).
Proof.
  induction x as [|a x IH]; intros Hx HL; [reflexivity|]. simpl in HL. pose proof Hx as Hx0.
  apply bits_cons in Hx. destruct Hx as [Ha Hx]. cbn [pack_w]. rewrite IH by (auto; lia). cbn [bind].
  rewrite pack_pack0 by (auto; lia). pose proof (pack0_range x Hx) as P.
  pose proof (pack0_range _ Hx0) as P0. simpl pack0 in P0. change (length (a :: x)) with (S (length x)) in P0.
  pose proof (pow63 (S (length x)) HL) as P63. rewrite Z.shiftl_mul_pow2 by lia.
  assert (0 <= a * 2 ^ Z.of_nat (length x)) by (destruct Ha as [->| ->]; lia).
  rewrite w64_ok by (unfold top64; lia). cbn [bind]. rewrite w64_ok by (unfold top64; lia).
  rewrite pack_pack0 by (auto; simpl; lia). simpl pack0. f_equal. lia.
Qed.
(** one more entry, if it is zero *)
Lemma pack_w_zero x : bits x -> (length x <= 63)%nat -> pack_w (0 :: x) = Ok (pack (0 :: x)).
Proof.
  intros Hx HL. cbn [pack_w pack]. rewrite pack_w_ok by auto. cbn [bind]. rewrite Z.shiftl_0_l.
  pose proof (pack_range x Hx HL) as P. pose proof (pow63 _ HL) as P63.
  change (w64 0) with (@Ok Z 0). cbn [bind]. change (i64 0) with 0. rewrite Z.add_0_r.
  rewrite w64_ok by (unfold top64; lia). now rewrite i64_id by lia.
Qed.

(** ** elimination *)
Lemma sub_entry_w_ok C m e : (C <= 63)%nat -> good C 127 m -> good C 127 e -> reduces m e = true ->
  sub_entry_w m e = Ok (sub_entry m e).
Proof.
  intros HC [K1 V1] [K2 V2] HR. unfold reduces in HR. apply andb_true_iff in HR. destruct HR as [R1 R2].
  apply Z.eqb_eq in R1. apply Z.leb_le in R2. pose proof (land_le _ _ (proj1 K1) (proj1 K2) R1). pose proof (pow63 C HC).
  unfold sub_entry_w. rewrite w64_ok by (unfold top64; lia). cbn [bind]. rewrite w8_ok by lia. reflexivity.
Qed.
Lemma gauss_elim_w_ok C hd : (C <= 63)%nat -> Forall (good C 127) hd -> gauss_elim_w hd = gauss_elim hd.
Proof.
  intros HC HG. destruct hd as [|m rest]; [reflexivity|]. unfold gauss_elim_w, gauss_elim.
  destruct (assert_ (0 <? ekey m)); simpl; auto.
  rewrite (mapM_eq _ (sub_entry m)).
  - simpl. reflexivity.
  - intros e He. apply filter_In in He. destruct He as [Hin Hr]. rewrite Forall_forall in HG.
    apply (sub_entry_w_ok C); auto; apply HG; [now left|now right].
Qed.
Lemma iter2_same {S R} (P : S -> Prop) (f g : S -> S + R) :
  (forall s, P s -> f s = g s /\ match g s with inl s' => P s' | inr _ => True end) ->
  forall n s, P s -> iter2 n f s = iter2 n g s /\ match iter2 n g s with inl s' => P s' | inr _ => True end.
Proof.
  intros H. induction n as [|n IH]; intros s Hs; simpl; [auto|].
  destruct (IH s Hs) as [E1 E2]. rewrite E1. destruct (iter2 n g s) as [s'|r]; auto.
Qed.
Lemma while_same {S A} (P : S -> Prop) (f g : S -> S + res A) n s :
  (forall s, P s -> f s = g s /\ match g s with inl s' => P s' | inr _ => True end) ->
  P s -> while_ n f s = while_ n g s.
Proof. intros H Hs. unfold while_. now rewrite (proj1 (iter2_same P f g H n s Hs)). Qed.

Lemma elim_core_w_ok C n hd : (C <= 63)%nat -> Forall (good C 127) hd -> elim_core_w n hd = elim_core n hd.
Proof.
  intros HC HG. unfold elim_core_w, elim_core. set (E := remove_zerokeys hd).
  destruct (length E <=? 1)%nat; auto.
  assert (HE : Forall (good C 127) E).
  { apply Forall_forall. intros e He. apply filter_In in He. rewrite Forall_forall in HG. apply HG. apply He. }
  apply (while_same (elim_inv C 127 (sort_e E))).
  - intros [hs hd0] HI. pose proof (elim_step_spec C 127 _ _ HI) as HS. split.
    + unfold elim_step_w, elim_step. destruct hd0 as [|m rest]; auto.
      rewrite (gauss_elim_w_ok C); auto. pose proof (ei_red _ _ _ _ HI) as HR. apply red_good in HR. simpl in HR.
      now apply Forall_app in HR.
    + destruct (elim_step (hs, hd0)) as [s'|r]; auto. apply HS.
  - constructor; simpl.
    + apply sort_e_sorted.
    + intros e He. apply (Permutation.Permutation_in _ (Permutation.Permutation_sym (sort_e_perm E))) in He.
      apply filter_In in He. lia.
    + apply reduced_refl. apply (Permutation.Permutation_Forall (sort_e_perm E)); auto.
    + intros l1 m l2 Hn. destruct l1; discriminate.
Qed.

(** ** small facts about the records *)
Lemma in_diff d l : In d (diff l) -> exists x y, In x l /\ In y l /\ d = y - x.
Proof.
  induction l as [|a [|b l] IH]; intros H; try easy. destruct H as [<-|H].
  - exists a, b. repeat split; [now left|now right; left].
  - destruct (IH H) as (x & y & H1 & H2 & H3). exists x, y. repeat split; auto; now right.
Qed.
Lemma mk_answer_w_ok v loc len : (forall x, In x loc -> 0 <= x <= 1000) -> mk_answer_w v loc len = mk_answer v loc len.
Proof.
  intros H. unfold mk_answer_w, mk_answer. destruct (assert_ _); auto. cbn [bind].
  destruct loc as [|l0 t] eqn:E; auto. rewrite <- E in *. destruct (assert_ _); auto. cbn [bind].
  unfold diff_w. rewrite (mapM_eq _ (fun x => x)), map_id; [reflexivity|].
  intros d Hd. apply in_diff in Hd. destruct Hd as (x & y & Hx & Hy & ->). apply H in Hx. apply H in Hy.
  apply w64_small. lia.
Qed.
Lemma delete_le {A} js (l : list A) : (length (delete js l) <= length l)%nat.
Proof.
  unfold delete. generalize 0%nat. induction l as [|a l IH]; intros i; simpl; auto.
  specialize (IH (S i)). destruct (memn i js); simpl; lia.
Qed.

(** few enough rows for a column to be packed into an int64: a 64th row must
    be zero *)
Definition narrow (Q : question) : Prop :=
  (qcols Q < 2)%nat \/ (mnrows (qA Q) <= 63)%nat
  \/ ((mnrows (qA Q) <= 64)%nat /\ forall a, In a (hd [] (mrows (qA Q))) -> a = 0).
Definition slim (Q : question) : Prop := (qcols Q < 2)%nat \/ (mnrows (qA Q) <= 63)%nat.
Lemma slim_narrow Q : slim Q -> narrow Q.
Proof. unfold slim, narrow. tauto. Qed.

Section shell.
  Variables (s : list Z) (Q : question).
  Hypothesis HB : base s Q.
  Hypothesis Hs : zsum s <= 63.

  Lemma wd_bits row : In row (mrows (qA Q)) -> bits row /\ length row = qcols Q.
  Proof. intros H. destruct (i_rows _ _ HB row H). auto. Qed.
  Lemma wd_s x : In x s -> 1 <= x <= 63.
  Proof.
    intros Hx. destruct (i_rooms _ _ HB) as (_ & _ & _ & H1). pose proof (H1 x Hx). split; auto.
    assert (G : forall l, (forall y, In y l -> 1 <= y) -> In x l -> x <= zsum l).
    { clear. induction l as [|a l IH]; intros Hp Hin; [easy|]. rewrite zsum_cons.
      assert (0 <= zsum l) by (apply zsum_nonneg; intros y Hy; specialize (Hp y (or_intror Hy)); lia).
      destruct Hin as [->|Hin]; [lia|]. specialize (IH ltac:(intros; apply Hp; now right) Hin).
      specialize (Hp a (or_introl eq_refl)). lia. }
    specialize (G s H1 Hx). lia.
  Qed.
  Lemma wd_encode : (1 <= qcols Q)%nat -> encode_w (qA Q) (qb Q) = encode (qA Q) (qb Q).
  Proof.
    intros HC. unfold encode_w, encode. destruct (assert_ _); simpl; auto. fold (qcols Q).
    destruct (Nat.eqb_spec (qcols Q) 0); auto. rewrite (mapM_eq _ pack); [reflexivity|].
    intros row Hr. destruct (wd_bits row Hr) as [H1 H2]. apply pack_w_ok; auto. rewrite H2. apply (i_C _ _ HB).
  Qed.
  Lemma wd_entries E : (1 <= qcols Q)%nat -> encode (qA Q) (qb Q) = Ok E -> Forall (good (qcols Q) 127) E
    /\ map ekey E = map pack (mrows (qA Q)) /\ length E = mnrows (qA Q).
  Proof.
    intros HC HE. pose proof (i_C _ _ HB) as H63.
    destruct (encode_ok (qA Q) (qb Q) (qcols Q) eq_refl ltac:(lia) (i_blen _ _ HB) (i_rows _ _ HB))
      as (E' & E1 & _ & E3 & E4 & _ & E6).
    rewrite HE in E1. injection E1 as <-. split; [|auto]. apply Forall_forall. intros e He. split.
    - assert (Hk : In (ekey e) (map ekey E)) by now apply in_map. rewrite E3 in Hk. apply in_map_iff in Hk.
      destruct Hk as (row & <- & Hr). destruct (wd_bits row Hr) as [H1 H2]. rewrite <- H2. apply pack_range; auto. lia.
    - assert (Hk : In (eval_ e) (map eval_ E)) by now apply in_map. rewrite E4 in Hk. now apply (i_b _ _ HB).
  Qed.
  Lemma wd_elim : distinct Q -> (1 <= qcols Q)%nat -> elim_w (qA Q) (qb Q) = elim (qA Q) (qb Q).
  Proof.
    intros HD HC. pose proof (i_C _ _ HB) as H63. unfold elim_w, elim. rewrite wd_encode by auto.
    destruct (encode (qA Q) (qb Q)) as [E| |e] eqn:EE; auto. cbn [bind].
    destruct (wd_entries E HC EE) as (HG & _ & HL).
    rewrite (elim_core_w_ok (qcols Q)) by auto. fold (qcols Q).
    destruct (elim_core_spec (qcols Q) 127 (mnrows (qA Q)) E HG) as (E' & E1 & E2 & E3 & E4 & E5); [lia|].
    rewrite E1. cbn [bind]. unfold decode_w, decode. destruct E' as [|e0 E']; auto.
    rewrite (mapM_eq _ (fun e => i8 (eval_ e))); [reflexivity|]. intros e He.
    pose proof (red_good _ _ _ _ E4) as HG'. rewrite Forall_forall in HG'. destruct (HG' e He) as [_ HV].
    rewrite w8_ok by lia. f_equal. symmetry. apply i8_id. lia.
  Qed.
  Lemma wd_eliminate_body : distinct Q -> eliminate_body_w Q = eliminate_body Q.
  Proof.
    intros HD. unfold eliminate_body_w, eliminate_body. destruct (Nat.eqb_spec (mcols (qA Q)) 0); auto.
    rewrite wd_elim; auto. unfold qcols. lia.
  Qed.
  Lemma wd_bd_sum js : sum_w (delete js (qbounds Q)) = Ok (zsum (delete js (qbounds Q))).
  Proof.
    pose proof (i_C _ _ HB) as H63. pose proof (i_bdlen _ _ HB) as HL.
    assert (H : forall x, In x (delete js (qbounds Q)) -> 0 <= x <= 127).
    { intros x Hx. apply (in_delete_iff 0) in Hx. destruct Hx as (j & Hj & _ & <-). apply (i_bd _ _ HB). now apply nth_In. }
    apply sum_w_ok; [intros x Hx; now apply H in Hx|]. pose proof (zsum_le_len _ 127 H).
    assert (length (delete js (qbounds Q)) <= length (qbounds Q))%nat; [|lia].
    unfold delete. generalize 0%nat. clear. induction (qbounds Q) as [|a l IH]; intros i; simpl; auto.
    destruct (memn i js); simpl; [|specialize (IH (S i))]; [specialize (IH (S i))|]; lia.
  Qed.
  Lemma wd_bd_sum0 : sum_w (qbounds Q) = Ok (zsum (qbounds Q)).
  Proof.
    pose proof (i_C _ _ HB) as H63. pose proof (i_bdlen _ _ HB) as HL.
    apply sum_w_ok; [intros x Hx; now apply (i_bd _ _ HB) in Hx|]. pose proof (zsum_le_len _ 127 (i_bd _ _ HB)). lia.
  Qed.
  Lemma wd_quota : answer_quota_w (qans Q) = answer_quota (qans Q).
  Proof.
    pose proof (i_rooms _ _ HB) as HR. pose proof HR as (H1 & H2 & H3 & H4).
    unfold answer_quota_w, answer_quota, diff_w. fold (quota_of (aloc (qans Q)) (alen (qans Q))).
    rewrite H1, H2, quota_of_starts. rewrite (mapM_eq _ (fun x => x)), map_id.
    - cbn [bind]. rewrite sum_w_ok; [reflexivity| |lia]. intros x Hx. specialize (H4 x Hx). lia.
    - intros x Hx. apply wd_s in Hx. apply w64_small. lia.
  Qed.
  Lemma wd_post : post_check_w Q = post_check Q.
  Proof.
    unfold post_check_w, post_check. destruct (_ && _); auto. destruct (assert_ _); simpl; auto.
    rewrite wd_bd_sum0. cbn [bind]. destruct (_ && _); auto. now rewrite wd_quota.
  Qed.
  Lemma wd_loc_range x : In x (starts 0 s) -> 0 <= x <= 63.
  Proof.
    pose proof (i_rooms _ _ HB) as (_ & _ & _ & H1).
    assert (G : forall l p, 0 <= p -> (forall y, In y l -> 1 <= y) -> In x (starts p l) -> p <= x <= p + zsum l).
    { clear. induction l as [|a l IH]; intros p Hp Hl Hin; [easy|]. simpl in Hin. rewrite zsum_cons.
      assert (0 <= zsum l) by (apply zsum_nonneg; intros y Hy; specialize (Hl y (or_intror Hy)); lia).
      pose proof (Hl a (or_introl eq_refl)).
      destruct Hin as [<-|Hin]; [lia|]. specialize (IH (p + a) ltac:(lia) ltac:(intros; apply Hl; now right) Hin). lia. }
    intros Hin. specialize (G s 0 ltac:(lia) H1 Hin). lia.
  Qed.
  Lemma wd_copy : answer_copy_w (qans Q) = answer_copy (qans Q).
  Proof.
    unfold answer_copy_w, answer_copy. apply mk_answer_w_ok. pose proof (i_rooms _ _ HB) as (-> & _ & _ & _).
    intros x Hx. apply wd_loc_range in Hx. lia.
  Qed.
  Lemma wd_qcopy : question_copy_w Q = question_copy Q.
  Proof. unfold question_copy_w, question_copy. rewrite wd_copy. reflexivity. Qed.

  (** reduce_col *)
  Lemma wd_enc : narrow Q -> (2 <= qcols Q)%nat -> unique_encode_w (qA Q) = unique_encode (qA Q).
  Proof.
    intros HN H2. unfold unique_encode_w, unique_encode. destruct (Nat.eqb_spec (mnrows (qA Q)) 0); auto.
    apply mapM_eq. intros j _.
    assert (Hbits : forall row, In row (mrows (qA Q)) -> bits row) by (intros row Hr; now apply wd_bits).
    pose proof (column_bits j (mrows (qA Q)) Hbits) as HCb. pose proof (column_length j (mrows (qA Q))) as HCl.
    destruct HN as [?|[HN|[HN H0]]]; [lia| |]; unfold mnrows in *.
    - apply pack_w_ok; auto. lia.
    - destruct (mrows (qA Q)) as [|r rs]; [simpl in *; lia|]. unfold column in *. cbn [map length hd] in *.
      assert (E : nth j r 0 = 0).
      { destruct (Nat.lt_ge_cases j (length r)) as [L|L]; [apply H0, nth_In; auto|now apply nth_overflow]. }
      rewrite E in *. apply pack_w_zero; [now apply bits_cons in HCb|]. rewrite map_length. lia.
  Qed.
  Lemma wd_reduce_body : narrow Q ->
    (forall enc g, unique_encode (qA Q) = Ok enc -> In g (groups enc) -> zsum (pick 0 g (qbounds Q)) <= 127) ->
    reduce_col_body_w Q = reduce_col_body Q.
  Proof.
    intros HN Hg. unfold reduce_col_body_w, reduce_col_body. destruct (Nat.ltb_spec (mcols (qA Q)) 2) as [_|H2]; auto.
    rewrite wd_enc by (auto; unfold qcols; lia). destruct (unique_encode (qA Q)) as [enc| |]; auto. cbn [bind].
    destruct (_ <? _)%nat; auto.
    assert (Hpos : forall g x, In x (pick 0 g (qbounds Q)) -> 0 <= x).
    { intros g x Hx. apply in_map_iff in Hx. destruct Hx as (i & <- & _).
      destruct (Nat.lt_ge_cases i (length (qbounds Q))) as [L|L]; [|rewrite nth_overflow by auto; lia].
      assert (In (nth i (qbounds Q) 0) (qbounds Q)) as Hin by now apply nth_In. now apply (i_bd _ _ HB) in Hin. }
    rewrite (mapM_eq _ (fun ls => zsum (pick 0 ls (qbounds Q)))).
    2:{ intros g Hin. specialize (Hg enc g eq_refl Hin). apply sum_w_ok; [apply Hpos|lia]. }
    cbn [bind]. destruct (existsb _ _); auto.
    rewrite (mapM_eq w8 (fun x => x)), map_id.
    2:{ intros x Hx. apply in_map_iff in Hx. destruct Hx as (g & <- & Hin). specialize (Hg enc g eq_refl Hin).
        pose proof (zsum_nonneg _ (Hpos g)). apply w8_ok. lia. }
    cbn [bind]. rewrite map_i8_id.
    2:{ intros x Hx. apply in_map_iff in Hx. destruct Hx as (g & <- & Hin). specialize (Hg enc g eq_refl Hin).
        pose proof (zsum_nonneg _ (Hpos g)). lia. }
    destruct (assert_ _); auto. cbn [bind]. rewrite mk_answer_w_ok; auto.
    intros x Hx. apply in_delete in Hx. pose proof (i_rooms _ _ HB) as (E & _ & _ & _). rewrite E in Hx.
    apply wd_loc_range in Hx. lia.
  Qed.

  (** zero_in_b *)
  Lemma wd_lub A : forall b bd, (forall x, In x b -> 0 <= x <= 127) -> (forall x, In x bd -> 0 <= x <= 127) ->
    lower_upper_bound_w A b bd = Ok (lower_upper_bound A b bd).
  Proof.
    induction A as [|row A IH]; intros [|x b] bd Hb Hbd; try reflexivity. cbn [lower_upper_bound_w lower_upper_bound].
    assert (E : tighten_row_w row x bd = Ok (tighten_row row x bd)
              /\ forall y, In y (tighten_row row x bd) -> 0 <= y <= 127).
    { pose proof (Hb x (or_introl eq_refl)) as Hx. unfold tighten_row_w, tighten_row. clear - Hbd Hx. split.
      - revert bd Hbd. induction row as [|a row IH]; intros [|c bd] Hbd; try reflexivity. cbn [map2 mapM fst snd].
        pose proof (Hbd c (or_introl eq_refl)).
        assert (E : (if a =? 0 then Ok c else w8 (Z.min c x)) = Ok (if a =? 0 then c else Z.min c x))
          by (destruct (a =? 0); auto; apply w8_ok; lia).
        rewrite E. cbn [bind]. rewrite IH by (intros; apply Hbd; now right). reflexivity.
      - revert bd Hbd. induction row as [|a row IH]; intros [|c bd] Hbd y Hy; try easy. cbn [map2] in Hy.
        pose proof (Hbd c (or_introl eq_refl)).
        destruct Hy as [<-|Hy]; [destruct (a =? 0); lia|]. apply (IH bd); auto. intros; apply Hbd; now right. }
    destruct E as [E1 E2]. rewrite E1. cbn [bind]. apply IH; auto. intros; apply Hb; now right.
  Qed.
  Lemma wd_zero_body : zero_in_b_body_w Q = zero_in_b_body Q.
  Proof.
    unfold zero_in_b_body_w, zero_in_b_body. rewrite wd_lub; [reflexivity|apply (i_b _ _ HB)|apply (i_bd _ _ HB)].
  Qed.

  (** only_1_element_in_row *)
  Lemma spend_w_ok xs : forall q, (forall x, In x xs -> 0 <= x) -> zsum xs <= q -> q <= 127 -> spend_w xs q = spend xs q.
  Proof.
    induction xs as [|x xs IH]; intros q Hx Hq H127; [reflexivity|]. rewrite zsum_cons in Hq. cbn [spend_w spend].
    assert (0 <= zsum xs) by (apply zsum_nonneg; intros; apply Hx; now right).
    pose proof (Hx x (or_introl eq_refl)). rewrite w64_small by lia. cbn [bind].
    destruct (assert_ _); auto. cbn [bind]. apply IH; try lia. intros; apply Hx; now right.
  Qed.
  Lemma wd_only1_body : only_1_body_w Q = only_1_body Q.
  Proof.
    unfold only_1_body_w, only_1_body, only_1_with. destruct (assert_ _); auto. cbn [bind].
    destruct (one_element_row_locs (mrows (qA Q))) as [|rc0 rcs0] eqn:E; auto. rewrite <- E. clear E rc0 rcs0.
    set (rcs := one_element_row_locs (mrows (qA Q))). destruct (existsb _ rcs); auto.
    set (subx := pick 0 (map fst rcs) (qb Q)).
    assert (Hx : forall x, In x subx -> 0 <= x <= 127).
    { intros x Hin. apply in_map_iff in Hin. destruct Hin as (r & <- & Hr).
      destruct (Nat.lt_ge_cases r (length (qb Q))) as [L|L]; [|rewrite nth_overflow by auto; lia].
      assert (Hin : In (nth r (qb Q) 0) (qb Q)) by now apply nth_In. now apply (i_b _ _ HB) in Hin. }
    assert (HL : (length rcs <= 63)%nat).
    { destruct (locs_rcs _ _ (one_element_row_locs_ok (mrows (qA Q)))) as [Hnd Hrc]. fold rcs in Hnd, Hrc.
      assert (HI : incl (map snd rcs) (seq 0 (qcols Q))).
      { intros c Hc. apply in_map_iff in Hc. destruct Hc as ([r c'] & <- & Hin). destruct (Hrc r c' Hin) as [H1 H2].
        apply single_iff in H2. destruct H2 as [H2 _]. apply in_seq. simpl.
        destruct (wd_bits (nth r (mrows (qA Q)) [])) as [_ L]; [now apply nth_In|]. lia. }
      pose proof (NoDup_incl_length Hnd HI) as G. rewrite map_length, seq_length in G. pose proof (i_C _ _ HB). lia. }
    assert (HS : zsum subx <= 100000).
    { pose proof (zsum_le_len subx 127 Hx) as G. unfold subx in G at 2. unfold pick in G. rewrite !map_length in G. lia. }
    rewrite sum_w_ok by (auto; intros x Hin; now apply Hx in Hin). cbn [bind].
    destruct (Z.ltb_spec (qquota Q) (zsum subx)) as [_|Hq]; auto.
    pose proof (i_quota _ _ HB) as HQ.
    assert (Hd : forall row, In row (map (pick 0 (map snd rcs)) (mrows (qA Q))) ->
               dot_w row subx = Ok (dot row subx) /\ 0 <= dot row subx <= 127).
    { intros row Hin. apply in_map_iff in Hin. destruct Hin as (r & <- & Hr). destruct (wd_bits r Hr) as [Bt _].
      pose proof (pick_bits (map snd rcs) r Bt) as Bp.
      assert (Hx0 : forall z, In z subx -> 0 <= z) by (intros z Hz; now apply Hx in Hz).
      split; [apply dot_w_ok; auto; lia|].
      pose proof (dot_nonneg _ _ Bp Hx0). pose proof (dot_le_sum _ _ Bp Hx0). lia. }
    rewrite (mapM_eq _ (fun row => dot row subx)) by (intros row Hr; now apply Hd). cbn [bind]. fold (matvec (map (pick 0 (map snd rcs)) (mrows (qA Q))) subx).
    assert (Hm : forall y, In y (matvec (map (pick 0 (map snd rcs)) (mrows (qA Q))) subx) -> 0 <= y <= 127).
    { intros y Hy. apply in_map_iff in Hy. destruct Hy as (row & <- & Hr). now apply Hd. }
    unfold matvec in *. rewrite map_i8_id by (intros y Hy; apply Hm in Hy; lia).
    destruct (any2 _ _ _); auto.
    rewrite (mapM_eq w8 (fun x => x)), map_id by (intros x Hin; apply Hx in Hin; apply w8_ok; lia). cbn [bind].
    rewrite spend_w_ok by (try lia; intros x Hin; apply Hx in Hin; lia).
    destruct (spend subx (qquota Q)); auto. cbn [bind].
    assert (Eb : forall b y, (forall x, In x b -> 0 <= x <= 127) -> (forall x, In x y -> 0 <= x <= 127) ->
      mapM (fun xy => w8 (fst xy - snd xy)) (map2 pair b y) = Ok (map2 (fun x y => i8 (x - y)) b y)).
    { clear. induction b as [|x b IH]; intros [|y ys] Hb Hy; try reflexivity. cbn [map2 mapM fst snd].
      pose proof (Hb x (or_introl eq_refl)). pose proof (Hy y (or_introl eq_refl)).
      rewrite w8_ok, i8_id by lia. cbn [bind]. rewrite IH by (intros; first [solve [apply Hb; now right]|apply Hy; now right]). reflexivity. }
    rewrite Eb by (auto; apply (i_b _ _ HB)). reflexivity.
  Qed.

  (** fork_enum *)
  Lemma wd_fork_one m q : 0 <= q <= 127 -> fork_one_w Q m q = fork_one Q m q.
  Proof.
    intros Hq. unfold fork_one_w, fork_one. pose proof (i_quota _ _ HB).
    rewrite w64_small by lia. cbn [bind]. rewrite w8_ok by lia. cbn [bind].
    assert (Eb : forall b rows, (forall x, In x b -> 0 <= x <= 127) -> (forall r, In r rows -> bits r) ->
      mapM (fun br => p <- w8 (nth m (snd br) 0 * q) ;; w8 (fst br - p)) (map2 pair b rows)
      = Ok (map2 (fun bv row => i8 (bv - i8 (nth m row 0 * q))) b rows)).
    { clear - Hq. induction b as [|x b IH]; intros [|r rows] Hb Hy; try reflexivity. cbn [map2 mapM fst snd].
      pose proof (Hb x (or_introl eq_refl)). pose proof (Hy r (or_introl eq_refl)) as Hr.
      assert (0 <= nth m r 0 * q <= 127).
      { destruct (Nat.lt_ge_cases m (length r)) as [L|L]; [|rewrite nth_overflow by auto; lia].
        destruct (Hr (nth m r 0)) as [->| ->]; [now apply nth_In|lia|lia]. }
      rewrite w8_ok by lia. cbn [bind]. rewrite w8_ok, (i8_id (_ * _)), i8_id by lia.
      cbn [bind]. rewrite IH by (intros; first [solve [apply Hb; now right]|apply Hy; now right]). reflexivity. }
    rewrite Eb by (try apply (i_b _ _ HB); intros r Hr; now apply wd_bits). cbn [bind].
    destruct (existsb _ _); auto. rewrite wd_copy. destruct (answer_copy (qans Q)); auto.
  Qed.
  Lemma wd_values m : fork_enum_values_w (qquota Q) (qbounds Q) m = Ok (fork_enum_values (qquota Q) (qbounds Q) m).
  Proof.
    unfold fork_enum_values_w, fork_enum_values. rewrite wd_bd_sum. cbn [bind].
    assert (Hm : 0 <= nth m (qbounds Q) 0 <= 127).
    { destruct (Nat.lt_ge_cases m (length (qbounds Q))) as [L|L]; [|rewrite nth_overflow by auto; lia].
      apply (i_bd _ _ HB). now apply nth_In. }
    pose proof (i_quota _ _ HB).
    assert (0 <= zsum (delete [m] (qbounds Q)) <= 100000).
    { assert (H1 : forall x, In x (delete [m] (qbounds Q)) -> 0 <= x <= 127) by (intros x Hx; apply in_delete in Hx; now apply (i_bd _ _ HB)).
      split; [apply zsum_nonneg; intros x Hx; now apply H1 in Hx|]. pose proof (zsum_le_len _ 127 H1).
      pose proof (delete_le [m] (qbounds Q)). pose proof (i_bdlen _ _ HB). pose proof (i_C _ _ HB). lia. }
    rewrite w64_small by lia. cbn [bind]. rewrite w64_small by lia. reflexivity.
  Qed.
  Lemma wd_fork : fork_enum_w Q = fork_enum Q.
  Proof.
    unfold fork_enum_w, fork_enum. rewrite wd_post. destruct (post_check Q); auto. cbn [bind].
    destruct (assert_ _); auto. cbn [bind]. destruct (argmin (qbounds Q)) as [m| |]; auto. cbn [bind].
    rewrite wd_values. cbn [bind]. rewrite (mapM_same _ (fork_one Q m)); auto.
    intros q Hq. apply wd_fork_one. apply in_zrange in Hq.
    assert (Hm : 0 <= nth m (qbounds Q) 0 <= 127).
    { destruct (Nat.lt_ge_cases m (length (qbounds Q))) as [L|L]; [|rewrite nth_overflow by auto; lia].
      apply (i_bd _ _ HB). now apply nth_In. }
    lia.
  Qed.
  Lemma binarize_loop_w_ok v : forall q ptr ans, (forall x, In x v -> 0 <= x <= 63) -> (forall x, In x q -> 0 <= x <= 63) ->
    0 <= ptr -> ptr + zsum q <= 63 -> binarize_loop_w v q ptr ans = Ok (binarize_loop v q ptr ans).
  Proof.
    induction v as [|c v IH]; intros [|b q] ptr ans Hv Hq Hp HS; try reflexivity. rewrite zsum_cons in HS. cbn [binarize_loop_w binarize_loop].
    pose proof (Hv c (or_introl eq_refl)). pose proof (Hq b (or_introl eq_refl)).
    assert (0 <= zsum q) by (apply zsum_nonneg; intros x Hx; apply (Hq x); now right).
    rewrite w64_small by lia. cbn [bind]. rewrite w64_small by lia. cbn [bind].
    apply IH; try lia; intros; first [solve [apply Hv; now right]|apply Hq; now right].
  Qed.
  Lemma wd_binarize : binarize_w (qans Q) = binarize (qans Q).
  Proof.
    unfold binarize_w, binarize. destruct (forallb _ _) eqn:Ek; auto. cbn [assert_ bind]. rewrite wd_quota.
    pose proof (i_rooms _ _ HB) as HRm. rewrite (rooms_quota s _ HRm). cbn [bind].
    destruct HRm as (_ & _ & HL & H1).
    destruct (any2 Z.gtb (av (qans Q)) s) eqn:E2; auto. cbn [negb assert_ bind].
    rewrite any2_gtb_false in E2 by auto. rewrite forallb_forall in Ek.
    apply binarize_loop_w_ok; try lia.
    - intros x Hx. specialize (Ek x Hx). destruct (i_av _ _ HB x Hx) as [->|H0]; [discriminate|]. split; auto.
      apply (In_nth _ _ 0) in Hx. destruct Hx as (i & Hi & <-). specialize (E2 i ltac:(lia)).
      assert (Hin : In (nth i s 0) s) by (apply nth_In; lia). apply wd_s in Hin. lia.
    - intros x Hx. apply wd_s in Hx. lia.
  Qed.
End shell.
