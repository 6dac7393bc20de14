(** Facts about srg/sorter.py: the order on matrices and the stable sort. *)
From Verif Require Import Np ModelGauss Model ModelSort Spec QSpec SortSpec Lib Graph PartProps.
From Coq Require Import ZifyBool ZifyNat Sorting.Sorted Sorting.Permutation.

(** ** the lexicographic order *)
Lemma lex_lt_trans x : forall y z, lex_lt x y -> lex_lt y z -> lex_lt x z.
Proof.
  induction x as [|a x IH]; intros [|b y] [|c z]; simpl; try tauto.
  intros [H1|[-> H1]] [H2|[-> H2]]; try (left; lia). right. eauto.
Qed.
Lemma lex_total x : forall y, length x = length y -> lex_lt x y \/ x = y \/ lex_lt y x.
Proof.
  induction x as [|a x IH]; intros [|b y] H; simpl in *; try lia; auto.
  destruct (Z.lt_total a b) as [L|[->|L]]; auto. destruct (IH y ltac:(lia)) as [L|[->|L]]; auto.
Qed.
Lemma lex_le_trans x y z : lex_le x y -> lex_le y z -> lex_le x z.
Proof. unfold lex_le. intros [H1|H1] [H2|H2]; subst; auto. right. eapply lex_lt_trans; eauto. Qed.
Lemma lex_le_antisym x y : lex_le x y -> lex_le y x -> x = y.
Proof. intros [H1|H1] [H2|H2]; auto. exfalso. eapply lex_lt_irrefl, lex_lt_trans; eauto. Qed.
Lemma lex_lt_app_l p x y : lex_lt x y -> lex_lt (p ++ x) (p ++ y).
Proof. intros H. induction p as [|a p IH]; simpl; auto. Qed.
Lemma lex_lt_app_r x : forall y s t, lex_lt x y -> lex_lt (x ++ s) (y ++ t).
Proof. induction x as [|a x IH]; intros [|b y] s t; simpl; try tauto. intros [H|[-> H]]; auto. Qed.

Lemma cmp_1d_spec x : forall y, length x = length y ->
  (cmp_1d x y < 0 <-> lex_lt x y) /\ (cmp_1d x y = 0 <-> x = y) /\ (0 < cmp_1d x y <-> lex_lt y x).
Proof.
  induction x as [|a x IH]; intros [|b y] H; simpl in H; try lia.
  - simpl. split; [|split]; split; intros; auto; try lia; contradiction.
  - cbn [cmp_1d lex_lt]. destruct (Z.eqb_spec a b) as [->|Hne].
    + destruct (IH y ltac:(lia)) as (H1 & H2 & H3). rewrite H1, H2, H3. split; [|split]; split; intros G; auto.
      * destruct G as [G|[_ G]]; auto. lia.
      * now subst.
      * now injection G.
      * destruct G as [G|[_ G]]; auto. lia.
    + split; [|split]; split; intros G; try lia; try (destruct G as [G|[G _]]; lia); try (injection G; lia).
Qed.

(** ** encodings *)
Lemma skipn_map_nth n row : forall r, length row = n ->
  skipn r row = map (fun j => nth j row 0) (seq r (n - r)).
Proof.
  intros r <-. revert r. induction row as [|a row IH]; intros r; [now destruct r|].
  destruct r as [|r].
  - simpl skipn. simpl length. rewrite Nat.sub_0_r. cbn [seq map]. f_equal.
    specialize (IH 0%nat). rewrite Nat.sub_0_r in IH. simpl skipn in IH.
    rewrite IH at 1. rewrite <- seq_shift, map_map. reflexivity.
  - simpl skipn. rewrite IH. simpl length. replace (S (length row) - S r)%nat with (length row - r)%nat by lia.
    rewrite <- seq_shift, map_map. reflexivity.
Qed.
Lemma upper_from_spec v M : forall r, (forall row, In row M -> length row = v) ->
  upper_from r M = concat (map (fun i => map (fun j => nth j (nth (i - r) M []) 0) (seq (S i) (v - S i))) (seq r (length M))).
Proof.
  induction M as [|row M IH]; intros r H; [reflexivity|]. cbn [upper_from length seq map concat].
  rewrite Nat.sub_diag, (skipn_map_nth v) by (apply H; now left). f_equal.
  rewrite IH by (intros; apply H; now right). f_equal. apply map_ext_in. intros i Hi. apply in_seq in Hi.
  replace (i - r)%nat with (S (i - S r)) by lia. reflexivity.
Qed.
Lemma encode_upper v M : shape v v M -> sort_encode M = upper v M.
Proof.
  intros [HL HR]. unfold sort_encode, upper. rewrite (upper_from_spec v) by auto. rewrite HL. f_equal. apply map_ext_in.
  intros i Hi. rewrite Nat.sub_0_r. reflexivity.
Qed.
Lemma upper_length v M N : length (upper v M) = length (upper v N).
Proof.
  unfold upper. generalize (seq 0 v) as l. induction l as [|i l IH]; simpl; auto. now rewrite !app_length, !map_length, IH.
Qed.
Lemma app_inj_length {A} (x : list A) : forall y s t, length x = length y -> x ++ s = y ++ t -> x = y /\ s = t.
Proof.
  induction x as [|a x IH]; intros [|b y] s t HL E; simpl in *; try lia; auto.
  injection E as -> E. destruct (IH y s t ltac:(lia) E) as [-> ->]. auto.
Qed.
Lemma concat_map_inj {A} (f g : A -> list Z) l : (forall a, In a l -> length (f a) = length (g a)) ->
  concat (map f l) = concat (map g l) -> forall a, In a l -> f a = g a.
Proof.
  induction l as [|b l IH]; intros HL E a Ha; [easy|]. simpl in E. apply app_inj_length in E; [|apply HL; now left].
  destruct E as [E1 E2]. destruct Ha as [<-|Ha]; auto. apply IH; auto. intros; apply HL; now right.
Qed.
Lemma upper_cells v M N : upper v M = upper v N -> forall i j, (i < j < v)%nat -> cell M i j = cell N i j.
Proof.
  intros E i j Hij. apply concat_map_inj with (a := i) in E.
  - assert (G : forall l, map (fun j => cell M i j) l = map (fun j => cell N i j) l -> In j l -> cell M i j = cell N i j).
    { clear. induction l as [|a l IH]; intros H Hin; [easy|]. injection H as H1 H2. destruct Hin as [->|Hin]; auto. }
    apply (G _ E). apply in_seq. lia.
  - intros a _. now rewrite !map_length.
  - apply in_seq. lia.
Qed.
Lemma upper_ext v M N : (forall i j, (i < j < v)%nat -> cell M i j = cell N i j) -> upper v M = upper v N.
Proof.
  intros H. unfold upper. f_equal. apply map_ext_in. intros i Hi. apply map_ext_in. intros j Hj.
  apply in_seq in Hi, Hj. apply H. lia.
Qed.
(** a larger entry at the first difference *)
Lemma lex_lt_first f g : forall n a p, (a <= p < a + n)%nat -> (forall j, (a <= j < p)%nat -> f j = g j) -> f p < g p ->
  lex_lt (map f (seq a n)) (map g (seq a n)).
Proof.
  induction n as [|n IH]; intros a p Hp Hj Hlt; [lia|]. simpl. destruct (Nat.eq_dec a p) as [->|Hne]; auto.
  right. split; [apply Hj; lia|]. apply (IH (S a) p); auto; try lia. intros j Hj'. apply Hj. lia.
Qed.
Lemma upper_lex v M N r p : (r < p < v)%nat ->
  (forall i j, (i < r)%nat -> (i < j < v)%nat -> cell M i j = cell N i j) ->
  (forall j, (r < j < p)%nat -> cell M r j = cell N r j) -> cell M r p < cell N r p ->
  lex_lt (upper v M) (upper v N).
Proof.
  intros Hr Hrows Hrow Hlt. unfold upper.
  replace (seq 0 v) with (seq 0 r ++ r :: seq (S r) (v - S r)).
  2:{ replace v with (r + S (v - S r))%nat at 2 by lia. rewrite seq_app. reflexivity. }
  rewrite !map_app, !concat_app. cbn [map concat].
  replace (map (fun i => map (fun j => cell M i j) (seq (S i) (v - S i))) (seq 0 r))
     with (map (fun i => map (fun j => cell N i j) (seq (S i) (v - S i))) (seq 0 r)).
  2:{ apply map_ext_in. intros i Hi. apply map_ext_in. intros j Hj. apply in_seq in Hi, Hj. symmetry. apply Hrows; lia. }
  apply lex_lt_app_l, lex_lt_app_r. apply (lex_lt_first _ _ _ _ p); auto. lia.
Qed.
Lemma upper_determines v M N : adjacency v M -> adjacency v N -> upper v M = upper v N -> M = N.
Proof.
  intros (S1 & _ & Y1 & D1) (S2 & _ & Y2 & D2) E. apply (matrix_ext v v); auto. intros i j Hi Hj.
  destruct (Nat.lt_total i j) as [L|[->|L]].
  - apply (upper_cells v _ _ E). lia.
  - now rewrite D1, D2.
  - rewrite Y1, Y2 by auto. apply (upper_cells v _ _ E). lia.
Qed.

(** ** the comparison *)
Lemma cmp_proof v a b : square v a -> square v b ->
  (cmp_matrix a b < 0 <-> lex_lt (upper v (mrows a)) (upper v (mrows b)))
  /\ (cmp_matrix a b = 0 <-> upper v (mrows a) = upper v (mrows b))
  /\ (0 < cmp_matrix a b <-> lex_lt (upper v (mrows b)) (upper v (mrows a))).
Proof.
  intros [_ Ha] [_ Hb]. unfold cmp_matrix. rewrite !(encode_upper v) by auto. apply cmp_1d_spec. apply upper_length.
Qed.

(** ** the sort *)
Section sort.
  Variable v : nat.
  Let key := fun m => upper v (mrows m).
  Let le := fun a b => lex_le (key a) (key b).
  Let same := fun e m => vec_eqb (key m) e.

  Lemma vec_eqb_iff x y : vec_eqb x y = true <-> x = y.
  Proof.
    unfold vec_eqb. revert y. induction x as [|a x IH]; intros [|b y]; simpl; split; intros H; try easy.
    - apply andb_true_iff in H. destruct H as [H1 H2]. apply IH in H2. f_equal; [lia|auto].
    - injection H as -> ->. apply andb_true_iff. split; [lia|now apply IH].
  Qed.

  Lemma insert_perm m l : Permutation (insert_matrix m l) (m :: l).
  Proof.
    induction l as [|y l IH]; simpl; auto. destruct (cmp_matrix y m <? 0); auto.
    eapply perm_trans; [apply perm_skip, IH|]. apply perm_swap.
  Qed.
  Lemma sort_perm l : Permutation (sort_matrices l) l.
  Proof. induction l as [|m l IH]; simpl; auto. eapply perm_trans; [apply insert_perm|]. auto. Qed.

  Lemma insert_sorted m l : square v m -> (forall x, In x l -> square v x) ->
    StronglySorted le l -> StronglySorted le (insert_matrix m l).
  Proof.
    intros Hm Hl. induction 1 as [|y l H IH HF]; [repeat constructor|].
    assert (Hy : square v y) by (apply Hl; now left). destruct (cmp_proof v y m Hy Hm) as (C1 & C2 & C3). simpl.
    rewrite Forall_forall in HF. destruct (Z.ltb_spec (cmp_matrix y m) 0) as [L|L].
    - constructor; [apply IH; intros; apply Hl; now right|]. apply Forall_forall. intros z Hz.
      apply (Permutation_in _ (insert_perm m l)) in Hz. destruct Hz as [<-|Hz]; auto. right. now apply C1.
    - assert (Hmy : le m y).
      { destruct (lex_total (key y) (key m)) as [G|[G|G]]; [apply upper_length| | |].
        - apply C1 in G. lia.
        - left. now symmetry.
        - now right. }
      constructor; [constructor; auto; now apply Forall_forall|]. apply Forall_forall. intros z [<-|Hz]; auto.
      eapply lex_le_trans; [exact Hmy|]. now apply HF.
  Qed.
  Lemma sort_sorted l : (forall x, In x l -> square v x) -> StronglySorted le (sort_matrices l).
  Proof.
    induction l as [|m l IH]; intros H; simpl; [constructor|]. apply insert_sorted.
    - apply H. now left.
    - intros x Hx. apply (Permutation_in _ (sort_perm l)) in Hx. apply H. now right.
    - apply IH. intros; apply H; now right.
  Qed.

  Lemma insert_stable e m l : square v m -> (forall x, In x l -> square v x) ->
    filter (same e) (insert_matrix m l) = filter (same e) (m :: l).
  Proof.
    intros Hm Hl. induction l as [|y l IH]; [reflexivity|]. simpl insert_matrix.
    destruct (Z.ltb_spec (cmp_matrix y m) 0) as [L|L]; [|reflexivity].
    destruct (cmp_proof v y m ltac:(apply Hl; now left) Hm) as (C1 & _ & _). apply C1 in L.
    cbn [filter] in *. rewrite IH by (intros; apply Hl; now right).
    destruct (same e m) eqn:Em, (same e y) eqn:Ey; auto. exfalso.
    apply vec_eqb_iff in Em, Ey. unfold key in *. rewrite Em, Ey in L. now apply lex_lt_irrefl in L.
  Qed.
  Lemma sort_stable e l : (forall x, In x l -> square v x) ->
    filter (same e) (sort_matrices l) = filter (same e) l.
  Proof.
    induction l as [|m l IH]; intros H; [reflexivity|]. change (sort_matrices (m :: l)) with (insert_matrix m (sort_matrices l)).
    rewrite insert_stable.
    - cbn [filter]. rewrite IH by (intros; apply H; now right). reflexivity.
    - apply H. now left.
    - intros x Hx. apply (Permutation_in _ (sort_perm l)) in Hx. apply H. now right.
  Qed.

  (** sortedness and stability determine the result *)
  Lemma stable_unique l1 : forall l2, StronglySorted le l1 -> StronglySorted le l2 ->
    (forall e, filter (same e) l1 = filter (same e) l2) -> l1 = l2.
  Proof.
    assert (Hself : forall m, same (key m) m = true) by (intros m; now apply vec_eqb_iff).
    assert (Hin : forall l l' m, (forall e, filter (same e) l = filter (same e) l') -> In m l -> In m l').
    { intros l l' m Hf Hm. assert (Hi : In m (filter (same (key m)) l)) by (apply filter_In; auto).
      rewrite Hf in Hi. apply filter_In in Hi. tauto. }
    induction l1 as [|a l1 IH]; intros [|b l2] H1 H2 Hf; auto.
    - exfalso. specialize (Hf (key b)). simpl in Hf. rewrite Hself in Hf. discriminate.
    - exfalso. specialize (Hf (key a)). simpl in Hf. rewrite Hself in Hf. discriminate.
    - inversion H1 as [|? ? S1 F1]; subst. inversion H2 as [|? ? S2 F2]; subst. rewrite Forall_forall in F1, F2.
      assert (Hab : le a b).
      { assert (In b (a :: l1)) as [<-|Hi] by (apply (Hin (b :: l2)); [intros; now rewrite Hf|now left]); [now left|auto]. }
      assert (Hba : le b a).
      { assert (In a (b :: l2)) as [<-|Hi] by (apply (Hin (a :: l1)); [auto|now left]); [now left|auto]. }
      assert (E : key a = key b) by (apply lex_le_antisym; auto).
      assert (a = b).
      { pose proof (Hf (key a)) as G. simpl in G. rewrite Hself in G. rewrite E in G at 2. rewrite Hself in G. now injection G. }
      subst b. f_equal. apply IH; auto. intros e. specialize (Hf e). simpl in Hf. destruct (same e a); auto. now injection Hf.
  Qed.
End sort.

Lemma sort_proof v l : (forall m, In m l -> square v m) ->
  Permutation (sort_matrices l) l
  /\ StronglySorted (fun a b => lex_le (upper v (mrows a)) (upper v (mrows b))) (sort_matrices l)
  /\ (forall e, filter (fun m => vec_eqb (upper v (mrows m)) e) (sort_matrices l)
              = filter (fun m => vec_eqb (upper v (mrows m)) e) l).
Proof.
  intros H. split; [apply sort_perm|]. split; [now apply sort_sorted|]. intros e. now apply (sort_stable v).
Qed.
Lemma sort_unique_proof v l l' : (forall m, In m l -> square v m) ->
  Permutation l' l ->
  StronglySorted (fun a b => lex_le (upper v (mrows a)) (upper v (mrows b))) l' ->
  (forall e, filter (fun m => vec_eqb (upper v (mrows m)) e) l' = filter (fun m => vec_eqb (upper v (mrows m)) e) l) ->
  l' = sort_matrices l.
Proof.
  intros H _ H2 H3. apply (stable_unique v); auto; [now apply sort_sorted|].
  intros e. rewrite H3. symmetry. now apply (sort_stable v).
Qed.
Lemma encoding_order :
  (forall x, ~ lex_lt x x)
  /\ (forall x y z, lex_lt x y -> lex_lt y z -> lex_lt x z)
  /\ (forall x y, length x = length y -> lex_lt x y \/ x = y \/ lex_lt y x)
  /\ (forall v M, length (upper v M) = length (upper v []))
  /\ (forall v M N, adjacency v M -> adjacency v N -> upper v M = upper v N -> M = N).
Proof.
  split; [exact lex_lt_irrefl|]. split; [exact lex_lt_trans|]. split; [exact lex_total|]. split; [intros; apply upper_length|].
  exact upper_determines.
Qed.
