(** Questions: bucket vectors, the invariant of a question, what its
    solutions are, and what substituting values for columns does. *)
From Verif Require Import Np ModelGauss Model Spec Lib Cone ElimFacts.
From Coq Require Import ZifyBool ZifyNat Sorting.Sorted.

(** ** Sorted lists of positions *)
Lemma sorted_ext (a b : list nat) :
  StronglySorted lt a -> StronglySorted lt b -> (forall x, In x a <-> In x b) -> a = b.
Proof.
  revert b. induction a as [|x a IH]; intros b Ha Hb H.
  - destruct b as [|y b]; auto. exfalso. apply (H y). now left.
  - destruct b as [|y b]; [exfalso; apply (H x); now left|].
    inversion Ha as [|? ? Ha1 Ha2]; subst. inversion Hb as [|? ? Hb1 Hb2]; subst.
    rewrite Forall_forall in Ha2, Hb2.
    assert (x = y) as ->.
    { destruct (proj1 (H x) (or_introl eq_refl)) as [E|Hx]; auto.
      destruct (proj2 (H y) (or_introl eq_refl)) as [E|Hy]; auto.
      specialize (Ha2 _ Hy). specialize (Hb2 _ Hx). lia. }
    f_equal. apply IH; auto. intros z. split; intros Hz.
    + destruct (proj1 (H z) (or_intror Hz)) as [<-|?]; auto. specialize (Ha2 _ Hz). lia.
    + destruct (proj2 (H z) (or_intror Hz)) as [<-|?]; auto. specialize (Hb2 _ Hz). lia.
Qed.

Lemma sorted_filter_nat (p : nat -> bool) l : StronglySorted lt l -> StronglySorted lt (filter p l).
Proof.
  induction 1 as [|x l H IH HF]; simpl; [constructor|].
  destruct (p x); auto. constructor; auto.
  apply Forall_forall. intros y Hy. apply filter_In in Hy. rewrite Forall_forall in HF. apply HF. tauto.
Qed.
Lemma seq_sorted_nat n : forall i, StronglySorted lt (seq i n).
Proof.
  induction n as [|n IH]; intros i; simpl; constructor; auto.
  apply Forall_forall. intros x Hx. apply in_seq in Hx. lia.
Qed.
Lemma where_sorted {A} (p : A -> bool) l : StronglySorted lt (where_ p l).
Proof.
  destruct l as [|d l]; [constructor|]. rewrite (where_filter p d).
  apply sorted_filter_nat, seq_sorted_nat.
Qed.
Lemma delete_sorted js (l : list nat) : StronglySorted lt l -> StronglySorted lt (delete js l).
Proof.
  unfold delete. generalize 0%nat as i.
  intros i H. revert i. induction H as [|x l H IH HF]; intros i; simpl; [constructor|].
  destruct (memn i js); auto. constructor; auto.
  apply Forall_forall. intros y Hy. rewrite Forall_forall in HF. apply HF.
  clear - Hy. revert Hy. generalize (S i) as k. induction l as [|z l IH]; intros k; simpl; auto.
  destruct (memn k js); simpl; intros H; eauto. destruct H; eauto.
Qed.
Lemma in_delete_iff {A} (d : A) js l x :
  In x (delete js l) <-> exists j, (j < length l)%nat /\ ~ In j js /\ nth j l d = x.
Proof.
  rewrite (delete_pick d). unfold pick. rewrite in_map_iff. split.
  - intros (j & E & Hj). apply in_keep in Hj. exists j. tauto.
  - intros (j & H1 & H2 & E). exists j. split; auto. apply in_keep. auto.
Qed.

(** ** Assigning values *)
Lemma assign_all_length ul jx : forall v, length (assign_all ul jx v) = length v.
Proof.
  induction jx as [|[j x] jx IH]; intros v; [reflexivity|].
  unfold assign_all in *. simpl. rewrite IH. apply set_nth_length.
Qed.

Lemma assign_all_other ul jx : forall v i,
  (forall j x, In (j, x) jx -> nth j ul 0%nat <> i) -> nth i (assign_all ul jx v) 0 = nth i v 0.
Proof.
  induction jx as [|[j x] jx IH]; intros v i H; [reflexivity|].
  unfold assign_all in *. simpl. rewrite IH by (intros; eapply H; right; eauto).
  rewrite nth_set_nth. specialize (H j x (or_introl eq_refl)).
  destruct (Nat.eqb_spec i (nth j ul 0%nat)); [congruence|reflexivity].
Qed.

Lemma assign_all_here ul jx : NoDup ul -> NoDup (map fst jx) ->
  (forall j x, In (j, x) jx -> (j < length ul)%nat) ->
  forall v, (forall i, In i ul -> (i < length v)%nat) ->
  forall j x, In (j, x) jx -> nth (nth j ul 0%nat) (assign_all ul jx v) 0 = x.
Proof.
  intros Hul. induction jx as [|[j0 x0] jx IH]; intros Hd Hb v Hv j x Hin; [easy|].
  simpl in Hd. inversion Hd as [|? ? Hn Hd']; subst.
  destruct Hin as [E|Hin].
  - injection E as -> ->. unfold assign_all. simpl. fold (assign_all ul jx (set_nth (nth j ul 0%nat) x v)).
    assert (Hj : (j < length ul)%nat) by (eapply Hb; left; reflexivity).
    rewrite assign_all_other.
    + rewrite nth_set_nth, Nat.eqb_refl.
      assert (nth j ul 0 < length v)%nat as Hlt by (apply Hv, nth_In; auto).
      apply Nat.ltb_lt in Hlt. now rewrite Hlt.
    + intros j' x' Hin' E. apply Hn. apply in_map_iff. exists (j', x'). split; auto. simpl.
      apply (NoDup_nth ul 0%nat); auto. eapply Hb. right. eauto.
  - unfold assign_all. simpl. fold (assign_all ul jx (set_nth (nth j0 ul 0%nat) x0 v)).
    apply IH; auto.
    + intros; eapply Hb; right; eauto.
    + intros i Hi. rewrite set_nth_length. auto.
Qed.

Definition extends (v w : list Z) : Prop :=
  length w = length v
  /\ forall i, (i < length v)%nat -> nth i v 0 = UNKNOWN \/ nth i w 0 = nth i v 0.

Lemma in_unknown v i : In i (where_ is_unknown v) <-> (i < length v)%nat /\ nth i v 0 = UNKNOWN.
Proof. rewrite (where_spec _ 0). unfold is_unknown. rewrite Z.eqb_eq. reflexivity. Qed.

Section assign.
  Variables (v : list Z) (jx : list (nat * Z)).
  Let ul := where_ is_unknown v.
  Hypothesis Hd : NoDup (map fst jx).
  Hypothesis Hb : forall j x, In (j, x) jx -> (j < length ul)%nat /\ 0 <= x.

  Lemma assign_unknown_loc :
    where_ is_unknown (assign_all ul jx v) = delete (map fst jx) ul.
  Proof.
    assert (Hul : NoDup ul) by apply where_NoDup.
    apply sorted_ext; [apply where_sorted|apply delete_sorted, where_sorted|].
    intros i. rewrite in_unknown, assign_all_length, (in_delete_iff 0%nat).
    split.
    - intros [Hi Hu].
      destruct (existsb (fun p => Nat.eqb (nth (fst p) ul 0%nat) i) jx) eqn:E.
      + apply existsb_exists in E. destruct E as ([j x] & Hin & E). apply Nat.eqb_eq in E. simpl in E.
        rewrite <- E in Hu. rewrite (assign_all_here ul jx Hul Hd) with (x := x) in Hu; auto.
        * apply Hb in Hin. unfold UNKNOWN in Hu. lia.
        * intros j' x' H'. now apply Hb in H'.
        * intros k Hk. apply in_unknown in Hk. tauto.
      + rewrite existsb_none in E.
        assert (Ho : forall j x, In (j, x) jx -> nth j ul 0%nat <> i).
        { intros j x Hin Hx. specialize (E _ Hin). simpl in E. apply Nat.eqb_neq in E. auto. }
        rewrite assign_all_other in Hu by auto.
        assert (Hin : In i ul) by (apply in_unknown; auto).
        apply (In_nth _ _ 0%nat) in Hin. destruct Hin as (j & Hj & Ej). exists j. repeat split; auto.
        intros Hjm. apply in_map_iff in Hjm. destruct Hjm as ([j' x'] & E' & Hin'). simpl in E'. subst j'.
        now apply (Ho j x').
    - intros (j & Hj & Hn & <-).
      assert (Hin : In (nth j ul 0%nat) ul) by now apply nth_In.
      apply in_unknown in Hin. destruct Hin as [H1 H2]. split; auto.
      rewrite assign_all_other; auto.
      intros j' x' Hin' E. apply Hn. apply in_map_iff. exists (j', x'). split; auto. simpl.
      apply (NoDup_nth ul 0%nat); auto. now apply Hb in Hin'.
  Qed.

  Lemma assign_extends w :
    extends (assign_all ul jx v) w <->
    extends v w /\ forall j x, In (j, x) jx -> nth (nth j ul 0%nat) w 0 = x.
  Proof.
    assert (Hul : NoDup ul) by apply where_NoDup.
    assert (Hlt : forall j x, In (j, x) jx -> (j < length ul)%nat) by (intros j x H; now apply Hb in H).
    assert (Hin : forall i, In i ul -> (i < length v)%nat) by (intros i Hi; apply in_unknown in Hi; tauto).
    unfold extends. rewrite assign_all_length. split.
    - intros [HL H]. split; [split; auto|].
      + intros i Hi. destruct (Z.eq_dec (nth i v 0) UNKNOWN) as [E|E]; auto. right.
        specialize (H i Hi). rewrite assign_all_other in H; [tauto|].
        intros j x Hjx Ej. assert (Hiu : In i ul) by (rewrite <- Ej; apply nth_In; eauto).
        apply in_unknown in Hiu. tauto.
      + intros j x Hjx. assert (Hi : In (nth j ul 0%nat) ul) by (apply nth_In; eauto).
        specialize (H _ (Hin _ Hi)). rewrite (assign_all_here ul jx Hul Hd Hlt v Hin j x Hjx) in H.
        destruct H as [H|H]; auto. apply Hb in Hjx. unfold UNKNOWN in H. lia.
    - intros [[HL H] Hw]. split; auto. intros i Hi.
      destruct (existsb (fun p => Nat.eqb (nth (fst p) ul 0%nat) i) jx) eqn:E.
      + apply existsb_exists in E. destruct E as ([j x] & Hjx & E). apply Nat.eqb_eq in E. simpl in E.
        right. rewrite <- E. rewrite (assign_all_here ul jx Hul Hd Hlt v Hin j x Hjx). eauto.
      + rewrite existsb_none in E. rewrite assign_all_other; auto.
        intros j x Hjx Ej. specialize (E _ Hjx). simpl in E. apply Nat.eqb_neq in E. auto.
  Qed.

  Lemma assign_nonneg :
    (forall x, In x v -> x = UNKNOWN \/ 0 <= x) ->
    forall x, In x (assign_all ul jx v) -> x = UNKNOWN \/ 0 <= x.
  Proof.
    intros Hv x Hx. apply (In_nth _ _ 0) in Hx. destruct Hx as (i & Hi & <-).
    rewrite assign_all_length in Hi.
    destruct (existsb (fun p => Nat.eqb (nth (fst p) ul 0%nat) i) jx) eqn:E.
    - apply existsb_exists in E. destruct E as ([j x] & Hjx & E). apply Nat.eqb_eq in E. simpl in E.
      assert (Hlt : forall j x, In (j, x) jx -> (j < length ul)%nat) by (intros j' x' H; now apply Hb in H).
      assert (Hin : forall i, In i ul -> (i < length v)%nat) by (intros k Hk; apply in_unknown in Hk; tauto).
      rewrite <- E, (assign_all_here ul jx (where_NoDup _ _) Hd Hlt v Hin j x Hjx).
      right. now apply Hb in Hjx.
    - rewrite existsb_none in E. rewrite assign_all_other; [apply Hv, nth_In; auto|].
      intros j x Hjx Ej. specialize (E _ Hjx). simpl in E. apply Nat.eqb_neq in E. auto.
  Qed.
End assign.

Lemma pick_delete js ul w : pick 0 (delete js ul) w = delete js (pick 0 ul w).
Proof. unfold pick. apply map_delete. Qed.

(** ** Buckets: sizes [s], start positions *)
Fixpoint starts (p : Z) (s : list Z) : list Z :=
  match s with
  | [] => []
  | n :: t => p :: starts (p + n) t
  end.
Lemma starts_length s : forall p, length (starts p s) = length s.
Proof. induction s as [|n s IH]; intros p; simpl; auto. Qed.

Lemma diff_starts s : forall p n, diff (starts p (n :: s) ++ [p + n + zsum s]) = n :: s.
Proof.
  induction s as [|m s IH]; intros p n.
  - unfold zsum. simpl. f_equal. lia.
  - specialize (IH (p + n) m). rewrite zsum_cons.
    cbn [starts app diff] in *. rewrite Z.add_assoc, IH. f_equal. lia.
Qed.
Lemma quota_of_starts s : quota_of (starts 0 s) (zsum s) = s.
Proof.
  unfold quota_of. destruct s as [|n s]; [reflexivity|].
  rewrite zsum_cons. pose proof (diff_starts s 0 n) as H. rewrite Z.add_0_l in H. exact H.
Qed.

Definition rooms (s : list Z) (a : answer) : Prop :=
  aloc a = starts 0 s /\ alen a = zsum s /\ length (av a) = length s
  /\ (forall x, In x s -> 1 <= x).

Lemma rooms_quota s a : rooms s a -> answer_quota a = Ok s.
Proof.
  intros (H1 & H2 & H3 & H4). unfold answer_quota. rewrite H1, H2, quota_of_starts.
  cbv zeta. rewrite Z.eqb_refl. reflexivity.
Qed.

Lemma starts_last s : forall p n, (forall x, In x (n :: s) -> 1 <= x) ->
  last (starts p (n :: s)) 0 < p + n + zsum s.
Proof.
  induction s as [|m s IH]; intros p n H.
  - unfold zsum. simpl. specialize (H n (or_introl eq_refl)). lia.
  - rewrite zsum_cons.
    change (last (starts p (n :: m :: s)) 0) with (last (starts (p + n) (m :: s)) 0).
    specialize (IH (p + n) m ltac:(intros x Hx; apply H; now right)). lia.
Qed.
Lemma diff_starts_pos s : forall p, (forall x, In x s -> 1 <= x) ->
  forallb (fun d => negb (d =? 0)) (diff (starts p s)) = true.
Proof.
  induction s as [|n s IH]; intros p H; [reflexivity|].
  destruct s as [|m s]; [reflexivity|].
  specialize (IH (p + n) ltac:(intros x Hx; apply H; now right)).
  cbn [starts diff forallb] in *. rewrite IH. specialize (H n (or_introl eq_refl)). lia.
Qed.
Lemma mk_answer_rooms s v : length v = length s -> (forall x, In x s -> 1 <= x) ->
  mk_answer v (starts 0 s) (zsum s) = Ok (Ans v (starts 0 s) (zsum s)).
Proof.
  intros HL Hs. unfold mk_answer. rewrite starts_length, HL, Nat.eqb_refl. cbn [assert_ bind].
  destruct s as [|n s]; [reflexivity|].
  pose proof (starts_last s 0 n Hs) as Hlast. pose proof (diff_starts_pos (n :: s) 0 Hs) as Hdiff.
  rewrite Hdiff. rewrite zsum_cons.
  destruct (Z.ltb_spec (last (starts 0 (n :: s)) 0) (n + zsum s)); [|lia].
  cbn [starts]. reflexivity.
Qed.
Lemma rooms_copy s a : rooms s a -> answer_copy a = Ok a.
Proof.
  intros (H1 & H2 & H3 & H4). unfold answer_copy. destruct a as [v loc len]. simpl in *. subst.
  now apply mk_answer_rooms.
Qed.

(** ** Questions *)
Definition qsys (Q : question) : sys := msys (mrows (qA Q)) (qb Q).
Definition qcols (Q : question) : nat := mcols (qA Q).
Definition unknowns (Q : question) (w : list Z) : list Z := pick 0 (unknown_loc (qans Q)) w.

(** well-formed: shapes and ranges *)
Record shell (s : list Z) (Q : question) : Prop := {
  i_rows : forall row, In row (mrows (qA Q)) -> length row = qcols Q /\ bits row;
  i_blen : length (qb Q) = mnrows (qA Q);
  i_b : forall x, In x (qb Q) -> 0 <= x <= 127;
  i_bdlen : length (qbounds Q) = qcols Q;
  i_bd : forall x, In x (qbounds Q) -> 0 <= x <= 127;
  i_quota : 0 <= qquota Q <= 127;
  i_rooms : rooms s (qans Q);
  i_ul : length (unknown_loc (qans Q)) = qcols Q }.
(** the invariant of the search *)
Record base (s : list Z) (Q : question) : Prop := {
  i_shell :> shell s Q;
  i_cone : cone (qcols Q) (qsys Q) (repeat 1 (qcols Q)) (qquota Q);
  i_av : forall x, In x (av (qans Q)) -> x = UNKNOWN \/ 0 <= x;
  i_C : (qcols Q <= 63)%nat;
  i_R : (3 <= qcols Q)%nat -> (mnrows (qA Q) <= 64)%nat }.
(** a column fits into an int64 key *)
Definition fits (Q : question) : Prop := (2 <= qcols Q)%nat -> (mnrows (qA Q) <= 64)%nat.
#[global] Hint Resolve i_shell : core.

Definition distinct (Q : question) : Prop :=
  forall i j, (i < j < qcols Q)%nat ->
    exists row, In row (mrows (qA Q)) /\ nth i row 0 <> nth j row 0.

(** [w]: a full bucket vector *)
Record solw (s : list Z) (Q : question) (w : list Z) : Prop := {
  sw_ext : extends (av (qans Q)) w;
  sw_room : forall i, (i < length s)%nat -> 0 <= nth i w 0 <= nth i s 0;
  sw_sys : holds (qsys Q) (unknowns Q w);
  sw_quota : zsum (unknowns Q w) = qquota Q;
  sw_bd : forall j, (j < qcols Q)%nat -> nth j (unknowns Q w) 0 <= nth j (qbounds Q) 0 }.

Record weakw (Q : question) (w : list Z) : Prop := {
  ww_ext : extends (av (qans Q)) w;
  ww_pos : forall x, In x w -> 0 <= x;
  ww_sys : below (qsys Q) (unknowns Q w) }.

Definition prodb (l : list Z) : Z := fold_right (fun b acc => (b + 2) * acc) 1 l.

Record step (s : list Z) (Q Q' : question) : Prop := {
  st_ext : forall w, extends (av (qans Q')) w -> extends (av (qans Q)) w;
  st_sol : forall w, solw s Q w -> solw s Q' w;
  st_weak : forall w, weakw Q' w -> weakw Q w;
  st_mu : prodb (qbounds Q') <= prodb (qbounds Q);
  st_cols : (qcols Q' <= qcols Q)%nat;
  st_rows : (mnrows (qA Q') <= mnrows (qA Q))%nat }.

Lemma step_refl s Q : step s Q Q.
Proof. constructor; auto; lia. Qed.
Lemma step_trans s Q1 Q2 Q3 : step s Q1 Q2 -> step s Q2 Q3 -> step s Q1 Q3.
Proof. intros [A1 A2 A3 A4 A5 A6] [B1 B2 B3 B4 B5 B6]. constructor; auto; lia. Qed.

Lemma qsys_wide s Q : shell s Q -> wide (qcols Q) (qsys Q).
Proof. intros H row b Hin. apply in_combine_l in Hin. now apply (i_rows _ _ H). Qed.
Lemma qsys_in s Q row : shell s Q -> In row (mrows (qA Q)) -> exists x, In (row, x) (qsys Q) /\ In x (qb Q).
Proof.
  intros H Hr. apply (In_nth _ _ []) in Hr. destruct Hr as (i & Hi & <-).
  pose proof (i_blen _ _ H) as HL. unfold mnrows in HL.
  exists (nth i (qb Q) 0). split; [apply nth_in_combine; auto; lia|apply nth_In; lia].
Qed.
Lemma qsys_good s Q row x : shell s Q -> In (row, x) (qsys Q) ->
  length row = qcols Q /\ bits row /\ 0 <= x <= 127.
Proof.
  intros H Hin. destruct (i_rows _ _ H row) as [L Bt]; [now apply in_combine_l in Hin|].
  repeat split; auto; apply in_combine_r in Hin; now apply (i_b _ _ H) in Hin.
Qed.
Lemma unknowns_length Q w : length (unknowns Q w) = length (unknown_loc (qans Q)).
Proof. apply pick_length. Qed.

(** every column has a 1 in a row whose right-hand side is at most the quota *)
Lemma column_row s Q j : base s Q -> (j < qcols Q)%nat ->
  exists row x, In (row, x) (qsys Q) /\ nth j row 0 = 1 /\ x <= qquota Q.
Proof.
  intros H Hj. apply (cone_column_one (qcols Q) (qsys Q) (repeat 1 (qcols Q)) (qquota Q)); auto.
  - eapply qsys_wide; eauto.
  - intros row b Hin. destruct (qsys_good _ _ _ _ H Hin) as (_ & ? & ?). split; auto; lia.
  - apply (i_cone _ _ H).
  - rewrite nth_repeat_lt by auto. lia.
Qed.

Lemma dot_nonneg row y : bits row -> (forall a, In a y -> 0 <= a) -> 0 <= dot row y.
Proof.
  revert y. induction row as [|a row IH]; intros [|c y] Hb Hy; simpl; try lia.
  assert (bit a) as [->| ->] by (apply Hb; now left);
  assert (0 <= c) by (apply Hy; now left);
  assert (0 <= dot row y) by (apply IH; [intros z Hz; apply Hb; now right|intros z Hz; apply Hy; now right]); lia.
Qed.
(** one coordinate is at most the whole sum *)
Lemma dot_ge row y j : bits row -> (forall a, In a y -> 0 <= a) -> (j < length y)%nat ->
  nth j row 0 = 1 -> nth j y 0 <= dot row y.
Proof.
  revert y j. induction row as [|a row IH]; intros [|c y] j Hb Hy Hj H1; simpl in *; try lia.
  - destruct j; discriminate.
  - assert (Hrow : bits row) by (intros z Hz; apply Hb; now right).
    assert (Hy' : forall a, In a y -> 0 <= a) by (intros z Hz; apply Hy; now right).
    assert (0 <= c) by (apply Hy; now left).
    destruct j as [|j].
    + subst a. pose proof (dot_nonneg row y Hrow Hy'). lia.
    + specialize (IH y j Hrow Hy' ltac:(lia) H1).
      assert (bit a) as [->| ->] by (apply Hb; now left); lia.
Qed.

Lemma solw_pos s Q w : length (av (qans Q)) = length s -> solw s Q w -> forall x, In x w -> 0 <= x.
Proof.
  intros HL H x Hx. apply (In_nth _ _ 0) in Hx. destruct Hx as (i & Hi & <-).
  apply (sw_room _ _ _ H). destruct (sw_ext _ _ _ H). lia.
Qed.
Lemma pick_pos ul w : (forall x, In x w -> 0 <= x) -> forall x, In x (pick 0 ul w) -> 0 <= x.
Proof.
  intros H x Hx. apply in_map_iff in Hx. destruct Hx as (i & <- & _).
  destruct (Nat.lt_ge_cases i (length w)) as [L|L].
  - apply H, nth_In; auto.
  - rewrite nth_overflow by auto. lia.
Qed.

(** ** The check after each step *)
Lemma any2_gtb_false x y : length x = length y ->
  any2 Z.gtb x y = false <-> forall i, (i < length x)%nat -> nth i x 0 <= nth i y 0.
Proof.
  unfold any2. revert y. induction x as [|a x IH]; intros [|b y] HL; simpl in *; try lia.
  - split; auto. intros _ i Hi. lia.
  - rewrite orb_false_iff, IH by lia. split.
    + intros [H1 H2] [|i] Hi; [lia|]. apply H2. lia.
    + intros H. split; [specialize (H 0%nat ltac:(lia)); simpl in H; lia|].
      intros i Hi. apply (H (S i)). lia.
Qed.

Lemma zsum_le_nth x y : length x = length y ->
  (forall i, (i < length x)%nat -> nth i x 0 <= nth i y 0) -> zsum x <= zsum y.
Proof.
  revert y. induction x as [|a x IH]; intros [|b y] HL H; simpl in HL; try lia.
  rewrite !zsum_cons. pose proof (H 0%nat ltac:(simpl; lia)) as H0. simpl in H0.
  assert (zsum x <= zsum y); [|lia]. apply IH; [lia|]. intros i Hi. apply (H (S i)). simpl. lia.
Qed.

Definition passed (s : list Z) (Q : question) : Prop :=
  post_check Q = Ok Q
  /\ (qcols Q = 0%nat -> forall x, In x (qb Q) -> x = 0)
  /\ (forall i, (i < length s)%nat -> nth i (av (qans Q)) 0 <= nth i s 0).

Lemma post_check_spec s Q : shell s Q ->
  passed s Q \/ (post_check Q = NoSolution /\ forall w, ~ solw s Q w).
Proof.
  intros HB. unfold passed. unfold post_check. fold (qcols Q).
  pose proof (i_rooms _ _ HB) as HR. pose proof HR as (_ & _ & HavL & _).
  destruct (Nat.eqb_spec (qcols Q) 0) as [E|E];
  [destruct (existsb (fun x => negb (x =? 0)) (qb Q)) eqn:Eb|]; cbn [andb].
  - right. split; auto. intros w Hw. apply existsb_exists in Eb. destruct Eb as (x & Hx & Ex).
    apply (In_nth _ _ 0) in Hx. destruct Hx as (i & Hi & Exi).
    pose proof (i_blen _ _ HB) as HL. unfold mnrows in HL.
    pose proof (sw_sys _ _ _ Hw (nth i (mrows (qA Q)) []) (nth i (qb Q) 0)) as H.
    assert (Hin : In (nth i (mrows (qA Q)) [], nth i (qb Q) 0) (qsys Q)) by (apply nth_in_combine; auto; lia).
    specialize (H Hin). destruct (qsys_good _ _ _ _ HB Hin) as (L & _).
    destruct (nth i (mrows (qA Q)) []); [|simpl in L; lia]. simpl in H. lia.
  - rewrite <- (i_bdlen _ _ HB) in E. rewrite (i_bdlen _ _ HB), Nat.eqb_refl. cbn [assert_ bind].
    rewrite (i_bdlen _ _ HB) in E. rewrite E. cbn [Nat.ltb Nat.leb andb].
    rewrite (rooms_quota s) by auto. cbn [bind].
    destruct (any2 Z.gtb (av (qans Q)) s) eqn:Ea.
    + right. split; auto. intros w Hw.
      assert (any2 Z.gtb (av (qans Q)) s = false); [|congruence].
      apply any2_gtb_false; auto. intros i Hi. 
      destruct (sw_ext _ _ _ Hw) as [L He]. pose proof (sw_room _ _ _ Hw i ltac:(lia)) as Hr.
      destruct (He i Hi) as [U|U]; [rewrite U; unfold UNKNOWN; lia|lia].
    + left. split; auto. split.
      * intros _ x Hx. rewrite existsb_none in Eb. specialize (Eb _ Hx). lia.
      * rewrite any2_gtb_false in Ea by auto. intros i Hi. apply Ea. lia.
  - rewrite (i_bdlen _ _ HB), Nat.eqb_refl. cbn [assert_ bind].
    destruct (Nat.ltb_spec 0 (qcols Q)) as [_|]; [|lia]. cbn [andb].
    destruct (Z.ltb_spec (zsum (qbounds Q)) (qquota Q)) as [Hlt|Hge].
    + right. split; auto. intros w Hw.
      pose proof (sw_quota _ _ _ Hw). 
      assert (zsum (unknowns Q w) <= zsum (qbounds Q)); [|lia].
      apply zsum_le_nth; rewrite unknowns_length, (i_ul _ _ HB); [now rewrite (i_bdlen _ _ HB)|].
      apply (sw_bd _ _ _ Hw).
    + rewrite (rooms_quota s) by auto. cbn [bind].
      destruct (any2 Z.gtb (av (qans Q)) s) eqn:Ea.
      * right. split; auto. intros w Hw.
        assert (any2 Z.gtb (av (qans Q)) s = false); [|congruence].
        apply any2_gtb_false; auto. intros i Hi. 
        destruct (sw_ext _ _ _ Hw) as [L He]. pose proof (sw_room _ _ _ Hw i ltac:(lia)) as Hr.
        destruct (He i Hi) as [U|U]; [rewrite U; unfold UNKNOWN; lia|lia].
      * left. split; auto. split; [lia|].
        rewrite any2_gtb_false in Ea by auto. intros i Hi. apply Ea. lia.
Qed.

(** ** Substituting values for columns *)
Lemma combine_map2_l {A B A' : Type} (f : A -> A') (x : list A) (y : list B) :
  combine (map f x) y = map (fun p => (f (fst p), snd p)) (combine x y).
Proof. revert y; induction x as [|a x IH]; intros [|b y]; simpl; auto. now rewrite IH. Qed.

Lemma prodb_pos l : (forall x, In x l -> 0 <= x) -> 1 <= prodb l.
Proof.
  induction l as [|a l IH]; intros H; simpl; [lia|].
  assert (0 <= a) by (apply H; now left). specialize (IH ltac:(intros; apply H; now right)). nia.
Qed.
Lemma prodb_le x y : length x = length y -> (forall a, In a x -> 0 <= a) ->
  (forall i, (i < length x)%nat -> nth i x 0 <= nth i y 0) -> prodb x <= prodb y.
Proof.
  revert y. induction x as [|a x IH]; intros [|b y] HL Hp H; simpl in HL; try lia.
  cbn [prodb fold_right]. fold (prodb x) (prodb y).
  pose proof (H 0%nat ltac:(simpl; lia)) as H0. simpl in H0.
  assert (0 <= a) by (apply Hp; now left).
  assert (Hpx : forall a, In a x -> 0 <= a) by (intros z Hz; apply Hp; now right).
  specialize (IH y ltac:(lia) Hpx ltac:(intros i Hi; apply (H (S i)); simpl; lia)).
  pose proof (prodb_pos x Hpx). nia.
Qed.
Lemma prodb_delete_le js l : (forall a, In a l -> 0 <= a) -> prodb (delete js l) <= prodb l.
Proof.
  intros Hp. unfold delete. generalize 0%nat as i. induction l as [|a l IH]; intros i; simpl; [lia|].
  assert (0 <= a) by (apply Hp; now left).
  assert (Hpx : forall a, In a l -> 0 <= a) by (intros z Hz; apply Hp; now right).
  specialize (IH Hpx (S i)).
  assert (1 <= prodb (delete_from (S i) js l)).
  { apply prodb_pos. intros z Hz. apply Hpx.
    clear - Hz. revert Hz. generalize (S i) as k. induction l as [|y l IH]; intros k; simpl; auto.
    destruct (memn k js); simpl; intros H; eauto. destruct H; eauto. }
  destruct (memn i js).
  - unfold prodb in *. nia.
  - cbn [prodb fold_right]. fold (prodb (delete_from (S i) js l)) (prodb l). nia.
Qed.

(** [Q'] is [Q] with the columns [cs] fixed to the values [xs] *)
Record substituted (cs : list nat) (xs : list Z) (Q Q' : question) : Prop := {
  su_cols : qcols Q' = (qcols Q - length cs)%nat;
  su_rows : mrows (qA Q') = map (delete cs) (mrows (qA Q));
  su_blen : length (qb Q') = length (qb Q);
  su_b : forall i, (i < length (qb Q))%nat ->
     nth i (qb Q') 0 = nth i (qb Q) 0 - dot (pick 0 cs (nth i (mrows (qA Q)) [])) xs;
  su_quota : qquota Q' = qquota Q - zsum xs;
  su_bounds : qbounds Q' = delete cs (qbounds Q);
  su_av : av (qans Q') = assign_all (unknown_loc (qans Q)) (map2 pair cs xs) (av (qans Q));
  su_loc : aloc (qans Q') = aloc (qans Q);
  su_alen : alen (qans Q') = alen (qans Q) }.

Lemma su_sys s cs xs Q Q' : shell s Q -> substituted cs xs Q Q' ->
  qsys Q' = subst_sys cs xs (qsys Q).
Proof.
  intros HB HS. unfold qsys, subst_sys, msys. rewrite (su_rows _ _ _ _ HS).
  pose proof (su_blen _ _ _ _ HS) as HL. pose proof (su_b _ _ _ _ HS) as Hb.
  pose proof (i_blen _ _ HB) as HL2. unfold mnrows in HL2.
  revert HL Hb HL2. generalize (qb Q') as b', (qb Q) as b, (mrows (qA Q)) as A. clear.
  intros b' b A. revert b b'. induction A as [|r A IH]; intros [|x b] [|x' b'] HL Hb HL2; simpl in *; try lia; auto.
  f_equal.
  - f_equal. apply (Hb 0%nat). lia.
  - apply IH; try lia. intros i Hi. apply (Hb (S i)). lia.
Qed.

Lemma map_fst_map2_pair {A B} (x : list A) (y : list B) : length x = length y -> map fst (map2 pair x y) = x.
Proof. revert y; induction x as [|a x IH]; intros [|b y] H; simpl in *; try lia; auto. rewrite IH; auto. Qed.

Lemma in_map2_pair_nth {A B} (x : list A) (y : list B) a b da db :
  length x = length y -> In (a, b) (map2 pair x y) ->
  exists i, (i < length x)%nat /\ nth i x da = a /\ nth i y db = b.
Proof.
  revert y; induction x as [|a0 x IH]; intros [|b0 y] H Hin; simpl in *; try lia; try easy.
  destruct Hin as [E|Hin].
  - injection E as -> ->. exists 0%nat. repeat split; auto; lia.
  - destruct (IH y ltac:(lia) Hin) as (i & Hi & E1 & E2). exists (S i). repeat split; auto; lia.
Qed.
Lemma nth_in_map2_pair {A B} (x : list A) (y : list B) i da db :
  length x = length y -> (i < length x)%nat -> In (nth i x da, nth i y db) (map2 pair x y).
Proof.
  revert y i; induction x as [|a0 x IH]; intros [|b0 y] i H Hi; simpl in *; try lia.
  destruct i as [|i]; [now left|]. right. apply IH; lia.
Qed.

Lemma nth_delete_keep {A} (d : A) js l i :
  (i < length (keep js (length l)))%nat -> nth i (delete js l) d = nth (nth i (keep js (length l)) 0%nat) l d.
Proof. intros H. rewrite (delete_pick d). now apply nth_pick. Qed.

Section subst.
  Variables (s : list Z) (cs : list nat) (xs : list Z) (Q Q' : question).
  Hypothesis HB : shell s Q.
  Hypothesis HS : substituted cs xs Q Q'.
  Hypothesis Hnd : NoDup cs.
  Hypothesis Hcs : forall j, In j cs -> (j < qcols Q)%nat.
  Hypothesis Hxl : length xs = length cs.
  Hypothesis Hx : forall x, In x xs -> 0 <= x.

  Let jx := map2 pair cs xs.
  Lemma su_jx_fst : map fst jx = cs.
  Proof. apply map_fst_map2_pair. now rewrite Hxl. Qed.
  Lemma su_jx_ok : forall j x, In (j, x) jx -> (j < length (unknown_loc (qans Q)))%nat /\ 0 <= x.
  Proof.
    intros j x Hin. apply (in_map2_pair_nth _ _ _ _ 0%nat 0) in Hin; [|now rewrite Hxl].
    destruct Hin as (i & Hi & <- & <-). split.
    - rewrite (i_ul _ _ HB). apply Hcs, nth_In; auto.
    - apply Hx, nth_In. lia.
  Qed.

  Lemma su_ul : unknown_loc (qans Q') = delete cs (unknown_loc (qans Q)).
  Proof.
    unfold unknown_loc at 1. rewrite (su_av _ _ _ _ HS). unfold unknown_loc.
    rewrite (assign_unknown_loc _ jx); rewrite ?su_jx_fst; auto. apply su_jx_ok.
  Qed.
  Lemma su_unknowns w : unknowns Q' w = delete cs (unknowns Q w).
  Proof. unfold unknowns. rewrite su_ul. apply pick_delete. Qed.

  Lemma su_extends w : extends (av (qans Q')) w <->
    extends (av (qans Q)) w /\ pick 0 cs (unknowns Q w) = xs.
  Proof.
    rewrite (su_av _ _ _ _ HS). unfold unknown_loc. fold jx.
    rewrite (assign_extends _ jx); [| rewrite su_jx_fst; auto|apply su_jx_ok].
    apply and_iff_compat_l. fold (unknown_loc (qans Q)).
    assert (Hn : forall j, In j cs -> nth j (unknowns Q w) 0 = nth (nth j (unknown_loc (qans Q)) 0%nat) w 0).
    { intros j Hj. unfold unknowns. apply nth_pick. rewrite (i_ul _ _ HB). auto. }
    split.
    - intros H. apply nth_ext0; [now rewrite pick_length|]. rewrite pick_length. intros i Hi.
      rewrite nth_pick by auto. rewrite Hn by (apply nth_In; auto).
      apply H. apply nth_in_map2_pair; auto.
    - intros H j x Hin. apply (in_map2_pair_nth _ _ _ _ 0%nat 0) in Hin; [|now rewrite Hxl].
      destruct Hin as (i & Hi & <- & <-). rewrite <- H.
      rewrite nth_pick by auto. rewrite Hn by (apply nth_In; auto). reflexivity.
  Qed.

  Lemma su_dot row y : length row = qcols Q -> length y = qcols Q -> pick 0 cs y = xs ->
    dot row y = dot (delete cs row) (delete cs y) + dot (pick 0 cs row) xs.
  Proof.
    intros L1 L2 <-. apply dot_split; auto; [congruence|]. rewrite L1. auto.
  Qed.
  Lemma su_zsum y : length y = qcols Q -> pick 0 cs y = xs -> zsum y = zsum (delete cs y) + zsum xs.
  Proof. intros L2 <-. apply zsum_split; auto. now rewrite L2. Qed.

  Lemma su_shell :
    (forall x, In x (qb Q') -> 0 <= x) -> 0 <= qquota Q' -> shell s Q'.
  Proof.
    intros Hb Hq. pose proof (su_cols _ _ _ _ HS) as HC.
    assert (HlenR : mnrows (qA Q') = mnrows (qA Q)) by (unfold mnrows; rewrite (su_rows _ _ _ _ HS); apply map_length).
    assert (Hxq : 0 <= zsum xs) by now apply zsum_nonneg.
    constructor.
    - intros row Hr. rewrite (su_rows _ _ _ _ HS) in Hr. apply in_map_iff in Hr.
      destruct Hr as (row0 & <- & Hr0). destruct (i_rows _ _ HB _ Hr0) as [L Bt]. split.
      + rewrite delete_length by (rewrite ?L; auto). lia.
      + intros a Ha. apply in_delete in Ha. auto.
    - rewrite (su_blen _ _ _ _ HS), HlenR. apply (i_blen _ _ HB).
    - intros x Hin. split; auto. apply (In_nth _ _ 0) in Hin. destruct Hin as (i & Hi & <-).
      rewrite (su_blen _ _ _ _ HS) in Hi. rewrite (su_b _ _ _ _ HS) by auto.
      assert (nth i (qb Q) 0 <= 127) by (apply (i_b _ _ HB), nth_In; auto).
      assert (0 <= dot (pick 0 cs (nth i (mrows (qA Q)) [])) xs); [|lia].
      apply dot_nonneg; auto.
      assert (Hr : In (nth i (mrows (qA Q)) []) (mrows (qA Q))).
      { apply nth_In. pose proof (i_blen _ _ HB). unfold mnrows in *. lia. }
      destruct (i_rows _ _ HB _ Hr) as [L Bt].
      intros a Ha. apply in_map_iff in Ha. destruct Ha as (j & <- & Hj). apply Bt, nth_In. rewrite L. auto.
    - rewrite (su_bounds _ _ _ _ HS), delete_length; rewrite ?(i_bdlen _ _ HB); auto.
    - intros x Hin. rewrite (su_bounds _ _ _ _ HS) in Hin. apply in_delete in Hin. now apply (i_bd _ _ HB).
    - split; auto. rewrite (su_quota _ _ _ _ HS). pose proof (i_quota _ _ HB). lia.
    - destruct (i_rooms _ _ HB) as (R1 & R2 & R3 & R4). repeat split; auto.
      + rewrite (su_loc _ _ _ _ HS). auto.
      + rewrite (su_alen _ _ _ _ HS). auto.
      + rewrite (su_av _ _ _ _ HS), assign_all_length. auto.
    - rewrite su_ul, delete_length; rewrite ?(i_ul _ _ HB); auto.
  Qed.

  Lemma su_distinct : distinct Q -> distinct Q'.
  Proof.
    intros HD i j Hij. rewrite (su_cols _ _ _ _ HS) in Hij.
    pose proof (keep_length cs (qcols Q) Hnd Hcs) as [HK _].
    set (K := keep cs (qcols Q)) in *.
    assert (HKs : StronglySorted lt K) by (apply sorted_filter_nat, seq_sorted_nat).
    assert (Hlt : (nth i K 0 < nth j K 0 < qcols Q)%nat).
    { split.
      - clear - HKs Hij HK. assert (Hj : (j < length K)%nat) by lia. clear HK. revert i j Hij Hj.
        induction HKs as [|x l H IH HF]; intros i j Hij Hj; simpl in *; [lia|].
        destruct j as [|j]; [lia|]. destruct i as [|i].
        + rewrite Forall_forall in HF. apply HF, nth_In. lia.
        + apply IH; lia.
      - assert (In (nth j K 0%nat) K) as Hin by (apply nth_In; lia). apply in_keep in Hin. tauto. }
    destruct (HD _ _ Hlt) as (row & Hr & Hne).
    exists (delete cs row). split.
    - rewrite (su_rows _ _ _ _ HS). now apply in_map.
    - destruct (i_rows _ _ HB _ Hr) as [L _].
      rewrite !nth_delete_keep; rewrite ?L; fold K; auto; lia.
  Qed.

  (** solutions with the chosen values stay solutions; soundness backwards *)
  Lemma su_sol w : solw s Q w -> pick 0 cs (unknowns Q w) = xs -> solw s Q' w.
  Proof.
    intros Hw Hp.
    assert (LU : length (unknowns Q w) = qcols Q) by (rewrite unknowns_length; apply (i_ul _ _ HB)).
    constructor.
    - apply su_extends. split; auto. apply Hw.
    - apply Hw.
    - rewrite (su_sys s cs xs Q Q') by auto. intros row b Hin.
      apply in_map_iff in Hin. destruct Hin as ([row0 b0] & E & Hin). simpl in E. injection E as <- <-.
      pose proof (sw_sys _ _ _ Hw _ _ Hin) as He. destruct (qsys_good _ _ _ _ HB Hin) as (L & _).
      rewrite su_unknowns. rewrite (su_dot row0 (unknowns Q w)) in He by auto. lia.
    - rewrite su_unknowns, (su_quota _ _ _ _ HS). pose proof (sw_quota _ _ _ Hw) as He.
      rewrite (su_zsum (unknowns Q w)) in He by auto. lia.
    - intros j Hj. rewrite su_unknowns, (su_bounds _ _ _ _ HS).
      rewrite (su_cols _ _ _ _ HS) in Hj. pose proof (keep_length cs (qcols Q) Hnd Hcs) as [HK _].
      rewrite !nth_delete_keep; rewrite ?LU, ?(i_bdlen _ _ HB), ?HK; auto.
      apply (sw_bd _ _ _ Hw). assert (In (nth j (keep cs (qcols Q)) 0%nat) (keep cs (qcols Q))) as Hin by (apply nth_In; lia).
      apply in_keep in Hin. tauto.
  Qed.

  Lemma su_weak w : weakw Q' w -> weakw Q w.
  Proof.
    intros Hw. pose proof (ww_ext _ _ Hw) as He. apply su_extends in He. destruct He as [He Hp].
    assert (LU : length (unknowns Q w) = qcols Q) by (rewrite unknowns_length; apply (i_ul _ _ HB)).
    constructor; auto; [apply Hw|].
    intros row b Hin. destruct (qsys_good _ _ _ _ HB Hin) as (L & _).
    rewrite (su_dot row (unknowns Q w)) by auto.
    assert (Hin' : In (delete cs row, b - dot (pick 0 cs row) xs) (qsys Q')).
    { rewrite (su_sys s cs xs Q Q') by auto. apply in_map_iff. exists (row, b). auto. }
    pose proof (ww_sys _ _ Hw _ _ Hin') as H. rewrite su_unknowns in H. lia.
  Qed.

  (** ... and solutions with the chosen values come from solutions *)
  Lemma su_sol_inv w : (forall i, (i < length cs)%nat -> nth i xs 0 <= nth (nth i cs 0%nat) (qbounds Q) 0) ->
    solw s Q' w -> solw s Q w /\ pick 0 cs (unknowns Q w) = xs.
  Proof.
    intros Hle Hw. pose proof (sw_ext _ _ _ Hw) as He. apply su_extends in He. destruct He as [He Hp].
    split; auto.
    assert (LU : length (unknowns Q w) = qcols Q) by (rewrite unknowns_length; apply (i_ul _ _ HB)).
    constructor; auto; [apply Hw| | |].
    - intros row b Hin. destruct (qsys_good _ _ _ _ HB Hin) as (L & _).
      rewrite (su_dot row (unknowns Q w)) by auto.
      assert (Hin' : In (delete cs row, b - dot (pick 0 cs row) xs) (qsys Q')).
      { rewrite (su_sys s cs xs Q Q') by auto. apply in_map_iff. exists (row, b). auto. }
      pose proof (sw_sys _ _ _ Hw _ _ Hin') as H. rewrite su_unknowns in H. lia.
    - rewrite (su_zsum (unknowns Q w)) by auto. pose proof (sw_quota _ _ _ Hw) as H.
      rewrite su_unknowns, (su_quota _ _ _ _ HS) in H. lia.
    - intros j Hj. destruct (memn j cs) eqn:E.
      + apply memn_spec in E. apply (In_nth _ _ 0%nat) in E. destruct E as (i & Hi & <-).
        specialize (Hle i Hi). rewrite <- Hp in Hle. now rewrite nth_pick in Hle by auto.
      + apply memn_false in E.
        assert (Hk : In j (keep cs (qcols Q))) by (apply in_keep; auto).
        apply (In_nth _ _ 0%nat) in Hk. destruct Hk as (i & Hi & Ei).
        pose proof (keep_length cs (qcols Q) Hnd Hcs) as [HK _].
        pose proof (sw_bd _ _ _ Hw i) as H. rewrite (su_cols _ _ _ _ HS) in H. specialize (H ltac:(lia)).
        rewrite su_unknowns, (su_bounds _ _ _ _ HS) in H.
        rewrite !nth_delete_keep in H; rewrite ?LU, ?(i_bdlen _ _ HB); auto.
        rewrite LU, (i_bdlen _ _ HB), Ei in H. exact H.
  Qed.

  Lemma su_step : (forall w, solw s Q w -> pick 0 cs (unknowns Q w) = xs) -> step s Q Q'.
  Proof.
    intros H. constructor.
    - intros w Hw. now apply su_extends in Hw.
    - intros w Hw. apply su_sol; auto.
    - apply su_weak.
    - rewrite (su_bounds _ _ _ _ HS). apply prodb_delete_le. intros a Ha. now apply (i_bd _ _ HB) in Ha.
    - rewrite (su_cols _ _ _ _ HS). lia.
    - unfold mnrows. rewrite (su_rows _ _ _ _ HS), map_length. lia.
  Qed.
End subst.

Lemma su_fits cs xs Q Q' : fits Q -> substituted cs xs Q Q' -> fits Q'.
Proof.
  intros HF HS H. rewrite (su_cols _ _ _ _ HS) in H. unfold mnrows in *. rewrite (su_rows _ _ _ _ HS), map_length.
  apply HF. lia.
Qed.
Lemma su_base s cs xs Q Q' : base s Q -> substituted cs xs Q Q' -> NoDup cs ->
  (forall j, In j cs -> (j < qcols Q)%nat) -> length xs = length cs -> (forall x, In x xs -> 0 <= x) ->
  (forall x, In x (qb Q') -> 0 <= x) -> 0 <= qquota Q' -> base s Q'.
Proof.
  intros HB HS Hnd Hcs Hxl Hx Hb Hq. pose proof (su_cols _ _ _ _ HS) as HC.
  assert (HlenR : mnrows (qA Q') = mnrows (qA Q)) by (unfold mnrows; rewrite (su_rows _ _ _ _ HS); apply map_length).
  constructor.
  - apply (su_shell s cs xs Q Q'); auto.
  - rewrite (su_sys s cs xs Q Q') by auto. rewrite HC.
    pose proof (cone_subst (qcols Q) (qsys Q) cs xs _ _ (qsys_wide _ _ HB) Hnd Hcs Hxl (i_cone _ _ HB)) as H.
    rewrite delete_repeat in H by auto.
    assert (E : dot (pick 0 cs (repeat 1 (qcols Q))) xs = zsum xs).
    { assert (Ep : pick 0 cs (repeat 1 (qcols Q)) = repeat 1 (length cs)).
      { clear - Hcs. induction cs as [|c l IH]; simpl; auto. f_equal.
        - apply nth_repeat_lt, Hcs. now left.
        - apply IH. intros; apply Hcs; now right. }
      rewrite Ep. now apply dot_ones. }
    rewrite E in H. rewrite (su_quota _ _ _ _ HS). exact H.
  - rewrite (su_av _ _ _ _ HS). apply assign_nonneg.
    + now rewrite map_fst_map2_pair by now rewrite Hxl.
    + apply (su_jx_ok s cs xs Q); auto.
    + apply (i_av _ _ HB).
  - pose proof (i_C _ _ HB). lia.
  - intros H. rewrite HlenR. apply (i_R _ _ HB). lia.
Qed.
