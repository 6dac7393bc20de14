(** Partial matrices: from_matrix, advance and the level-by-level search. *)
From Verif Require Import Np ModelGauss Model Spec Lib BitFacts Cone ElimFacts QFacts StepFacts ForkFacts GroupFacts.
From Coq Require Import ZifyBool ZifyNat Sorting.Permutation.

Lemma level_intro v R M : shape R v M -> (2 <= R <= v)%nat ->
  (forall i j, (i < R)%nat -> (j < v)%nat -> bit (cell M i j)) ->
  (forall i j, (i < R)%nat -> (j < R)%nat -> cell M i j = cell M j i) ->
  (forall i, (i < R)%nat -> cell M i i = 0) ->
  (forall r j j', (r < R)%nat -> (r < j < j')%nat -> (j' < v)%nat ->
     (forall i, (i < r)%nat -> cell M i j = cell M i j') -> cell M r j' <= cell M r j) ->
  level v R M.
Proof. intros. constructor; auto. constructor; auto. Qed.

(** parameters read off the first two rows *)
Definition par_k (M : list (list Z)) : Z := zsum (nth 0 M []).
Definition par_l (M : list (list Z)) : Z := i8 (dot (nth 0 M []) (nth 1 M [])).
Definition par_u (v : nat) (M : list (list Z)) : Z :=
  np_floordiv (par_k M * (par_k M - par_l M - 1)) (Z.of_nat v - par_k M - 1).

(** equations between row [r] and the rows before it *)
Definition lam (k l u : Z) (e : Z) : Z := if e =? 0 then u else l.
Definition exact_row (k l u : Z) (T : list (list Z)) (r : nat) : Prop :=
  zsum (nth r T []) = k
  /\ forall i, (i < r)%nat -> dot (nth i T []) (nth r T []) = if cell T i r =? 0 then u else l.
Definition below_row (k l u : Z) (T : list (list Z)) (r : nat) : Prop :=
  zsum (nth r T []) <= k
  /\ forall i, (i < r)%nat -> dot (nth i T []) (nth r T []) <= if cell T i r =? 0 then u else l.

(** ** small facts *)
Lemma nth_column R M i : nth i (column R M) 0 = if (i <? length M)%nat then cell M i R else 0.
Proof.
  destruct (Nat.ltb_spec i (length M)) as [H|H].
  - unfold column, cell. now rewrite (nth_map_in _ _ _ (@nil Z)).
  - apply nth_overflow. now rewrite column_length.
Qed.
Lemma combine_snoc {A B} (x : list A) (y : list B) a c : length x = length y ->
  combine (x ++ [a]) (y ++ [c]) = combine x y ++ [(a, c)].
Proof.
  revert y. induction x as [|p x IH]; intros [|q y] H; simpl in *; try lia; auto. now rewrite IH by lia.
Qed.
Lemma firstn_skipn_dot n x y z : length y = n -> (n <= length x)%nat ->
  dot x (y ++ z) = dot (firstn n x) y + dot (skipn n x) z.
Proof.
  intros Hy Hx. rewrite <- (firstn_skipn n x) at 1. apply dot_app. rewrite firstn_length. lia.
Qed.
Lemma default_answer_ok C : default_answer C = Ok (Ans (repeat UNKNOWN C) (map Z.of_nat (seq 0 C)) (Z.of_nat C)).
Proof.
  unfold default_answer.
  assert (E : map Z.of_nat (seq 0 C) = starts 0 (repeat 1 C)).
  { assert (E : repeat 1 C = map Z.of_nat (repeat 1%nat C)) by (clear; induction C; simpl; congruence).
    rewrite E, <- (nstarts_Z _ 0), nstarts_ones. reflexivity. }
  assert (E2 : Z.of_nat C = zsum (repeat 1 C)) by (rewrite zsum_repeat; lia).
  rewrite E, E2. apply mk_answer_rooms; [now rewrite !repeat_length|].
  intros x Hx. apply repeat_spec in Hx. lia.
Qed.

(** the appended row *)
Definition new_row (M : list (list Z)) (x : list Z) : list Z := column (length M) M ++ [0] ++ x.

(** ** from_matrix *)
(** the sizes for which all keys fit into an int64: 67 vertices only if the
    last two columns agree in the first row *)
Definition sized (v : nat) (M : list (list Z)) : Prop :=
  (v <= 66)%nat \/ v = 67%nat /\ cell M 0 65 = cell M 0 66.
(** two of five columns with two entries are equal *)
Lemma five_columns (f g : nat -> Z) : (forall j, bit (f j)) -> (forall j, bit (g j)) ->
  exists i j, (i < j < 5)%nat /\ f i = f j /\ g i = g j.
Proof.
  intros Hf Hg.
  destruct (existsb (fun p : nat * nat => ((fst p <? snd p)%nat && (2 * f (fst p) + g (fst p) =? 2 * f (snd p) + g (snd p)))%bool)
              (list_prod (seq 0 5) (seq 0 5))) eqn:Ex.
  - apply existsb_exists in Ex. destruct Ex as ([i j] & Hin & E). apply in_prod_iff in Hin. destruct Hin as [Hi Hj].
    apply in_seq in Hi, Hj. apply andb_true_iff in E. destruct E as [E1 E2]. cbn [fst snd] in *. apply Nat.ltb_lt in E1.
    apply Z.eqb_eq in E2. exists i, j. split; [lia|].
    destruct (Hf i), (Hf j), (Hg i), (Hg j); lia.
  - exfalso. apply Bool.not_true_iff_false in Ex.
    assert (N : NoDup (map (fun j => 2 * f j + g j) (seq 0 5))).
    { apply NoDup_map_seq. intros i j Hij E. apply Ex, existsb_exists. exists (i, j). split.
      - apply in_prod_iff. split; apply in_seq; lia.
      - apply andb_true_iff. split; [apply Nat.ltb_lt; cbn; lia|apply Z.eqb_eq; exact E]. }
    assert (I : incl (map (fun j => 2 * f j + g j) (seq 0 5)) [0; 1; 2; 3]).
    { intros x Hx. apply in_map_iff in Hx. destruct Hx as (j & <- & _).
      destruct (Hf j) as [-> | ->], (Hg j) as [-> | ->]; simpl; auto. }
    pose proof (NoDup_incl_length N I) as L. simpl in L. lia.
Qed.

Section from_matrix.
  Variables (v R : nat) (M : list (list Z)).
  Hypothesis HV : partial_matrix v R M.
  Lemma lv_len : length M = R.
  Proof. apply (lv_shape _ _ _ HV). Qed.
  Lemma lv_row row : In row M -> length row = v /\ bits row.
  Proof.
    intros Hr. destruct (lv_shape _ _ _ HV) as [HL Hs]. split; auto.
    intros a Ha. apply (In_nth _ _ 0) in Ha. destruct Ha as (j & Hj & <-).
    apply (In_nth _ _ []) in Hr. destruct Hr as (i & Hi & <-). rewrite Hs in Hj by now apply nth_In.
    apply (lv_bit _ _ _ HV); lia.
  Qed.
  Lemma lv_nrow i : (i < R)%nat -> length (nth i M []) = v /\ bits (nth i M []).
  Proof. intros Hi. apply lv_row, nth_In. rewrite lv_len. auto. Qed.
  Hypothesis Hv : (v <= 127)%nat.
  Hypothesis HR : (R < v)%nat.

  Let k := par_k M.
  Let l := par_l M.
  Let u := par_u v M.
  Let C := (v - R - 1)%nat.
  Let known := column R M ++ [0].
  Let used := map (fun row => i8 (dot (firstn (R + 1) row) known)) M.
  Let b0 := map2 (fun x y => i8 (x - y)) (map (fun e => i8 (if e =? 0 then u else l)) (column R M)) used.
  Let b := b0 ++ [k - zsum known].
  Let Q := Qst (Mat C (map (skipn (R + 1)) M ++ [repeat 1 C])) b (k - zsum known) (repeat 1 C)
               (Ans (repeat UNKNOWN C) (map Z.of_nat (seq 0 C)) (Z.of_nat C)).

  Lemma known_length : length known = (R + 1)%nat.
  Proof. unfold known. rewrite app_length, column_length, lv_len. simpl. lia. Qed.
  Lemma known_bits : bits known.
  Proof.
    intros a Ha. apply in_app_iff in Ha. destruct Ha as [Ha|[<-|[]]]; [|now left].
    revert a Ha. apply column_bits. intros row Hr. now apply lv_row.
  Qed.
  Lemma bits_sum x : bits x -> 0 <= zsum x <= Z.of_nat (length x).
  Proof.
    induction x as [|a x IH]; intros Hb; [unfold zsum; simpl; lia|].
    rewrite zsum_cons. cbn [length]. assert (bit a) as [->| ->] by (apply Hb; now left);
    specialize (IH ltac:(intros z Hz; apply Hb; now right)); lia.
  Qed.
  Lemma bits_dot x y : bits x -> bits y -> 0 <= dot x y <= Z.of_nat (length y).
  Proof.
    intros Hx Hy. pose proof (bits_sum y Hy) as Hs.
    assert (Hn : forall a, In a y -> 0 <= a) by (intros a Ha; destruct (Hy a Ha); lia).
    pose proof (dot_nonneg x y Hx Hn). pose proof (dot_le_sum x y Hx Hn). lia.
  Qed.
  Lemma k_range : 0 <= k <= Z.of_nat v.
  Proof.
    destruct (lv_nrow 0) as [L B]; [pose proof (lv_R _ _ _ HV); lia|]. unfold k, par_k.
    pose proof (bits_sum _ B). lia.
  Qed.
  Lemma l_range : 0 <= l <= Z.of_nat v.
  Proof.
    pose proof (lv_R _ _ _ HV). destruct (lv_nrow 0) as [L B]; [lia|]. destruct (lv_nrow 1) as [L1 B1]; [lia|].
    unfold l, par_l. pose proof (bits_dot _ _ B B1). rewrite i8_id by lia. lia.
  Qed.

  Lemma vklu_level : vklu (Mat v M) = Ok (Z.of_nat v, k, l, u).
  Proof.
    unfold vklu. cbn [mrows mcols]. pose proof (lv_R _ _ _ HV) as H. rewrite <- lv_len in H.
    unfold k, l, u, par_u, par_k, par_l. destruct M as [|r0 [|r1 rest]]; simpl in H; try lia. reflexivity.
  Qed.

  Lemma used_nth i : (i < R)%nat -> nth i used 0 = dot (firstn (R + 1) (nth i M [])) known
     /\ 0 <= dot (firstn (R + 1) (nth i M [])) known <= Z.of_nat R.
  Proof.
    intros Hi. unfold used. rewrite (nth_map_in _ _ _ (@nil Z)) by (rewrite lv_len; auto).
    destruct (lv_nrow i Hi) as [L B].
    assert (HB : 0 <= dot (firstn (R + 1) (nth i M [])) known <= Z.of_nat R).
    { assert (Bf : bits (firstn (R + 1) (nth i M []))).
      { intros a Ha. apply B. rewrite <- (firstn_skipn (R + 1)). apply in_app_iff. now left. }
      pose proof (bits_dot _ _ Bf known_bits) as Hd.
      assert (Hs : zsum known <= Z.of_nat R).
      { unfold known. rewrite zsum_app. pose proof (bits_sum (column R M)) as H. rewrite column_length, lv_len in H.
        assert (zsum [0] = 0) as -> by reflexivity.
        assert (bits (column R M)) by (apply column_bits; intros row Hr; now apply lv_row). specialize (H H0). lia. }
      assert (Hle : dot (firstn (R + 1) (nth i M [])) known <= zsum known).
      { apply dot_le_sum; auto. intros a Ha. destruct (known_bits a Ha); lia. }
      lia. }
    split; auto. rewrite i8_id by lia. reflexivity.
  Qed.
  Lemma b0_length : length b0 = R.
  Proof. unfold b0, used. rewrite map2_length, !map_length, column_length, lv_len. lia. Qed.
  Lemma b0_nth i : (i < R)%nat -> nth i b0 0 = i8 (i8 (if cell M i R =? 0 then u else l) - dot (firstn (R + 1) (nth i M [])) known).
  Proof.
    intros Hi. unfold b0. rewrite (nth_map2 _ _ _ _ 0 0); unfold used; rewrite ?map_length, ?column_length, ?lv_len; auto.
    fold used. destruct (used_nth i Hi) as [-> _].
    rewrite (nth_map_in _ _ _ 0) by (rewrite column_length, lv_len; auto).
    rewrite nth_column, lv_len. destruct (Nat.ltb_spec i R); [|lia]. reflexivity.
  Qed.
  Lemma zsum_known : zsum known = zsum (column R M).
  Proof. unfold known. rewrite zsum_app. unfold zsum at 2. simpl. lia. Qed.

  Lemma from_matrix_eq : from_matrix (Mat v M) = if existsb (fun x => x <? 0) b then NoSolution else Ok Q.
  Proof.
    unfold from_matrix. rewrite vklu_level. cbn [bind mcols mrows]. unfold mnrows. cbn [mrows]. rewrite lv_len.
    destruct (Nat.leb_spec v R); [lia|]. fold known. fold used. fold b0. fold C. fold b.
    destruct (existsb (fun x => x <? 0) b) eqn:Ex; auto.
    rewrite existsb_none in Ex. unfold mk_question. unfold mnrows. cbn [mrows mcols].
    assert (HLb : length (map (skipn (R + 1)) M ++ [repeat 1 C]) = length b).
    { unfold b. rewrite !app_length, map_length, b0_length, lv_len. reflexivity. }
    rewrite HLb, repeat_length, !Nat.eqb_refl. cbn [assert_ bind].
    rewrite (nonneg_true b) by (intros x Hx; specialize (Ex x Hx); lia). cbn [assert_ bind].
    assert (Hk : 0 <= k - zsum known).
    { specialize (Ex (k - zsum known)). assert (In (k - zsum known) b) as Hin by (unfold b; apply in_app_iff; right; now left).
      specialize (Ex Hin). lia. }
    destruct (Z.leb_spec 0 (k - zsum known)); [|lia]. cbn [assert_ bind].
    rewrite nonneg_true by (intros x Hx; apply repeat_spec in Hx; lia). cbn [assert_ bind].
    rewrite default_answer_ok. reflexivity.
  Qed.

  Lemma Q_fresh : sized v M -> existsb (fun x => x <? 0) b = false -> fresh C Q.
  Proof.
    intros Hv66 Ex. rewrite existsb_none in Ex. pose proof (lv_R _ _ _ HV) as H2.
    assert (HLb : length b = (R + 1)%nat) by (unfold b; rewrite app_length, b0_length; simpl; lia).
    assert (Hb : forall x, In x b -> 0 <= x <= 127).
    { intros x Hx. pose proof (Ex x Hx). split; [lia|]. unfold b in Hx. apply in_app_iff in Hx.
      destruct Hx as [Hx|[<-|[]]].
      - apply (In_nth _ _ 0) in Hx. destruct Hx as (i & Hi & <-). rewrite b0_length in Hi. rewrite b0_nth by auto.
        pose proof (i8_range (i8 (if cell M i R =? 0 then u else l) - dot (firstn (R + 1) (nth i M [])) known)). lia.
      - pose proof k_range. pose proof (bits_sum _ known_bits). lia. }
    constructor.
    - reflexivity.
    - simpl. intros row Hin. apply in_app_iff in Hin. destruct Hin as [Hin|[<-|[]]].
      + apply in_map_iff in Hin. destruct Hin as (r & <- & Hr). destruct (lv_row r Hr) as [L B]. split.
        * rewrite skipn_length. unfold C. lia.
        * intros a Ha. apply B. rewrite <- (firstn_skipn (R + 1)). apply in_app_iff. now right.
      + split; [apply repeat_length|]. intros a Ha. apply repeat_spec in Ha. now right.
    - unfold mnrows. simpl. rewrite HLb, app_length, map_length, lv_len. reflexivity.
    - exact Hb.
    - simpl. apply Hb. unfold b. apply in_app_iff. right. now left.
    - unfold qsys, msys. simpl. unfold b.
      rewrite combine_snoc by (rewrite map_length, b0_length, lv_len; reflexivity).
      apply in_app_iff. right. now left.
    - reflexivity.
    - reflexivity.
    - unfold C. destruct Hv66 as [?|[E67 _]]; [split; lia|]. split; [lia|]. intros E64. assert (R2 : R = 2%nat) by lia.
      assert (HB : forall i j, bit (cell M i j)).
      { intros i j. unfold cell. destruct (Nat.lt_ge_cases i (length M)) as [L|L].
        - destruct (lv_row (nth i M []) (nth_In _ _ L)) as [_ B].
          destruct (Nat.lt_ge_cases j (length (nth i M []))); [apply B, nth_In; auto|left; now apply nth_overflow].
        - rewrite (nth_overflow M) by auto. left. now destruct j. }
      destruct (five_columns (fun j => cell M 0 (3 + j)) (fun j => cell M 1 (3 + j))) as (i & j & Hij & E0 & E1); auto.
      exists i, j. split; [lia|]. simpl. intros row Hin. apply in_app_iff in Hin. destruct Hin as [Hin|[<-|[]]].
      + apply in_map_iff in Hin. destruct Hin as (r & <- & Hr). rewrite !nth_skipn.
        apply (In_nth _ _ []) in Hr. destruct Hr as (n & Hn & <-). rewrite lv_len, R2 in Hn. rewrite R2.
        destruct n as [|[|n]]; [exact E0|exact E1|lia].
      + rewrite !nth_repeat_lt by lia. reflexivity.
    - intros HC. unfold mnrows. simpl. rewrite app_length, map_length, lv_len. simpl. unfold C in HC |- *.
      destruct Hv66 as [?|[E67 E]]; [left; lia|]. destruct (Nat.eq_dec R 64) as [ER|]; [right|left; lia].
      split; [lia|]. split; [lia|]. pose proof lv_len as LM. rewrite ER in *. destruct M as [|r0 rs]; [discriminate|].
      cbn [map hd app]. rewrite !nth_skipn. exact E.
  Qed.

  Lemma skip_cell i j : nth j (nth i (map (skipn (R + 1)) M) []) 0 = cell M i (R + 1 + j).
  Proof.
    destruct (Nat.lt_ge_cases i (length M)) as [L|L].
    - rewrite (nth_map_in _ _ _ (@nil Z)) by auto. apply nth_skipn.
    - rewrite (nth_overflow (map _ _)) by now rewrite map_length. unfold cell. rewrite (nth_overflow M) by auto.
      destruct j; simpl; [|]; now destruct (R + 1 + _)%nat.
  Qed.
  (** two columns of the question agree iff the columns of [M] do *)
  Lemma Q_columns i j : (i < C)%nat -> (j < C)%nat ->
    ((forall row, In row (mrows (qA Q)) -> nth i row 0 = nth j row 0)
     <-> forall r, (r < R)%nat -> cell M r (R + 1 + i) = cell M r (R + 1 + j)).
  Proof.
    intros Hi Hj. simpl. split.
    - intros H r Hr. rewrite <- !skip_cell. apply H. apply in_app_iff. left. apply nth_In.
      rewrite map_length, lv_len. auto.
    - intros H row Hin. apply in_app_iff in Hin. destruct Hin as [Hin|[<-|[]]]; [|now rewrite !nth_repeat_lt].
      apply (In_nth _ _ []) in Hin. destruct Hin as (r & Hr & <-). rewrite map_length, lv_len in Hr.
      rewrite !skip_cell. auto.
  Qed.
  Lemma Q_adjacent (HL : level v R M) : equal_columns_adjacent C (mrows (qA Q)).
  Proof.
    intros i j k' Hij Hk He. pose proof (proj1 (Q_columns i k' ltac:(lia) ltac:(lia)) He) as H.
    apply (Q_columns i j ltac:(lia) ltac:(lia)).
    assert (G : forall n r, (r < n)%nat -> (r < R)%nat -> cell M r (R + 1 + i) = cell M r (R + 1 + j)).
    { induction n as [|n IH]; intros r Hr HrR; [lia|]. destruct (Nat.eq_dec r n) as [->|]; [|apply IH; lia].
      pose proof (H n HrR) as En. unfold C in Hk.
      assert (H1 : cell M n (R + 1 + j) <= cell M n (R + 1 + i)).
      { apply (lv_canon _ _ _ HL); try lia. intros r Hr'. apply IH; lia. }
      assert (H2 : cell M n (R + 1 + k') <= cell M n (R + 1 + j)).
      { apply (lv_canon _ _ _ HL); try lia. intros r Hr'. rewrite <- IH by lia. apply H. lia. }
      lia. }
    intros r Hr. apply (G (S r)); lia.
  Qed.

  (** ** meaning of the equations *)
  Lemma new_row_eq x : new_row M x = known ++ x.
  Proof. unfold new_row, known. rewrite lv_len, <- app_assoc. reflexivity. Qed.
  Lemma new_row_dot i x : (i < R)%nat -> dot (nth i M []) (new_row M x)
     = dot (firstn (R + 1) (nth i M [])) known + dot (skipn (R + 1) (nth i M [])) x.
  Proof.
    intros Hi. rewrite new_row_eq. apply firstn_skipn_dot; [apply known_length|].
    destruct (lv_nrow i Hi) as [-> _]. lia.
  Qed.
  Lemma new_row_sum x : zsum (new_row M x) = zsum known + zsum x.
  Proof. rewrite new_row_eq. apply zsum_app. Qed.

  Lemma qsys_cases (P : list Z -> Z -> Prop) :
    (forall row x, In (row, x) (qsys Q) -> P row x) <->
    (forall i, (i < R)%nat -> P (skipn (R + 1) (nth i M [])) (nth i b0 0)) /\ P (repeat 1 C) (k - zsum known).
  Proof.
    unfold qsys, msys. simpl. unfold b.
    assert (HL : length (map (skipn (R + 1)) M) = length b0) by (rewrite map_length, b0_length; apply lv_len).
    assert (Hc : combine (map (skipn (R + 1)) M ++ [repeat 1 C]) (b0 ++ [k - zsum known])
                 = combine (map (skipn (R + 1)) M) b0 ++ [(repeat 1 C, k - zsum known)]).
    { now apply combine_snoc. }
    rewrite Hc. split.
    - intros H. split.
      + intros i Hi. apply H, in_app_iff. left.
        replace (skipn (R + 1) (nth i M [])) with (nth i (map (skipn (R + 1)) M) [])
          by (apply nth_map_in; rewrite lv_len; auto).
        apply nth_in_combine; rewrite ?map_length, ?b0_length, ?lv_len; auto.
      + apply H, in_app_iff. right. now left.
    - intros [H1 H2] row x Hin. apply in_app_iff in Hin. destruct Hin as [Hin|[E|[]]]; [|injection E as <- <-; auto].
      apply (in_combine_nth _ _ _ _ [] 0) in Hin.
      destruct Hin as (i & Hi & _ & <- & <-). rewrite map_length, lv_len in Hi.
      rewrite (nth_map_in _ _ _ (@nil Z)) by (rewrite lv_len; auto). apply H1. auto.
  Qed.

  Hypothesis Hu : 0 <= u <= 127.
  Lemma b0_exact i : (i < R)%nat ->
    nth i b0 0 = (if cell M i R =? 0 then u else l) - dot (firstn (R + 1) (nth i M [])) known.
  Proof.
    intros Hi. rewrite b0_nth by auto. destruct (used_nth i Hi) as [_ H]. pose proof l_range.
    assert (E : i8 (if cell M i R =? 0 then u else l) = if cell M i R =? 0 then u else l).
    { apply i8_id. destruct (cell M i R =? 0); lia. }
    rewrite E, i8_id; auto. destruct (cell M i R =? 0); lia.
  Qed.
  Lemma Q_holds x : length x = C -> (holds (qsys Q) x <->
    zsum (new_row M x) = k /\ forall i, (i < R)%nat -> dot (nth i M []) (new_row M x) = if cell M i R =? 0 then u else l).
  Proof.
    intros HL. unfold holds. rewrite (qsys_cases (fun row y => dot row x = y)).
    rewrite dot_ones by auto. rewrite new_row_sum. split.
    - intros [H1 H2]. split; [lia|]. intros i Hi. rewrite new_row_dot by auto. rewrite H1, b0_exact by auto. lia.
    - intros [H1 H2]. split; [|lia]. intros i Hi. specialize (H2 i Hi). rewrite new_row_dot in H2 by auto.
      rewrite b0_exact by auto. lia.
  Qed.
  Lemma Q_below x : length x = C -> (below (qsys Q) x <->
    zsum (new_row M x) <= k /\ forall i, (i < R)%nat -> dot (nth i M []) (new_row M x) <= if cell M i R =? 0 then u else l).
  Proof.
    intros HL. unfold below. rewrite (qsys_cases (fun row y => dot row x <= y)).
    rewrite dot_ones by auto. rewrite new_row_sum. split.
    - intros [H1 H2]. split; [lia|]. intros i Hi. rewrite new_row_dot by auto. specialize (H1 i Hi).
      rewrite b0_exact in H1 by auto. lia.
    - intros [H1 H2]. split; [|lia]. intros i Hi. specialize (H2 i Hi). rewrite new_row_dot in H2 by auto.
      rewrite b0_exact by auto. lia.
  Qed.
  Lemma Q_negative x : length x = C -> bits x -> existsb (fun y => y <? 0) b = true ->
    ~ (zsum (new_row M x) = k /\ forall i, (i < R)%nat -> dot (nth i M []) (new_row M x) = if cell M i R =? 0 then u else l).
  Proof.
    intros HL Hb Ex [H1 H2]. apply existsb_exists in Ex. destruct Ex as (y & Hy & Hneg).
    unfold b in Hy. apply in_app_iff in Hy. destruct Hy as [Hy|[<-|[]]].
    - apply (In_nth _ _ 0) in Hy. destruct Hy as (i & Hi & <-). rewrite b0_length in Hi.
      specialize (H2 i Hi). rewrite new_row_dot in H2 by auto. rewrite b0_exact in Hneg by auto.
      destruct (lv_nrow i Hi) as [_ B].
      assert (0 <= dot (skipn (R + 1) (nth i M [])) x); [|lia].
      apply dot_nonneg; [|intros a Ha; destruct (Hb a Ha); lia].
      intros a Ha. apply B. rewrite <- (firstn_skipn (R + 1)). apply in_app_iff. now right.
    - rewrite new_row_sum in H1. pose proof (bits_sum x Hb). lia.
  Qed.
End from_matrix.

(** ** extending a level by one row *)
Lemma cell_app_old M r i j : (i < length M)%nat -> cell (M ++ [r]) i j = cell M i j.
Proof. intros H. unfold cell. now rewrite app_nth1. Qed.
Lemma cell_app_new M r j : cell (M ++ [r]) (length M) j = nth j r 0.
Proof. unfold cell. now rewrite app_nth2, Nat.sub_diag by lia. Qed.
Lemma nth_new_row M x j : nth j (new_row M x) 0
  = if (j <? length M)%nat then cell M j (length M) else if (j =? length M)%nat then 0 else nth (j - length M - 1) x 0.
Proof.
  unfold new_row. destruct (Nat.ltb_spec j (length M)) as [H|H].
  - rewrite app_nth1 by now rewrite column_length. rewrite nth_column. destruct (Nat.ltb_spec j (length M)); [auto|lia].
  - rewrite app_nth2, column_length by now rewrite column_length. destruct (Nat.eqb_spec j (length M)) as [->|Hne].
    + now rewrite Nat.sub_diag.
    + rewrite app_nth2 by (simpl; lia). simpl. reflexivity.
Qed.
Lemma new_row_length v R M x : level v R M -> (R < v)%nat -> length x = (v - R - 1)%nat -> length (new_row M x) = v.
Proof.
  intros HV HR HL. unfold new_row. rewrite !app_length, column_length, (lv_len _ _ _ HV). simpl. lia.
Qed.

Lemma level_extend v R M x : level v R M -> (R < v)%nat -> length x = (v - R - 1)%nat -> bits x ->
  (forall j j', (j < j' < v - R - 1)%nat -> (forall r, (r < R)%nat -> cell M r (R + 1 + j) = cell M r (R + 1 + j')) -> nth j' x 0 <= nth j x 0) ->
  level v (S R) (M ++ [new_row M x]).
Proof.
  intros HV HR HL Hb Ho. pose proof (lv_len _ _ _ HV) as HM. pose proof (lv_R _ _ _ HV) as HR2.
  destruct (lv_shape _ _ _ HV) as [_ Hs].
  assert (Hnew : forall j, cell (M ++ [new_row M x]) R j = nth j (new_row M x) 0) by (intros j; rewrite <- HM; apply cell_app_new).
  assert (Hold : forall i j, (i < R)%nat -> cell (M ++ [new_row M x]) i j = cell M i j) by (intros i j Hi; apply cell_app_old; lia).
  apply level_intro.
  - split; [rewrite app_length; simpl; lia|]. intros row Hin. apply in_app_iff in Hin.
    destruct Hin as [Hin|[<-|[]]]; auto. eapply new_row_length; eauto.
  - lia.
  - intros i j Hi Hj. destruct (Nat.eq_dec i R) as [->|]; [|rewrite Hold by lia; apply (lv_bit _ _ _ HV); lia].
    rewrite Hnew, nth_new_row, HM. destruct (Nat.ltb_spec j R); [apply (lv_bit _ _ _ HV); lia|].
    destruct (Nat.eqb_spec j R); [now left|]. apply Hb, nth_In. lia.
  - intros i j Hi Hj.
    destruct (Nat.eq_dec i R) as [->|], (Nat.eq_dec j R) as [->|]; auto.
    + rewrite Hnew, nth_new_row, HM, Hold by lia. destruct (Nat.ltb_spec j R); [reflexivity|lia].
    + rewrite Hnew, nth_new_row, HM, Hold by lia. destruct (Nat.ltb_spec i R); [reflexivity|lia].
    + rewrite !Hold by lia. apply (lv_sym _ _ _ HV); lia.
  - intros i Hi. destruct (Nat.eq_dec i R) as [->|]; [|rewrite Hold by lia; apply (lv_diag _ _ _ HV); lia].
    rewrite Hnew, nth_new_row, HM. destruct (Nat.ltb_spec R R); [lia|]. rewrite Nat.eqb_refl. reflexivity.
  - intros r j j' Hr Hj Hj' He. destruct (Nat.eq_dec r R) as [->|].
    + rewrite !Hnew, !nth_new_row, HM.
      destruct (Nat.ltb_spec j R); [lia|]. destruct (Nat.ltb_spec j' R); [lia|].
      destruct (Nat.eqb_spec j R); [lia|]. destruct (Nat.eqb_spec j' R); [lia|].
      apply Ho; [lia|]. intros i Hi. specialize (He i ltac:(lia)). rewrite !Hold in He by lia.
      replace (R + 1 + (j - R - 1))%nat with j by lia. replace (R + 1 + (j' - R - 1))%nat with j' by lia. exact He.
    + rewrite !Hold by lia. apply (lv_canon _ _ _ HV); try lia. intros i Hi. specialize (He i Hi). rewrite !Hold in He by lia. exact He.
Qed.

(** conversely every level with one more row has this form *)
Lemma firstn_S_nth {A} (d : A) n l : (n < length l)%nat -> firstn (S n) l = firstn n l ++ [nth n l d].
Proof.
  revert l. induction n as [|n IH]; intros [|a l] H; simpl in *; try lia; auto. f_equal. apply IH. lia.
Qed.
Lemma level_last v R N : level v (S R) N -> (2 <= R)%nat ->
  let M := firstn R N in let x := skipn (R + 1) (nth R N []) in
  N = M ++ [new_row M x] /\ level v R M /\ length x = (v - R - 1)%nat /\ bits x
  /\ (forall j j', (j < j' < v - R - 1)%nat -> (forall r, (r < R)%nat -> cell M r (R + 1 + j) = cell M r (R + 1 + j')) -> nth j' x 0 <= nth j x 0).
Proof.
  intros HV HR M x. pose proof (lv_len _ _ _ HV) as HN. pose proof (lv_R _ _ _ HV) as HR2.
  assert (HLM : length M = R) by (unfold M; rewrite firstn_length; lia).
  assert (Hc : forall i j, (i < R)%nat -> cell M i j = cell N i j).
  { intros i j Hi. unfold cell, M. f_equal. rewrite <- (firstn_skipn R N) at 2. rewrite app_nth1 by (rewrite firstn_length; lia). reflexivity. }
  destruct (lv_nrow _ _ _ HV R ltac:(lia)) as [Lr Br].
  assert (HLx : length x = (v - R - 1)%nat) by (unfold x; rewrite skipn_length; lia).
  assert (Hbx : bits x).
  { intros a Ha. apply Br. rewrite <- (firstn_skipn (R + 1)). apply in_app_iff. now right. }
  assert (Hrow : nth R N [] = new_row M x).
  { apply nth_ext0.
    - unfold new_row. rewrite !app_length, column_length, HLx, HLM. simpl. lia.
    - intros j Hj. rewrite nth_new_row, HLM. fold (cell N R j). destruct (Nat.ltb_spec j R).
      + rewrite Hc by auto. apply (lv_sym _ _ _ HV); lia.
      + destruct (Nat.eqb_spec j R) as [->|]; [apply (lv_diag _ _ _ HV); lia|].
        unfold x. rewrite nth_skipn. unfold cell. f_equal. lia. }
  assert (HMl : level v R M).
  { apply level_intro; try lia.
    - split; auto. intros row Hr. apply (lv_shape _ _ _ HV). unfold M in Hr. rewrite <- (firstn_skipn R N). apply in_app_iff. now left.
    - intros i j Hi Hj. rewrite Hc by auto. apply (lv_bit _ _ _ HV); lia.
    - intros i j Hi Hj. rewrite !Hc by auto. apply (lv_sym _ _ _ HV); lia.
    - intros i Hi. rewrite Hc by auto. apply (lv_diag _ _ _ HV); lia.
    - intros r j j' Hr Hj Hj' He. rewrite !Hc by auto. apply (lv_canon _ _ _ HV); try lia.
      intros i Hi. specialize (He i Hi). rewrite !Hc in He by lia. exact He. }
  split; [|split; [exact HMl|split; [exact HLx|split; [exact Hbx|]]]].
  - rewrite <- Hrow. unfold M. rewrite <- firstn_S_nth by lia. rewrite <- HN at 1. symmetry. apply firstn_all2. lia.
  - intros j j' Hj He.
    assert (H : cell N R (R + 1 + j') <= cell N R (R + 1 + j)).
    { apply (lv_canon _ _ _ HV); try lia. intros i Hi. specialize (He i Hi). rewrite !Hc in He by auto. exact He. }
    unfold x. rewrite !nth_skipn. exact H.
Qed.

(** ** advance *)
Lemma sized_bound v M : sized v M -> (v <= 67)%nat.
Proof. intros [?|[-> _]]; lia. Qed.
Lemma advance_level v R M : level v R M -> (R < v)%nat -> sized v M ->
  exists xs, advance (Mat v M) = Ok (map (fun x => Mat v (M ++ [new_row M x])) xs) /\ NoDup xs
    /\ (forall x, In x xs -> length x = (v - R - 1)%nat /\ level v (S R) (M ++ [new_row M x])
         /\ (0 <= par_u v M <= 127 -> below_row (par_k M) (par_l M) (par_u v M) (M ++ [new_row M x]) R)
         /\ (0 <= par_u v M <= 127 -> S R = v -> exact_row (par_k M) (par_l M) (par_u v M) (M ++ [new_row M x]) R))
    /\ (0 <= par_u v M <= 127 -> forall x, length x = (v - R - 1)%nat -> level v (S R) (M ++ [new_row M x]) ->
         exact_row (par_k M) (par_l M) (par_u v M) (M ++ [new_row M x]) R -> In x xs).
Proof.
  intros HV HR Hv. pose proof (sized_bound v M Hv) as Hv67. pose proof (lv_len _ _ _ HV) as HM. pose proof (lv_R _ _ _ HV) as HR2.
  unfold advance, solved. unfold mnrows. cbn [mrows mcols]. rewrite HM.
  destruct (Nat.eqb_spec R v); [lia|]. cbn [negb assert_ bind].
  rewrite (from_matrix_eq v R M HV ltac:(lia) HR).
  (* the row equations in terms of the appended row *)
  assert (Hnth : forall x i, (i < R)%nat -> nth i (M ++ [new_row M x]) [] = nth i M []) by (intros x i Hi; apply app_nth1; lia).
  assert (HnthR : forall x, nth R (M ++ [new_row M x]) [] = new_row M x).
  { intros x. rewrite app_nth2 by lia. now rewrite HM, Nat.sub_diag. }
  assert (Hcell : forall x i, (i < R)%nat -> cell (M ++ [new_row M x]) i R = cell M i R) by (intros x i Hi; apply cell_app_old; lia).
  assert (Hex : forall x, exact_row (par_k M) (par_l M) (par_u v M) (M ++ [new_row M x]) R <->
     zsum (new_row M x) = par_k M /\ forall i, (i < R)%nat -> dot (nth i M []) (new_row M x) = if cell M i R =? 0 then par_u v M else par_l M).
  { intros x. unfold exact_row. rewrite HnthR. split; intros [A B]; split; auto; intros i Hi; specialize (B i Hi);
    rewrite Hnth, Hcell in * by auto; auto. }
  assert (Hbe : forall x, below_row (par_k M) (par_l M) (par_u v M) (M ++ [new_row M x]) R <->
     zsum (new_row M x) <= par_k M /\ forall i, (i < R)%nat -> dot (nth i M []) (new_row M x) <= if cell M i R =? 0 then par_u v M else par_l M).
  { intros x. unfold below_row. rewrite HnthR. split; intros [A B]; split; auto; intros i Hi; specialize (B i Hi);
    rewrite Hnth, Hcell in * by auto; auto. }
  match goal with |- context [if existsb ?p ?b then _ else _] => set (bb := b) in *; destruct (existsb p bb) eqn:Ex end.
  { exists []. simpl. split; auto. split; [constructor|]. split; [easy|].
    intros Hu x HL HLev He. exfalso. apply Hex in He. revert He. apply (Q_negative v R M HV ltac:(lia) HR Hu x HL); auto.
    intros a Ha. destruct (lv_row _ _ _ HLev (new_row M x)) as [_ Hb].
    - apply in_app_iff. right. now left.
    - apply Hb. unfold new_row. apply in_app_iff. right. apply in_app_iff. now right. }
  match goal with |- context [solve_question ?q] => set (Q := q) end.
  assert (HF : fresh (v - R - 1) Q) by exact (Q_fresh v R M HV ltac:(lia) HR Hv Ex).
  assert (HA : equal_columns_adjacent (v - R - 1) (mrows (qA Q))) by exact (Q_adjacent v R M HV ltac:(lia) HR HV).
  destruct (solve_question_fresh _ _ HF HA) as (xs & E & Hnd & H1 & H2). rewrite E. cbn [bind].
  exists xs. split.
  { apply mapM_ok. intros x Hx. destruct (H1 x Hx) as (HL & _).
    unfold append_row. unfold mnrows. cbn [mrows mcols]. rewrite HM. destruct (Nat.leb_spec v R); [lia|].
    assert (EN : column R M ++ [0] ++ x = new_row M x) by (unfold new_row; now rewrite HM).
    rewrite EN, (new_row_length v R) by auto. rewrite Nat.eqb_refl. reflexivity. }
  split; auto. split.
  - intros x Hx. destruct (H1 x Hx) as (HL & Hb & Ho & Hbel). split; auto. split; [|split].
    + apply level_extend; auto. intros j j' Hj He. apply Ho; [lia|].
      exact (proj2 (Q_columns v R M HV j j' ltac:(lia) ltac:(lia)) He).
    + intros Hu. apply Hbe. apply (Q_below v R M HV ltac:(lia) HR Hu x HL). exact Hbel.
    + intros Hu HS. apply Hex. apply (Q_holds v R M HV ltac:(lia) HR Hu x HL).
      assert (HC0 : (v - R - 1 = 0)%nat) by lia.
      destruct (existsb (fun y => negb (y =? 0)) (qb Q)) eqn:Eb.
      * rewrite (solve_question_no_columns _ _ HF HC0 Eb) in E. injection E as <-. easy.
      * rewrite existsb_none in Eb. intros row y Hin.
        assert (Ey : y = 0) by (apply in_combine_r in Hin; specialize (Eb y Hin); lia).
        destruct x; [|simpl in HL; lia]. rewrite dot_nil_r. lia.
  - intros Hu x HL HLev He. apply H2; auto.
    + destruct (lv_row _ _ _ HLev (new_row M x)) as [_ Hb]; [apply in_app_iff; right; now left|].
      intros a Ha. apply Hb. unfold new_row. apply in_app_iff. right. apply in_app_iff. now right.
    + intros j j' Hj He'. rewrite HL in Hj. 
      pose proof (proj1 (Q_columns v R M HV j j' ltac:(lia) ltac:(lia)) He') as Hc.
      assert (H : cell (M ++ [new_row M x]) R (R + 1 + j') <= cell (M ++ [new_row M x]) R (R + 1 + j)).
      { apply (lv_canon _ _ _ HLev); try lia. intros r Hr. rewrite !cell_app_old by lia. auto. }
      rewrite <- HM in H at 1 3. rewrite !cell_app_new, !nth_new_row, HM in H.
      destruct (Nat.ltb_spec (R + 1 + j) R); [lia|]. destruct (Nat.ltb_spec (R + 1 + j') R); [lia|].
      destruct (Nat.eqb_spec (R + 1 + j) R); [lia|]. destruct (Nat.eqb_spec (R + 1 + j') R); [lia|].
      replace (R + 1 + j - R - 1)%nat with j in H by lia. replace (R + 1 + j' - R - 1)%nat with j' in H by lia. exact H.
    + apply (Q_holds v R M HV ltac:(lia) HR Hu x HL). now apply Hex.
Qed.

(** ** the whole search *)
Definition params_ok (v : nat) (M0 : list (list Z)) : Prop := 0 <= par_u v M0 <= 127.

(** completed matrices the search must find *)
Definition target (v : nat) (M0 T : list (list Z)) : Prop :=
  level v v T /\ firstn 2 T = M0 /\ forall r, (2 <= r < v)%nat -> exact_row (par_k M0) (par_l M0) (par_u v M0) T r.

Record linv (v : nat) (M0 : list (list Z)) (R : nat) (lst : list (list (list Z))) : Prop := {
  li_level : forall N, In N lst -> level v R N /\ firstn 2 N = M0;
  li_below : params_ok v M0 -> forall N, In N lst -> forall r, (2 <= r < R)%nat -> below_row (par_k M0) (par_l M0) (par_u v M0) N r;
  li_last : params_ok v M0 -> (3 <= R)%nat -> R = v -> forall N, In N lst -> exact_row (par_k M0) (par_l M0) (par_u v M0) N (v - 1);
  li_nd : NoDup lst;
  li_all : params_ok v M0 -> forall T, target v M0 T -> In (firstn R T) lst }.

Lemma par_firstn v N M0 : firstn 2 N = M0 -> (2 <= length N)%nat ->
  par_k N = par_k M0 /\ par_l N = par_l M0 /\ par_u v N = par_u v M0.
Proof.
  intros <- H. destruct N as [|a [|b N]]; simpl in H; try lia. repeat split.
Qed.

Lemma NoDup_concat_map {A B} (f : A -> list B) l : NoDup l ->
  (forall a, In a l -> NoDup (f a)) -> (forall a a' b, In a l -> In a' l -> In b (f a) -> In b (f a') -> a = a') ->
  NoDup (concat (map f l)).
Proof.
  induction 1 as [|a l Ha Hl IH]; intros H1 H2; simpl; [constructor|].
  apply NoDup_app_intro.
  - apply H1; now left.
  - apply IH; [intros; apply H1; now right|]. intros x y z Hx Hy. apply H2; now right.
  - intros b Hb Hin. apply in_concat in Hin. destruct Hin as (l' & Hl' & Hbl). apply in_map_iff in Hl'.
    destruct Hl' as (a' & <- & Ha'). assert (a = a') by (apply (H2 a a' b); auto; [now left|now right]). congruence.
Qed.

Lemma mapM_total {A B} (f : A -> res (list B)) l : (forall a, In a l -> exists b, f a = Ok b) ->
  exists g, (forall a, In a l -> f a = Ok (g a)) /\ mapM f l = Ok (map g l).
Proof.
  intros H. exists (fun a => match f a with Ok b => b | _ => [] end).
  assert (E : forall a, In a l -> f a = Ok (match f a with Ok b => b | _ => [] end)).
  { intros a Ha. destruct (H a Ha) as (b & ->). reflexivity. }
  split; auto. now apply mapM_ok.
Qed.

Lemma sized_prefix v M0 R N lst : linv v M0 R lst -> (2 <= R)%nat -> In N lst -> sized v M0 -> sized v N.
Proof.
  intros HI HR HN [?|[E C]]; [now left|right]. split; auto. destruct (li_level _ _ _ _ HI N HN) as [HL HP].
  pose proof (lv_len _ _ _ HL) as LN. rewrite <- HP in C.
  destruct N as [|r N]; [simpl in LN; lia|]. exact C.
Qed.
Lemma advance_lst v M0 R lst : linv v M0 R lst -> (R < v)%nat -> (2 <= R)%nat -> sized v M0 ->
  exists lst', advance_all (map (Mat v) lst) = Ok (map (Mat v) lst') /\ linv v M0 (S R) lst'.
Proof.
  intros HI HR HR2 Hv.
  set (good := fun N (ms : list mat) => exists xs, ms = map (fun x => Mat v (N ++ [new_row N x])) xs /\ NoDup xs
    /\ (forall x, In x xs -> length x = (v - R - 1)%nat /\ level v (S R) (N ++ [new_row N x])
         /\ (0 <= par_u v N <= 127 -> below_row (par_k N) (par_l N) (par_u v N) (N ++ [new_row N x]) R)
         /\ (0 <= par_u v N <= 127 -> S R = v -> exact_row (par_k N) (par_l N) (par_u v N) (N ++ [new_row N x]) R))
    /\ (0 <= par_u v N <= 127 -> forall x, length x = (v - R - 1)%nat -> level v (S R) (N ++ [new_row N x]) ->
         exact_row (par_k N) (par_l N) (par_u v N) (N ++ [new_row N x]) R -> In x xs)).
  assert (Hadv : forall N, In N lst -> exists ms, advance (Mat v N) = Ok ms /\ good N ms).
  { intros N HN. destruct (li_level _ _ _ _ HI N HN) as [HL _].
    destruct (advance_level v R N HL HR (sized_prefix v M0 R N lst HI HR2 HN Hv)) as (xs & E & G). eexists. split; [exact E|]. exists xs. auto. }
  set (g := fun N => match advance (Mat v N) with Ok ms => map mrows ms | _ => [] end).
  assert (Hg : forall N, In N lst -> advance (Mat v N) = Ok (map (Mat v) (g N))
     /\ exists xs, g N = map (fun x => N ++ [new_row N x]) xs /\ NoDup xs
    /\ (forall x, In x xs -> length x = (v - R - 1)%nat /\ level v (S R) (N ++ [new_row N x])
         /\ (0 <= par_u v N <= 127 -> below_row (par_k N) (par_l N) (par_u v N) (N ++ [new_row N x]) R)
         /\ (0 <= par_u v N <= 127 -> S R = v -> exact_row (par_k N) (par_l N) (par_u v N) (N ++ [new_row N x]) R))
    /\ (0 <= par_u v N <= 127 -> forall x, length x = (v - R - 1)%nat -> level v (S R) (N ++ [new_row N x]) ->
         exact_row (par_k N) (par_l N) (par_u v N) (N ++ [new_row N x]) R -> In x xs)).
  { intros N HN. destruct (Hadv N HN) as (ms & E & xs & Ems & G). unfold g. rewrite E, Ems. split.
    - rewrite !map_map. reflexivity.
    - exists xs. rewrite map_map. simpl. auto. }
  exists (concat (map g lst)). split.
  { unfold advance_all.
    assert (E : mapM advance (map (Mat v) lst) = Ok (map (fun N => map (Mat v) (g N)) lst)).
    { assert (G : forall l, (forall N, In N l -> In N lst) -> mapM advance (map (Mat v) l) = Ok (map (fun N => map (Mat v) (g N)) l)).
      { induction l as [|N l IH]; intros Hl; simpl; auto. destruct (Hg N) as [E _]; [apply Hl; now left|].
        rewrite E. cbn [bind]. rewrite IH by (intros; apply Hl; now right). reflexivity. }
      apply G. auto. }
    rewrite E. cbn [bind]. f_equal. clear. induction lst as [|N l IH]; simpl; auto. now rewrite map_app, IH. }
  assert (Hin : forall N', In N' (concat (map g lst)) -> exists N xs x, In N lst /\ g N = map (fun x => N ++ [new_row N x]) xs
            /\ In x xs /\ N' = N ++ [new_row N x]
            /\ level v (S R) N'
         /\ (0 <= par_u v N <= 127 -> below_row (par_k N) (par_l N) (par_u v N) N' R)
         /\ (0 <= par_u v N <= 127 -> S R = v -> exact_row (par_k N) (par_l N) (par_u v N) N' R)).
  { intros N' Hin. apply in_concat in Hin. destruct Hin as (l' & Hl' & Hin). apply in_map_iff in Hl'.
    destruct Hl' as (N & <- & HN). destruct (Hg N HN) as (_ & xs & Ex & _ & HX & _). rewrite Ex in Hin.
    apply in_map_iff in Hin. destruct Hin as (x & <- & Hx). exists N, xs, x. destruct (HX x Hx) as (_ & ? & ? & ?). auto 10. }
  assert (Hlen : forall N, In N lst -> length N = R).
  { intros N HN. destruct (li_level _ _ _ _ HI N HN) as [HL _]. apply (lv_len _ _ _ HL). }
  assert (Hpar : forall N, In N lst -> par_k N = par_k M0 /\ par_l N = par_l M0 /\ par_u v N = par_u v M0).
  { intros N HN. apply par_firstn; [now apply (li_level _ _ _ _ HI)|]. rewrite Hlen by auto. lia. }
  constructor.
  - intros N' H. destruct (Hin N' H) as (N & xs & x & HN & _ & _ & -> & HL & _). split; auto.
    destruct (li_level _ _ _ _ HI N HN) as [_ E]. rewrite firstn_app, Hlen by auto.
    replace (2 - R)%nat with 0%nat by lia. simpl. now rewrite app_nil_r.
  - intros Hp N' H r Hr. destruct (Hin N' H) as (N & xs & x & HN & _ & _ & E & HL & Hb & _).
    destruct (Hpar N HN) as (P1 & P2 & P3). rewrite P1, P2, P3 in *.
    destruct (Nat.eq_dec r R) as [->|]; [now apply Hb|].
    pose proof (li_below _ _ _ _ HI Hp N HN r ltac:(lia)) as [B1 B2]. subst N'. specialize (Hlen N HN). split.
    + rewrite app_nth1 by lia. exact B1.
    + intros i Hi. rewrite !app_nth1 by lia. rewrite cell_app_old by lia. auto.
  - intros Hp _ HS N' H. destruct (Hin N' H) as (N & xs & x & HN & _ & _ & E & HL & _ & Hb).
    destruct (Hpar N HN) as (P1 & P2 & P3). rewrite P1, P2, P3 in *.
    replace (v - 1)%nat with R by lia. now apply Hb.
  - apply NoDup_concat_map.
    + apply (li_nd _ _ _ _ HI).
    + intros N HN. destruct (Hg N HN) as (_ & xs & -> & Hnd & HX & _). specialize (Hlen N HN).
      clear - Hnd Hlen. apply FinFun.Injective_map_NoDup; auto. intros x y E. apply app_inv_head in E.
      injection E as E. unfold new_row in E. apply app_inv_head in E. now injection E.
    + intros N N2 N' HN HN2 H1 H2. destruct (Hg N HN) as (_ & xs & E1 & _). destruct (Hg N2 HN2) as (_ & xs2 & E2 & _).
      rewrite E1 in H1. rewrite E2 in H2. apply in_map_iff in H1. apply in_map_iff in H2.
      destruct H1 as (x & <- & _). destruct H2 as (y & E & _).
      apply (f_equal (firstn R)) in E. rewrite !firstn_app, !Hlen, Nat.sub_diag in E by auto. simpl in E.
      rewrite !app_nil_r in E. rewrite <- (Hlen N HN) in E at 2. rewrite <- (Hlen N2 HN2) in E. now rewrite !firstn_all in E.
  - intros Hp T HT. pose proof (li_all _ _ _ _ HI Hp T HT) as HN. destruct HT as (HTL & HT2 & HTe).
    set (N := firstn R T) in *.
    pose proof (lv_len _ _ _ HTL) as HTlen.
    (* the prefix of T of S R rows is a level *)
    assert (HLS : level v (S R) (firstn (S R) T)).
    { assert (Hc : forall i j, (i < S R)%nat -> cell (firstn (S R) T) i j = cell T i j).
      { intros i j Hi. unfold cell. f_equal. rewrite <- (firstn_skipn (S R) T) at 2.
        rewrite app_nth1 by (rewrite firstn_length; lia). reflexivity. }
      apply level_intro; try lia.
      - split; [rewrite firstn_length; lia|]. intros row Hr. apply (lv_shape _ _ _ HTL).
        rewrite <- (firstn_skipn (S R) T). apply in_app_iff. now left.
      - intros i j Hi Hj. rewrite Hc by auto. apply (lv_bit _ _ _ HTL); lia.
      - intros i j Hi Hj. rewrite !Hc by auto. apply (lv_sym _ _ _ HTL); lia.
      - intros i Hi. rewrite Hc by auto. apply (lv_diag _ _ _ HTL); lia.
      - intros r j j' Hr Hj Hj' He. rewrite !Hc by auto. apply (lv_canon _ _ _ HTL); try lia.
        intros i Hi. specialize (He i Hi). rewrite !Hc in He by lia. exact He. }
    destruct (level_last v R _ HLS HR2) as (E & _ & HLx & _).
    assert (EN : firstn R (firstn (S R) T) = N) by (unfold N; rewrite firstn_firstn; f_equal; lia).
    rewrite EN in E. set (x := skipn (R + 1) (nth R (firstn (S R) T) [])) in *.
    apply in_concat. exists (g N). split; [now apply in_map|].
    destruct (Hg N HN) as (_ & xs & Ex & _ & _ & Hcomp). rewrite Ex, E. apply in_map_iff. exists x. split; auto.
    destruct (Hpar N HN) as (P1 & P2 & P3). rewrite P1, P2, P3 in Hcomp.
    apply Hcomp; auto; [now rewrite <- E|]. rewrite <- E.
    assert (Hn : forall i, (i < S R)%nat -> nth i (firstn (S R) T) [] = nth i T []).
    { intros i Hi. rewrite <- (firstn_skipn (S R) T) at 2. rewrite app_nth1 by (rewrite firstn_length; lia). reflexivity. }
    destruct (HTe R ltac:(lia)) as [A B]. split.
    + rewrite Hn by lia. exact A.
    + intros i Hi. unfold cell. rewrite !Hn by lia. apply B. exact Hi.
Qed.

Lemma undone_all v R lst : (forall N, In N lst -> length N = R) -> R <> v ->
  lst_undone (map (Mat v) lst) = map (Mat v) lst /\ lst_done (map (Mat v) lst) = [].
Proof.
  intros H Hne. unfold lst_undone, lst_done, solved, mnrows.
  induction lst as [|N l IH]; simpl; auto. rewrite (H N) by now left.
  destruct (Nat.eqb_spec R v); [easy|]. simpl. destruct IH as [-> ->]; auto. intros; apply H; now right.
Qed.
Lemma done_all v lst : (forall N, In N lst -> length N = v) ->
  lst_undone (map (Mat v) lst) = [] /\ lst_done (map (Mat v) lst) = map (Mat v) lst.
Proof.
  intros H. unfold lst_undone, lst_done, solved, mnrows.
  induction lst as [|N l IH]; simpl; auto. rewrite (H N) by now left.
  rewrite Nat.eqb_refl. simpl. destruct IH as [-> ->]; auto. intros; apply H; now right.
Qed.
Lemma linv_len v M0 R lst : linv v M0 R lst -> forall N, In N lst -> length N = R.
Proof. intros HI N HN. destruct (li_level _ _ _ _ HI N HN) as [HL _]. apply (lv_len _ _ _ HL). Qed.
Lemma linv_nil v M0 R : linv v M0 R [] -> linv v M0 v [].
Proof.
  intros HI. constructor; try easy; [constructor|].
  intros Hp T HT. exact (li_all _ _ _ _ HI Hp T HT).
Qed.

Lemma solve_loop_spec v M0 : sized v M0 -> forall fuel R lst, linv v M0 R lst -> (2 <= R <= v)%nat ->
  (v - R < fuel)%nat -> exists lst', solve_loop fuel (map (Mat v) lst) [] = Ok (map (Mat v) lst') /\ linv v M0 v lst'.
Proof.
  intros Hv. induction fuel as [|fuel IH]; intros R lst HI HR Hf; [lia|].
  destruct lst as [|N lst0] eqn:El.
  { exists []. split; auto. now apply (linv_nil _ _ R). }
  rewrite <- El in *. assert (Hne : map (Mat v) lst <> []) by (rewrite El; discriminate).
  assert (Estep : solve_loop (S fuel) (map (Mat v) lst) [] =
     (lst' <- advance_all (lst_undone (map (Mat v) lst)) ;; solve_loop fuel lst' ([] ++ lst_done (map (Mat v) lst)))).
  { clear - Hne. destruct (map (Mat v) lst); [easy|reflexivity]. }
  rewrite Estep. destruct (Nat.eq_dec R v) as [->|Hneq].
  - destruct (done_all v lst (linv_len _ _ _ _ HI)) as [-> ->]. unfold advance_all. simpl.
    exists lst. split; auto. destruct fuel; reflexivity.
  - destruct (undone_all v R lst (linv_len _ _ _ _ HI) Hneq) as [-> ->].
    destruct (advance_lst v M0 R lst HI ltac:(lia) ltac:(lia) Hv) as (lst' & E & HI'). rewrite E. cbn [bind app].
    apply (IH (S R)); auto; lia.
Qed.

Theorem solve_spec v M0 : level v 2 M0 -> (3 <= v)%nat -> sized v M0 ->
  exists lst, solve (Mat v M0) = Ok (map (Mat v) lst) /\ linv v M0 v lst.
Proof.
  intros HL H3 Hv.
  assert (E2 : firstn 2 M0 = M0) by (apply firstn_all2; rewrite (lv_len _ _ _ HL); lia).
  assert (HI : linv v M0 2 [M0]).
  { constructor.
    - intros N [<-|[]]. auto.
    - intros; lia.
    - intros; lia.
    - repeat constructor; easy.
    - intros Hp T (_ & HT & _). left. auto. }
  destruct (advance_lst v M0 2 [M0] HI ltac:(lia) ltac:(lia) Hv) as (lst & E & HI3).
  unfold advance_all in E. simpl in E.
  unfold solve. destruct (advance (Mat v M0)) as [ms| |]; cbn [bind] in E; try discriminate. cbn [bind].
  injection E as E. rewrite app_nil_r in E. subst ms. unfold mnrows. cbn [mcols mrows]. rewrite (lv_len _ _ _ HL).
  destruct (Nat.eq_dec v 3) as [->|Hne].
  - destruct (done_all 3 lst (linv_len _ _ _ _ HI3)) as [-> ->]. unfold advance_all. simpl. exists lst. auto.
  - destruct (undone_all v 3 lst (linv_len _ _ _ _ HI3) ltac:(lia)) as [-> ->].
    destruct (advance_lst v M0 3 lst HI3 ltac:(lia) ltac:(lia) Hv) as (lst' & E & HI4). rewrite E. cbn [bind].
    destruct lst' as [|N lst0] eqn:El.
    + exists []. split; [destruct (v - 2)%nat; reflexivity|]. now apply (linv_nil _ _ 4).
    + rewrite <- El in *. apply (solve_loop_spec v M0 Hv (v - 2) 4 lst'); auto; lia.
Qed.
