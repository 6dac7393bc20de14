(** The first reduce_col: grouping the equal columns of a fresh question. *)
From Verif Require Import Np ModelGauss Model Spec Lib BitFacts Cone ElimFacts QFacts StepFacts ForkFacts.
From Coq Require Import ZifyBool ZifyNat Sorting.Sorted Sorting.Permutation.

(** ** Runs *)
Definition runs {A} (ks : list A) (ns : list nat) : list A := concat (map2 (@repeat A) ks ns).
Definition natsum (ns : list nat) : nat := fold_right plus 0%nat ns.
Fixpoint nstarts (p : nat) (ns : list nat) : list nat :=
  match ns with [] => [] | n :: t => p :: nstarts (p + n) t end.
Fixpoint blocks (p : nat) (ns : list nat) : list (list nat) :=
  match ns with [] => [] | n :: t => seq p n :: blocks (p + n) t end.

Lemma runs_length {A} (ks : list A) : forall ns, length ks = length ns -> length (runs ks ns) = natsum ns.
Proof.
  induction ks as [|k ks IH]; intros [|n ns] H; simpl in *; try lia. unfold runs in *. simpl.
  rewrite app_length, repeat_length, IH by lia. reflexivity.
Qed.
Lemma runs_map {A B} (f : A -> B) (ks : list A) : forall ns, map f (runs ks ns) = runs (map f ks) ns.
Proof.
  unfold runs. induction ks as [|k ks IH]; intros [|n ns]; simpl; auto.
  rewrite map_app, IH. f_equal. clear. induction n; simpl; congruence.
Qed.
Lemma in_runs {A} (k : A) ks : forall ns, In k (runs ks ns) -> In k ks.
Proof.
  unfold runs. induction ks as [|k' ks IH]; intros [|n ns]; simpl; try easy.
  intros H. apply in_app_iff in H. destruct H as [H|H]; [left; symmetry; eapply repeat_spec; eauto|right; eauto].
Qed.
Lemma in_runs_rev {A} (k : A) ks : forall ns, length ks = length ns -> (forall n, In n ns -> (1 <= n)%nat) ->
  In k ks -> In k (runs ks ns).
Proof.
  unfold runs. induction ks as [|k' ks IH]; intros [|n ns] HL Hn Hin; simpl in *; try lia; try easy.
  apply in_app_iff. destruct Hin as [<-|Hin].
  - left. assert (1 <= n)%nat by (apply Hn; now left). destruct n; [lia|now left].
  - right. apply IH; auto.
Qed.
Lemma nstarts_length ns : forall p, length (nstarts p ns) = length ns.
Proof. induction ns as [|n ns IH]; intros p; simpl; auto. Qed.
Lemma nstarts_Z ns : forall p, map Z.of_nat (nstarts p ns) = starts (Z.of_nat p) (map Z.of_nat ns).
Proof. induction ns as [|n ns IH]; intros p; simpl; auto. rewrite IH. do 2 f_equal. lia. Qed.
Lemma natsum_Z ns : zsum (map Z.of_nat ns) = Z.of_nat (natsum ns).
Proof. induction ns as [|n ns IH]; simpl; auto. rewrite zsum_cons, IH. lia. Qed.

Lemma pick_shift (l1 l2 : list Z) ns : forall p,
  pick 0 (nstarts (length l1 + p) ns) (l1 ++ l2) = pick 0 (nstarts p ns) l2.
Proof.
  unfold pick. induction ns as [|n ns IH]; intros p; simpl; auto. f_equal.
  - rewrite app_nth2 by lia. f_equal. lia.
  - rewrite <- Nat.add_assoc. apply IH.
Qed.
Lemma pick_nstarts_runs (ks : list Z) : forall ns, length ks = length ns -> (forall n, In n ns -> (1 <= n)%nat) ->
  pick 0 (nstarts 0 ns) (runs ks ns) = ks.
Proof.
  induction ks as [|k ks IH]; intros [|n ns] HL Hn; simpl in *; try lia; auto.
  unfold runs in *. simpl map2. simpl concat. assert (1 <= n)%nat by (apply Hn; now left).
  unfold pick in *. simpl map. f_equal.
  - destruct n; [lia|reflexivity].
  - pose proof (pick_shift (repeat k n) (concat (map2 (@repeat Z) ks ns)) ns 0) as E. unfold pick in E.
    rewrite repeat_length, Nat.add_0_r in E. rewrite E. apply IH; [lia|]. intros; apply Hn; now right.
Qed.

(** every list whose equal elements are adjacent is made of runs of distinct keys *)
Lemma runs_exist (enc : list Z) :
  (forall i j k, (i < j < k)%nat -> (k < length enc)%nat -> nth i enc 0 = nth k enc 0 -> nth i enc 0 = nth j enc 0) ->
  exists ks ns, length ks = length ns /\ NoDup ks /\ (forall n, In n ns -> (1 <= n)%nat) /\ enc = runs ks ns.
Proof.
  induction enc as [|a enc IH]; intros H.
  - exists [], []. repeat split; try constructor; easy.
  - destruct IH as (ks & ns & HL & Hk & Hn & E).
    { intros i j k Hij Hkl He. apply (H (S i) (S j) (S k)); simpl; auto; lia. }
    destruct ks as [|k ks], ns as [|n ns]; simpl in HL; try lia.
    + exists [a], [1%nat]. repeat split; try (repeat constructor; easy).
      * intros n [<-|[]]. lia.
      * subst enc. reflexivity.
    + destruct (Z.eq_dec a k) as [->|Hak].
      * exists (k :: ks), (S n :: ns). repeat split; auto.
        -- intros m [<-|Hm]; [lia|apply Hn; now right].
        -- subst enc. reflexivity.
      * exists (a :: k :: ks), (1%nat :: n :: ns). repeat split; simpl; auto; try lia.
        -- constructor; auto. intros Hin.
           assert (Hin' : In a enc).
           { rewrite E. apply in_runs_rev; auto. }
           apply (In_nth _ _ 0) in Hin'. destruct Hin' as (i & Hi & Ei).
           assert (E0 : nth 0 enc 0 = k).
           { rewrite E. unfold runs. simpl. assert (1 <= n)%nat by (apply Hn; now left). destruct n; [lia|reflexivity]. }
           destruct i as [|i]; [congruence|].
           specialize (H 0%nat 1%nat (S (S i)) ltac:(lia) ltac:(simpl; lia)). simpl in H. specialize (H (eq_sym Ei)).
           congruence.
        -- intros m [<-|[<-|Hm]]; [lia|apply Hn; now left|apply Hn; now right].
        -- rewrite E. reflexivity.
Qed.

(** ** groups on runs *)
Lemma group_add_last k j ls d : ~ In k (map fst d) -> group_add k j (d ++ [(k, ls)]) = d ++ [(k, ls ++ [j])].
Proof.
  induction d as [|[k' ls'] d IH]; intros H; simpl.
  - now rewrite Z.eqb_refl.
  - destruct (Z.eqb_spec k' k) as [->|Hne]; [exfalso; apply H; now left|].
    rewrite IH; auto. intros Hin. apply H. now right.
Qed.
Lemma groups_block_more k n : forall i ls d, ~ In k (map fst d) ->
  fold_left (fun d kj => group_add (fst kj) (snd kj) d) (map2 pair (repeat k n) (seq i n)) (d ++ [(k, ls)])
  = d ++ [(k, ls ++ seq i n)].
Proof.
  induction n as [|n IH]; intros i ls d H; simpl; [now rewrite app_nil_r|].
  rewrite group_add_last by auto. rewrite IH by auto. now rewrite <- app_assoc.
Qed.
Lemma groups_block k n i d : (1 <= n)%nat -> ~ In k (map fst d) ->
  fold_left (fun d kj => group_add (fst kj) (snd kj) d) (map2 pair (repeat k n) (seq i n)) d = d ++ [(k, seq i n)].
Proof.
  intros Hn H. destruct n as [|n]; [lia|]. simpl. rewrite group_add_new by auto.
  apply (groups_block_more k n (S i) [i] d H).
Qed.
Lemma map2_app {A B C} (f : A -> B -> C) a1 : forall b1 a2 b2, length a1 = length b1 ->
  map2 f (a1 ++ a2) (b1 ++ b2) = map2 f a1 b1 ++ map2 f a2 b2.
Proof. induction a1 as [|a a1 IH]; intros [|b b1] a2 b2 H; simpl in *; try lia; auto. now rewrite IH by lia. Qed.
Lemma groups_runs_aux ks : forall ns i d, length ks = length ns -> (forall n, In n ns -> (1 <= n)%nat) ->
  NoDup (map fst d ++ ks) ->
  fold_left (fun d kj => group_add (fst kj) (snd kj) d) (map2 pair (runs ks ns) (seq i (natsum ns))) d
  = d ++ map2 pair ks (blocks i ns).
Proof.
  induction ks as [|k ks IH]; intros [|n ns] i d HL Hn Hd; simpl in HL; try lia.
  - simpl. now rewrite app_nil_r.
  - change (runs (k :: ks) (n :: ns)) with (repeat k n ++ runs ks ns). change (natsum (n :: ns)) with (n + natsum ns)%nat.
    rewrite seq_app, map2_app by now rewrite repeat_length, seq_length.
    rewrite fold_left_app, groups_block.
    + rewrite IH; auto.
      * simpl. now rewrite <- app_assoc.
      * intros; apply Hn; now right.
      * rewrite map_app, <- app_assoc. exact Hd.
    + apply Hn; now left.
    + intros Hin. apply NoDup_remove_2 in Hd. apply Hd. apply in_app_iff. now left.
Qed.
Lemma map2_pair_snd {A B} (x : list A) : forall (y : list B), length x = length y -> map snd (map2 pair x y) = y.
Proof. induction x as [|a x IH]; intros [|b y] H; simpl in *; try lia; auto. now rewrite IH by lia. Qed.
Lemma blocks_length ns : forall p, length (blocks p ns) = length ns.
Proof. induction ns; intros p; simpl; auto. Qed.
Lemma groups_runs ks ns : length ks = length ns -> (forall n, In n ns -> (1 <= n)%nat) -> NoDup ks ->
  groups (runs ks ns) = blocks 0 ns.
Proof.
  intros HL Hn Hk. unfold groups. rewrite runs_length by auto. rewrite groups_runs_aux by auto. simpl.
  apply map2_pair_snd. now rewrite blocks_length.
Qed.

(** ** the kept and the dropped columns *)
Lemma hd_blocks ns : (forall n, In n ns -> (1 <= n)%nat) -> forall p, map (fun ls => hd 0%nat ls) (blocks p ns) = nstarts p ns.
Proof.
  induction ns as [|n ns IH]; intros Hn p; simpl; auto. rewrite IH by (intros; apply Hn; now right). f_equal.
  assert (1 <= n)%nat by (apply Hn; now left). destruct n; [lia|reflexivity].
Qed.
Definition drops (p : nat) (ns : list nat) : list nat := concat (map (@tl nat) (blocks p ns)).
Lemma concat_blocks ns : forall p, concat (blocks p ns) = seq p (natsum ns).
Proof. induction ns as [|n ns IH]; intros p; simpl; auto. now rewrite IH, seq_app. Qed.
Lemma blocks_perm ns : (forall n, In n ns -> (1 <= n)%nat) -> forall p,
  Permutation (nstarts p ns ++ drops p ns) (seq p (natsum ns)).
Proof.
  induction ns as [|n ns IH]; intros Hn p; simpl; auto.
  unfold drops in *. simpl. rewrite seq_app.
  assert (1 <= n)%nat by (apply Hn; now left). destruct n as [|n]; [lia|].
  cbn [seq tl]. simpl. apply perm_skip.
  rewrite <- (IH ltac:(intros; apply Hn; now right) (p + S n)%nat).
  rewrite !app_assoc. apply Permutation_app_tail. apply Permutation_app_comm.
Qed.
Lemma nstarts_sorted ns : (forall n, In n ns -> (1 <= n)%nat) -> forall p,
  StronglySorted lt (nstarts p ns) /\ forall x, In x (nstarts p ns) -> (p <= x)%nat.
Proof.
  induction ns as [|n ns IH]; intros Hn p; simpl; [split; [constructor|easy]|].
  destruct (IH ltac:(intros; apply Hn; now right) (p + n)%nat) as [H1 H2].
  assert (1 <= n)%nat by (apply Hn; now left). split.
  - constructor; auto. apply Forall_forall. intros x Hx. apply H2 in Hx. lia.
  - intros x [<-|Hx]; auto. apply H2 in Hx. lia.
Qed.
Lemma drops_ok ns : (forall n, In n ns -> (1 <= n)%nat) ->
  NoDup (drops 0 ns) /\ (forall j, In j (drops 0 ns) -> (j < natsum ns)%nat)
  /\ (length ns + length (drops 0 ns) = natsum ns)%nat
  /\ delete (drops 0 ns) (seq 0 (natsum ns)) = nstarts 0 ns.
Proof.
  intros Hn. pose proof (blocks_perm ns Hn 0) as HP.
  assert (Hnd : NoDup (nstarts 0 ns ++ drops 0 ns)) by (eapply Permutation_NoDup; [apply Permutation_sym, HP|apply seq_NoDup]).
  assert (Hin : forall j, In j (seq 0 (natsum ns)) <-> In j (nstarts 0 ns) \/ In j (drops 0 ns)).
  { intros j. rewrite <- in_app_iff. split; apply Permutation_in; auto. now apply Permutation_sym. }
  assert (Hdis : forall j, In j (nstarts 0 ns) -> ~ In j (drops 0 ns)).
  { revert Hnd. generalize (nstarts 0 ns) (drops 0 ns). clear. induction l as [|a l IH]; intros d Hnd j Hj Hd; [easy|]. simpl in Hnd.
    inversion Hnd as [|? ? N1 N2]; subst. destruct Hj as [<-|Hj].
    - apply N1, in_app_iff. now right.
    - now apply (IH d N2 j). }
  repeat split.
  - revert Hnd. generalize (nstarts 0 ns) (drops 0 ns). clear. induction l as [|a l IH]; intros d Hnd; auto.
    simpl in Hnd. inversion Hnd; subst; auto.
  - intros j Hj. assert (In j (seq 0 (natsum ns))) as H by (apply Hin; auto). apply in_seq in H. lia.
  - apply Permutation_length in HP. rewrite app_length, seq_length, nstarts_length in HP. exact HP.
  - apply sorted_ext; [apply delete_sorted, seq_sorted_nat|apply nstarts_sorted; auto|].
    intros j. rewrite (in_delete_iff 0%nat), seq_length. split.
    + intros (i & Hi & Hni & E). rewrite nth_seq0 in E by auto. subst i.
      assert (In j (seq 0 (natsum ns))) as H by (apply in_seq; lia). apply Hin in H. tauto.
    + intros Hj. assert (In j (seq 0 (natsum ns))) as H by (apply Hin; auto). apply in_seq in H.
      exists j. rewrite nth_seq0 by lia. repeat split; auto; lia.
Qed.

(** ** values that depend on the key only *)
Lemma factor (enc row : list Z) : length row = length enc ->
  (forall i j, (i < length enc)%nat -> (j < length enc)%nat -> nth i enc 0 = nth j enc 0 -> nth i row 0 = nth j row 0) ->
  exists f, row = map f enc.
Proof.
  intros HL H. exists (fun k => nth (hd 0%nat (where_ (Z.eqb k) enc)) row 0).
  apply nth_ext0; [now rewrite map_length|]. intros i Hi. rewrite (nth_map_in _ _ _ 0) by lia.
  assert (Hin : In i (where_ (Z.eqb (nth i enc 0)) enc)) by (apply (where_spec _ 0); split; [lia|apply Z.eqb_refl]).
  destruct (where_ (Z.eqb (nth i enc 0)) enc) as [|j l] eqn:W; [easy|]. simpl.
  assert (Hj : In j (where_ (Z.eqb (nth i enc 0)) enc)) by (rewrite W; now left).
  apply (where_spec _ 0) in Hj. apply H; lia.
Qed.

Lemma dot_app x1 : forall y1 x2 y2, length x1 = length y1 -> dot (x1 ++ x2) (y1 ++ y2) = dot x1 y1 + dot x2 y2.
Proof. induction x1 as [|a x1 IH]; intros [|b y1] x2 y2 H; simpl in *; try lia. rewrite IH by lia. lia. Qed.
Lemma dot_const a n y : length y = n -> dot (repeat a n) y = a * zsum y.
Proof.
  revert n. induction y as [|c y IH]; intros [|n] H; simpl in *; try lia.
  - unfold zsum. simpl. lia.
  - rewrite zsum_cons, IH by lia. lia.
Qed.
Lemma bucket_sum n c : 0 <= c -> zsum (bucket n c) = c.
Proof. intros H. unfold bucket. rewrite zsum_app, !zsum_repeat. lia. Qed.
Lemma dot_runs_expand ks : forall ns w, length ks = length ns -> length w = length ns ->
  within (map Z.of_nat ns) w -> dot (runs ks ns) (expand (map Z.of_nat ns) w) = dot ks w.
Proof.
  induction ks as [|k ks IH]; intros [|n ns] [|c w] H1 H2 Hw; simpl in H1, H2; try lia; auto.
  pose proof (Hw 0%nat ltac:(simpl; lia)) as H0. simpl in H0.
  unfold runs, expand in *. cbn [map map2 concat].
  rewrite dot_app by (rewrite repeat_length, bucket_length by lia; lia).
  rewrite dot_const by (rewrite bucket_length by lia; lia). rewrite bucket_sum by lia.
  rewrite IH; auto.
  intros i Hi. apply (Hw (S i)). simpl. lia.
Qed.

(** ** ones first *)
Lemma bucket_bits n c : bits (bucket n c).
Proof. intros a Ha. apply in_app_iff in Ha. destruct Ha as [Ha|Ha]; apply repeat_spec in Ha; [right|left]; auto. Qed.
Lemma bucket_desc n c i j : (i <= j)%nat -> nth j (bucket n c) 0 <= nth i (bucket n c) 0.
Proof.
  intros H. unfold bucket.
  assert (G : forall k, nth k (repeat 1 (Z.to_nat c) ++ repeat 0 (Z.to_nat (n - c))) 0 = if (k <? Z.to_nat c)%nat then 1 else 0).
  { intros k. destruct (Nat.ltb_spec k (Z.to_nat c)) as [L|L].
    - rewrite app_nth1 by now rewrite repeat_length. now apply nth_repeat_lt.
    - rewrite app_nth2 by now rewrite repeat_length. rewrite repeat_length. apply nth_repeat. }
  rewrite !G. destruct (Nat.ltb_spec j (Z.to_nat c)), (Nat.ltb_spec i (Z.to_nat c)); lia.
Qed.
Lemma desc_bucket x : bits x -> (forall i j, (i < j < length x)%nat -> nth j x 0 <= nth i x 0) ->
  x = bucket (Z.of_nat (length x)) (zsum x) /\ 0 <= zsum x <= Z.of_nat (length x).
Proof.
  induction x as [|a x IH]; intros Hb Hd.
  - split; [reflexivity|unfold zsum; simpl; lia].
  - destruct IH as [E Hr].
    { intros z Hz. apply Hb. now right. }
    { intros i j Hij. apply (Hd (S i) (S j)). simpl. lia. }
    rewrite zsum_cons. cbn [length].
    assert (Ha : bit a) by (apply Hb; now left). destruct Ha as [->| ->].
    + assert (Hz : zsum x = 0).
      { assert (Hx0 : forall z, In z x -> z = 0).
        { intros z Hz. apply (In_nth _ _ 0) in Hz. destruct Hz as (i & Hi & <-).
          pose proof (Hd 0%nat (S i) ltac:(simpl; lia)) as H. simpl in H.
          assert (bit (nth i x 0)) as [?|?] by (apply Hb; right; now apply nth_In); lia. }
        clear - Hx0. induction x as [|z x IH]; auto. rewrite zsum_cons, IH by (intros; apply Hx0; now right).
        rewrite (Hx0 z) by now left. reflexivity. }
      rewrite Hz in *. split; [|lia]. change (0 + 0) with 0.
      assert (G : forall n, bucket (Z.of_nat n) 0 = repeat 0 n) by (intros n; unfold bucket; simpl; f_equal; lia).
      rewrite G in *. simpl. now rewrite <- E.
    + split; [|lia]. rewrite E at 1. unfold bucket.
      replace (Z.to_nat (1 + zsum x)) with (S (Z.to_nat (zsum x))) by lia.
      replace (Z.of_nat (S (length x)) - (1 + zsum x)) with (Z.of_nat (length x) - zsum x) by lia. reflexivity.
Qed.

Lemma expand_exists (ks : list Z) : forall ns x, length ks = length ns -> length x = natsum ns -> bits x ->
  (forall i j, (i < j < natsum ns)%nat -> nth i (runs ks ns) 0 = nth j (runs ks ns) 0 -> nth j x 0 <= nth i x 0) ->
  exists w, length w = length ns /\ within (map Z.of_nat ns) w /\ x = expand (map Z.of_nat ns) w.
Proof.
  induction ks as [|k ks IH]; intros [|n ns] x HL Hx Hb Hd; simpl in HL; try lia.
  - exists []. split; auto. split; [intros i Hi; simpl in Hi; lia|]. destruct x; [reflexivity|simpl in Hx; lia].
  - change (natsum (n :: ns)) with (n + natsum ns)%nat in *.
    change (runs (k :: ks) (n :: ns)) with (repeat k n ++ runs ks ns) in Hd.
    assert (L1 : length (firstn n x) = n) by (rewrite firstn_length; lia).
    assert (Ex : x = firstn n x ++ skipn n x) by now rewrite firstn_skipn.
    assert (N1 : forall i, (i < n)%nat -> nth i (firstn n x) 0 = nth i x 0).
    { intros i Hi. rewrite Ex at 2. rewrite app_nth1 by lia. reflexivity. }
    destruct (desc_bucket (firstn n x)) as [E1 R1].
    { intros a Ha. apply Hb. rewrite Ex. apply in_app_iff. now left. }
    { rewrite L1. intros i j Hij. rewrite !N1 by lia. apply Hd; [lia|].
      rewrite !app_nth1 by (rewrite repeat_length; lia). now rewrite !nth_repeat_lt by lia. }
    destruct (IH ns (skipn n x)) as (w & W1 & W2 & W3); auto.
    { rewrite skipn_length. lia. }
    { intros a Ha. apply Hb. rewrite Ex. apply in_app_iff. now right. }
    { intros i j Hij He. rewrite !nth_skipn. apply Hd; [lia|].
      rewrite !app_nth2 by (rewrite repeat_length; lia). rewrite !repeat_length.
      replace (n + i - n)%nat with i by lia. replace (n + j - n)%nat with j by lia. exact He. }
    rewrite L1 in *. exists (zsum (firstn n x) :: w). split; [simpl; lia|]. split.
    + intros [|i] Hi; simpl in *; [exact R1|]. apply W2. lia.
    + unfold expand in *. cbn [map map2 concat]. rewrite <- W3, <- E1. exact Ex.
Qed.
Lemma expand_bits s : forall w, bits (expand s w).
Proof.
  unfold expand. induction s as [|n s IH]; intros [|c w] a Ha; simpl in Ha; try easy.
  apply in_app_iff in Ha. destruct Ha as [Ha|Ha]; [eapply bucket_bits; eauto|eapply IH; eauto].
Qed.
Lemma expand_desc (ks : list Z) : forall ns w, length ks = length ns -> length w = length ns -> NoDup ks ->
  within (map Z.of_nat ns) w ->
  forall i j, (i < j < natsum ns)%nat -> nth i (runs ks ns) 0 = nth j (runs ks ns) 0 ->
    nth j (expand (map Z.of_nat ns) w) 0 <= nth i (expand (map Z.of_nat ns) w) 0.
Proof.
  induction ks as [|k ks IH]; intros [|n ns] [|c w] HL HW Hk Hw i j Hij He; simpl in HL, HW; try lia; [simpl in Hij; lia|].
  change (natsum (n :: ns)) with (n + natsum ns)%nat in *.
  change (runs (k :: ks) (n :: ns)) with (repeat k n ++ runs ks ns) in He.
  change (expand (map Z.of_nat (n :: ns)) (c :: w)) with (bucket (Z.of_nat n) c ++ expand (map Z.of_nat ns) w).
  pose proof (Hw 0%nat ltac:(simpl; lia)) as H0. simpl in H0.
  assert (LB : length (bucket (Z.of_nat n) c) = n) by (rewrite bucket_length by lia; lia).
  inversion Hk as [|? ? K1 K2]; subst.
  destruct (Nat.lt_ge_cases i n) as [Li|Li], (Nat.lt_ge_cases j n) as [Lj|Lj]; try lia.
  - rewrite !app_nth1 by lia. apply bucket_desc. lia.
  - exfalso. rewrite app_nth1, nth_repeat_lt in He by (rewrite ?repeat_length; lia).
    rewrite app_nth2, repeat_length in He by (rewrite repeat_length; lia).
    apply K1. rewrite He. apply in_runs with (ns := ns). apply nth_In. rewrite runs_length by lia. lia.
  - rewrite !app_nth2 in He by (rewrite repeat_length; lia). rewrite !repeat_length in He.
    rewrite !app_nth2 by lia. rewrite LB. apply (IH ns w); auto; try lia.
    intros m Hm. apply (Hw (S m)). simpl. lia.
Qed.

(** ** Fresh questions *)
Record fresh (C : nat) (Q : question) : Prop := {
  f_cols : qcols Q = C;
  f_rows : forall row, In row (mrows (qA Q)) -> length row = C /\ bits row;
  f_blen : length (qb Q) = mnrows (qA Q);
  f_b : forall x, In x (qb Q) -> 0 <= x <= 127;
  f_quota : 0 <= qquota Q <= 127;
  f_ones : In (repeat 1 C, qquota Q) (qsys Q);
  f_bounds : qbounds Q = repeat 1 C;
  f_ans : qans Q = Ans (repeat UNKNOWN C) (map Z.of_nat (seq 0 C)) (Z.of_nat C);
  (* row keys: 63 columns, or two of 64 are equal *)
  f_C : (C <= 64)%nat /\ (C = 64%nat -> exists i j, (i < j < C)%nat /\ forall row, In row (mrows (qA Q)) -> nth i row 0 = nth j row 0);
  (* column keys: 64 rows, or two columns that agree in the first of 65 rows *)
  f_R : (2 <= C)%nat -> (mnrows (qA Q) <= 64)%nat
          \/ C = 2%nat /\ mnrows (qA Q) = 65%nat /\ nth 0 (hd [] (mrows (qA Q))) 0 = nth 1 (hd [] (mrows (qA Q))) 0 }.

Lemma natsum_ones n : natsum (repeat 1%nat n) = n.
Proof. induction n as [|n IH]; simpl; auto. Qed.
Lemma nstarts_ones n : forall p, nstarts p (repeat 1%nat n) = seq p n.
Proof. induction n as [|n IH]; intros p; simpl; auto. rewrite Nat.add_1_r, IH. reflexivity. Qed.
Lemma all_ones ns : (forall n, In n ns -> (1 <= n)%nat) -> natsum ns = length ns -> ns = repeat 1%nat (length ns).
Proof.
  induction ns as [|n ns IH]; intros Hn H; simpl; auto.
  assert (1 <= n)%nat by (apply Hn; now left).
  assert (length ns <= natsum ns)%nat.
  { clear - Hn. assert (Hn' : forall m, In m ns -> (1 <= m)%nat) by (intros; apply Hn; now right). clear Hn.
    induction ns as [|m ns IH]; simpl; auto. assert (1 <= m)%nat by (apply Hn'; now left).
    specialize (IH ltac:(intros; apply Hn'; now right)). lia. }
  simpl in H. rewrite <- IH; [f_equal; lia| |lia]. intros; apply Hn; now right.
Qed.

Lemma where_repeat_all n : where_ is_unknown (repeat UNKNOWN n) = seq 0 n.
Proof.
  unfold where_. generalize 0%nat as i. induction n as [|n IH]; intros i; simpl; auto. now rewrite IH.
Qed.

(** the grouped question *)
Definition grouped (ns : list nat) (Q : question) : question :=
  Qst (Mat (length ns) (map (pick 0 (nstarts 0 ns)) (mrows (qA Q)))) (qb Q) (qquota Q) (map Z.of_nat ns)
      (Ans (repeat UNKNOWN (length ns)) (starts 0 (map Z.of_nat ns)) (zsum (map Z.of_nat ns))).

Section fresh.
  Variables (C : nat) (Q : question).
  Hypothesis HF : fresh C Q.
  Hypothesis Hadj : equal_columns_adjacent C (mrows (qA Q)).

  Let enc := map (fun j => pack (column j (mrows (qA Q)))) (seq 0 C).
  Lemma enc_length : length enc = C.
  Proof. unfold enc. now rewrite map_length, seq_length. Qed.
  Lemma enc_nth i : (i < C)%nat -> nth i enc 0 = pack (column i (mrows (qA Q))).
  Proof. intros Hi. unfold enc. rewrite (nth_map_in _ _ _ 0%nat) by now rewrite seq_length. now rewrite nth_seq0. Qed.
  Lemma enc_columns i j : (2 <= C)%nat -> (i < C)%nat -> (j < C)%nat ->
    (nth i enc 0 = nth j enc 0 <-> forall row, In row (mrows (qA Q)) -> nth i row 0 = nth j row 0).
  Proof.
    intros HC Hi Hj. rewrite !enc_nth by auto. split.
    - intros E. apply column_eq.
      assert (CB : forall j, bits (column j (mrows (qA Q)))).
      { intros j'. apply column_bits. intros r Hr. now apply (f_rows _ _ HF). }
      assert (CL : forall j, length (column j (mrows (qA Q))) = mnrows (qA Q)) by (intros j'; apply column_length).
      destruct (f_R _ _ HF HC) as [H|(H2 & H65 & H1)].
      + apply pack_inj64; auto; rewrite !CL; auto.
      + destruct (Nat.eq_dec i j) as [->|Hne]; auto.
        assert (Hij : nth i (hd [] (mrows (qA Q))) 0 = nth j (hd [] (mrows (qA Q))) 0).
        { clear - H1 H2 Hi Hj Hne. assert ((i = 0 /\ j = 1) \/ (i = 1 /\ j = 0))%nat as [[-> ->]|[-> ->]] by lia; auto. }
        clear - E CB CL H65 Hij. specialize (CB i) as CBi. specialize (CB j) as CBj. specialize (CL i) as CLi. specialize (CL j) as CLj.
        rewrite H65 in *. destruct (mrows (qA Q)) as [|r0 rs]; [discriminate|]. unfold column in *. cbn [map hd] in *.
        rewrite Hij in *. f_equal. apply bits_cons in CBi, CBj. simpl in CLi, CLj.
        apply (pack_inj65 (nth j r0 0)); auto; try tauto; lia.
    - intros E. f_equal. unfold column. apply map_ext_in. auto.
  Qed.

  Lemma fresh_shell : shell (repeat 1 C) Q.
  Proof.
    constructor; rewrite ?(f_cols _ _ HF).
    - apply (f_rows _ _ HF).
    - apply (f_blen _ _ HF).
    - apply (f_b _ _ HF).
    - rewrite (f_bounds _ _ HF). apply repeat_length.
    - rewrite (f_bounds _ _ HF). intros x Hx. apply repeat_spec in Hx. lia.
    - apply (f_quota _ _ HF).
    - rewrite (f_ans _ _ HF). unfold rooms. simpl. repeat split.
      + assert (E : repeat 1 C = map Z.of_nat (repeat 1%nat C)) by (clear; induction C; simpl; congruence).
        rewrite E, <- (nstarts_Z _ 0), nstarts_ones. reflexivity.
      + rewrite zsum_repeat. lia.
      + now rewrite !repeat_length.
      + intros x Hx. apply repeat_spec in Hx. lia.
    - rewrite (f_ans _ _ HF). unfold unknown_loc. simpl. rewrite where_repeat_all. apply seq_length.
  Qed.

  Lemma fresh_base : (C <= 63)%nat -> base (repeat 1 C) Q.
  Proof.
    intros H63. constructor; [apply fresh_shell|..]; rewrite ?(f_cols _ _ HF); auto.
    - apply cone_in; [|apply (f_ones _ _ HF)]. intros row b Hin. apply in_combine_l in Hin. now apply (f_rows _ _ HF).
    - rewrite (f_ans _ _ HF). simpl. intros x Hx. apply repeat_spec in Hx. auto.
    - intros H3. destruct (f_R _ _ HF ltac:(lia)) as [?|[? _]]; [auto|lia].
  Qed.

  (** what the sizes of the groups must satisfy *)
  Definition sizes_ok (ns : list nat) : Prop :=
    natsum ns = C /\ (forall n, In n ns -> (1 <= n)%nat)
    /\ exists ks, length ks = length ns /\ NoDup ks
       /\ (forall i j, (i < C)%nat -> (j < C)%nat ->
             (nth i (runs ks ns) 0 = nth j (runs ks ns) 0 <-> forall row, In row (mrows (qA Q)) -> nth i row 0 = nth j row 0)).

  Lemma sizes_exist : exists ns, sizes_ok ns /\ reduce_col_body Q = Ok (grouped ns Q)
    /\ (grouped ns Q = Q \/ (length ns < C)%nat).
  Proof.
    assert (Heq : forall ns, sizes_ok ns -> length ns = C -> grouped ns Q = Q).
    { intros ns (H1 & H2 & _) HL. assert (E : ns = repeat 1%nat C) by (rewrite <- HL; apply all_ones; auto; lia).
      unfold grouped. rewrite HL, E, nstarts_ones.
      assert (E1 : map Z.of_nat (repeat 1%nat C) = repeat 1 C) by (clear; induction C; simpl; congruence).
      assert (E2 : map (pick 0 (seq 0 C)) (mrows (qA Q)) = mrows (qA Q)).
      { rewrite <- (map_id (mrows (qA Q))) at 2. apply map_ext_in. intros row Hr.
        destruct (f_rows _ _ HF _ Hr) as [L _]. rewrite <- L. apply map_nth_seq. }
      rewrite E1, E2. pose proof (f_ans _ _ HF) as Ea. pose proof (f_bounds _ _ HF) as Eb. pose proof (f_cols _ _ HF) as Ec.
      unfold qcols in Ec. destruct Q as [[c r] b q bd a]. simpl in *. subst c bd a. f_equal. f_equal.
      - assert (E3 : repeat 1 C = map Z.of_nat (repeat 1%nat C)) by (clear; induction C; simpl; congruence).
        rewrite E3, <- (nstarts_Z _ 0), nstarts_ones. reflexivity.
      - rewrite zsum_repeat. lia. }
    destruct (Nat.lt_ge_cases C 2) as [HC|HC].
    - (* at most one column *)
      assert (Hs : sizes_ok (repeat 1%nat C)).
      { split; [apply natsum_ones|]. split; [intros n Hn; apply repeat_spec in Hn; lia|].
        exists (repeat 0 C). split; [now rewrite !repeat_length|]. split.
        - destruct C as [|[|?]]; simpl; repeat constructor; try lia; easy.
        - intros i j Hi Hj. assert (i = j) as -> by lia. split; auto. }
      exists (repeat 1%nat C). split; auto.
      assert (E : grouped (repeat 1%nat C) Q = Q) by (apply Heq; auto; apply repeat_length).
      split; auto. rewrite E. unfold reduce_col_body. fold (qcols Q). rewrite (f_cols _ _ HF).
      destruct (Nat.ltb_spec C 2); [reflexivity|lia].
    - destruct (runs_exist enc) as (ks & ns & HL & Hk & Hn & E).
      { rewrite enc_length. intros i j k Hij Hk He. rewrite enc_columns in He by lia. apply enc_columns; try lia.
        apply (Hadj i j k); auto. }
      assert (Hsum : natsum ns = C) by (rewrite <- enc_length, E, runs_length; auto).
      assert (Hs : sizes_ok ns).
      { split; auto. split; auto. exists ks. conj; auto. intros i j Hi Hj. rewrite <- E. apply enc_columns; auto. }
      exists ns. split; auto.
      destruct (drops_ok ns Hn) as (D1 & D2 & D3 & D4).
      split; [|destruct (Nat.eq_dec (length ns) C); [left; auto|right; lia]].
      assert (HLs : length (map Z.of_nat ns) = length ns) by apply map_length.
      assert (Hsb : forall x, In x (map Z.of_nat ns) -> 1 <= x <= 64).
      { intros x Hx. apply in_map_iff in Hx. destruct Hx as (n & <- & Hin).
        pose proof (Hn _ Hin). pose proof (proj1 (f_C _ _ HF)).
        assert (n <= natsum ns)%nat; [|lia]. clear - Hin. induction ns as [|m ns IH]; [easy|]. simpl.
        destruct Hin as [->|Hin]; [lia|]. specialize (IH Hin). lia. }
      unfold reduce_col_body. fold (qcols Q). rewrite (f_cols _ _ HF).
      destruct (Nat.ltb_spec C 2); [lia|]. unfold unique_encode. fold (qcols Q). rewrite (f_cols _ _ HF). fold enc.
      destruct (Nat.eqb_spec (mnrows (qA Q)) 0) as [E0|_].
      { pose proof (f_ones _ _ HF) as Ho. apply in_combine_l in Ho. unfold mnrows in E0.
        destruct (mrows (qA Q)); [easy|discriminate]. }
      cbn [bind]. rewrite E, groups_runs by auto.
      rewrite (f_bounds _ _ HF), repeat_length, Nat.ltb_irrefl. cbv zeta.
      rewrite (hd_blocks ns Hn 0). fold (drops 0 ns).
      assert (Eb : map (fun ls => zsum (pick 0 ls (repeat 1 C))) (blocks 0 ns) = map Z.of_nat ns).
      { assert (G : forall ns p, (p + natsum ns <= C)%nat -> map (fun ls => zsum (pick 0 ls (repeat 1 C))) (blocks p ns) = map Z.of_nat ns).
        { clear. induction ns as [|n ns IH]; intros p Hp; simpl; auto. simpl in Hp. rewrite IH by lia. f_equal.
          clear IH. assert (G : forall n p, (p + n <= C)%nat -> pick 0 (seq p n) (repeat 1 C) = repeat 1 n).
          { clear. induction n as [|n IH]; intros p Hp; simpl; auto. unfold pick in *. simpl. rewrite IH by lia.
            rewrite nth_repeat_lt by lia. reflexivity. }
          rewrite G by lia. rewrite zsum_repeat. lia. }
        apply G. lia. }
      rewrite Eb. rewrite (f_ans _ _ HF). unfold unknown_loc. cbn [av aloc alen]. rewrite where_repeat_all, seq_length.
      assert (Ex : existsb (fun j => (C <=? j)%nat) (drops 0 ns) = false).
      { apply existsb_none. intros j Hj. specialize (D2 j Hj). lia. }
      rewrite Ex.
      assert (Ed : pick 0%nat (drops 0 ns) (seq 0 C) = drops 0 ns).
      { rewrite <- (map_id (drops 0 ns)) at 2. apply map_ext_in. intros j Hj. specialize (D2 j Hj). apply nth_seq0. lia. }
      rewrite Ed.
      assert (E1 : delete (drops 0 ns) (repeat UNKNOWN C) = repeat UNKNOWN (length ns)).
      { assert (G : forall (l : list Z), (forall x, In x l -> x = UNKNOWN) -> l = repeat UNKNOWN (length l)).
        { clear. induction l as [|a l IH]; intros H; simpl; auto. rewrite <- IH by (intros; apply H; now right).
          rewrite (H a) by now left. reflexivity. }
        rewrite (G (delete (drops 0 ns) (repeat UNKNOWN C))).
        - rewrite delete_length; auto; rewrite repeat_length; [f_equal; lia|]. intros j Hj. specialize (D2 j Hj). lia.
        - intros x Hx. apply in_delete in Hx. now apply repeat_spec in Hx. }
      assert (E2 : delete (drops 0 ns) (map Z.of_nat (seq 0 C)) = starts 0 (map Z.of_nat ns)).
      { rewrite <- map_delete, <- Hsum, D4. apply (nstarts_Z ns 0). }
      rewrite E1, E2. rewrite map_i8_id by (intros x Hx; apply Hsb in Hx; lia).
      rewrite nonneg_true by (intros x Hx; apply Hsb in Hx; lia). cbn [assert_ bind].
      assert (Es : Z.of_nat C = zsum (map Z.of_nat ns)) by (rewrite natsum_Z; lia).
      rewrite Es, mk_answer_rooms by (rewrite ?repeat_length; auto; intros x Hx; apply Hsb in Hx; lia). cbn [bind].
      unfold answer_fits, unknown_loc. cbn [av mcols]. rewrite where_repeat_all, seq_length, nstarts_length, Nat.eqb_refl.
      reflexivity.
  Qed.

  Section sizes.
    Variable ns : list nat.
    Hypothesis Hns : sizes_ok ns.
    Let s := map Z.of_nat ns.
    Let Q1 := grouped ns Q.

    Lemma sizes_rows row : In row (mrows (qA Q)) -> exists ks, length ks = length ns /\ row = runs ks ns
      /\ pick 0 (nstarts 0 ns) row = ks.
    Proof.
      intros Hr. destruct Hns as (H1 & H2 & ks & K1 & K2 & K3).
      destruct (f_rows _ _ HF _ Hr) as [L _].
      destruct (factor (runs ks ns) row) as (f & Ef).
      { rewrite runs_length by auto. lia. }
      { rewrite runs_length, H1 by auto. intros i j Hi Hj E. exact (proj1 (K3 i j Hi Hj) E row Hr). }
      exists (map f ks). rewrite map_length. split; auto. rewrite runs_map in Ef. split; auto.
      rewrite Ef. apply pick_nstarts_runs; [rewrite map_length|]; auto.
    Qed.
    Lemma sizes_le : (length ns <= C)%nat.
    Proof. destruct Hns as (H1 & H2 & _). destruct (drops_ok ns H2) as (_ & _ & D3 & _). lia. Qed.
    Lemma sizes_63 : (length ns <= 63)%nat.
    Proof.
      pose proof sizes_le as HL. destruct (f_C _ _ HF) as [HC H64]. destruct (Nat.eq_dec (length ns) 64) as [E|]; [|lia].
      assert (EC : C = 64%nat) by lia. destruct (H64 EC) as (i & j & Hij & H). destruct Hns as (H1 & H2 & ks & K1 & K2 & K3).
      exfalso. assert (E1 : ns = repeat 1%nat (length ns)) by (apply all_ones; auto; lia).
      apply (proj2 (K3 i j ltac:(lia) ltac:(lia))) in H. rewrite E1 in H.
      assert (R1 : forall l : list Z, runs l (repeat 1%nat (length l)) = l).
      { clear. unfold runs. induction l as [|a l IH]; simpl; auto. simpl in IH. now rewrite IH. }
      rewrite <- K1, R1 in H. assert (i = j); [|lia]. apply (NoDup_nth ks 0); auto; lia.
    Qed.
    Lemma s_range x : In x s -> 1 <= x <= 64.
    Proof.
      intros Hx. apply in_map_iff in Hx. destruct Hx as (n & <- & Hin). destruct Hns as (H1 & H2 & _).
      pose proof (H2 _ Hin). pose proof (proj1 (f_C _ _ HF)).
      assert (n <= natsum ns)%nat; [|lia]. clear - Hin. induction ns as [|m l IH]; [easy|]. simpl.
      destruct Hin as [->|Hin]; [lia|]. specialize (IH Hin). lia.
    Qed.

    Lemma qsys1_in row x : In (row, x) (qsys Q) -> In (pick 0 (nstarts 0 ns) row, x) (qsys Q1).
    Proof.
      intros Hin. unfold qsys, msys. simpl. rewrite combine_map2_l. apply in_map_iff. exists (row, x). auto.
    Qed.
    Lemma qsys1_from r x : In (r, x) (qsys Q1) -> exists row, In (row, x) (qsys Q) /\ r = pick 0 (nstarts 0 ns) row.
    Proof.
      unfold qsys, msys. simpl. rewrite combine_map2_l. intros Hin. apply in_map_iff in Hin.
      destruct Hin as ([row y] & E & Hin). injection E as <- <-. eauto.
    Qed.
    Lemma qsys_row row x : In (row, x) (qsys Q) -> In row (mrows (qA Q)).
    Proof. intros H. now apply in_combine_l in H. Qed.

    Lemma pick_ones : pick 0 (nstarts 0 ns) (repeat 1 C) = repeat 1 (length ns).
    Proof.
      destruct Hns as (H1 & H2 & _).
      assert (E : repeat 1 C = runs (repeat 1 (length ns)) ns).
      { rewrite <- H1. clear. unfold runs. induction ns as [|n l IH]; simpl; auto. now rewrite <- IH, repeat_app. }
      rewrite E. apply pick_nstarts_runs; auto. apply repeat_length.
    Qed.

    Lemma grouped_base : base s Q1.
    Proof.
      pose proof sizes_63. pose proof sizes_le as Hle.
      assert (HC1 : qcols Q1 = length ns) by reflexivity.
      constructor; [constructor|..]; rewrite ?HC1.
      - simpl. intros row Hin. apply in_map_iff in Hin. destruct Hin as (r & <- & Hr). split.
        + rewrite pick_length. apply nstarts_length.
        + apply pick_bits. now apply (f_rows _ _ HF).
      - unfold mnrows. simpl. rewrite map_length. apply (f_blen _ _ HF).
      - apply (f_b _ _ HF).
      - simpl. apply map_length.
      - simpl. intros x Hx. apply s_range in Hx. lia.
      - apply (f_quota _ _ HF).
      - unfold rooms. simpl. repeat split; auto.
        + unfold s. now rewrite repeat_length, map_length.
        + intros x Hx. apply s_range in Hx. lia.
      - unfold unknown_loc. simpl. rewrite where_repeat_all. apply seq_length.
      - apply cone_in.
        + intros row b Hin. destruct (qsys1_from _ _ Hin) as (r & _ & ->). rewrite pick_length. apply nstarts_length.
        + pose proof (f_ones _ _ HF) as Ho. apply qsys1_in in Ho. rewrite pick_ones in Ho. exact Ho.
      - simpl. intros x Hx. apply repeat_spec in Hx. auto.
      - lia.
      - intros HC2. unfold mnrows. simpl. rewrite map_length. destruct (f_R _ _ HF ltac:(lia)) as [H'|[H' _]]; [exact H'|lia].
    Qed.

    Lemma grouped_distinct : distinct Q1.
    Proof.
      intros i j Hij. change (qcols Q1) with (length ns) in Hij.
      destruct Hns as (H1 & H2 & ks & K1 & K2 & K3).
      set (a := nth i (nstarts 0 ns) 0%nat). set (b := nth j (nstarts 0 ns) 0%nat).
      pose proof (blocks_perm ns H2 0) as HP.
      assert (Hin : forall m, (m < length ns)%nat -> (nth m (nstarts 0 ns) 0 < C)%nat).
      { intros m Hm. assert (In (nth m (nstarts 0 ns) 0%nat) (seq 0 (natsum ns))) as Hs.
        { eapply Permutation_in; [exact HP|]. apply in_app_iff. left. apply nth_In. now rewrite nstarts_length. }
        apply in_seq in Hs. lia. }
      assert (Hne : nth a (runs ks ns) 0 <> nth b (runs ks ns) 0).
      { pose proof (pick_nstarts_runs ks ns K1 H2) as Ep.
        assert (Ea : nth a (runs ks ns) 0 = nth i ks 0) by (rewrite <- Ep at 2; rewrite nth_pick by (rewrite nstarts_length; lia); reflexivity).
        assert (Eb : nth b (runs ks ns) 0 = nth j ks 0) by (rewrite <- Ep at 2; rewrite nth_pick by (rewrite nstarts_length; lia); reflexivity).
        rewrite Ea, Eb. intros E. assert (i = j); [|lia]. apply (NoDup_nth ks 0); auto; lia. }
      destruct (existsb (fun row => negb (nth a row 0 =? nth b row 0)) (mrows (qA Q))) eqn:Ex.
      - apply existsb_exists in Ex. destruct Ex as (row & Hr & Hd). exists (pick 0 (nstarts 0 ns) row). split.
        + simpl. now apply in_map.
        + rewrite !nth_pick by (rewrite nstarts_length; lia). fold a b. lia.
      - exfalso. rewrite existsb_none in Ex. apply Hne. apply K3; try (apply Hin; lia).
        intros row Hr. specialize (Ex row Hr). lia.
    Qed.

    Lemma grouped_mu : 1 <= prodb (qbounds Q1) <= prodb (qbounds Q).
    Proof.
      split.
      - apply prodb_pos. intros x Hx. simpl in Hx. apply s_range in Hx. lia.
      - rewrite (f_bounds _ _ HF). destruct Hns as (H1 & H2 & _). rewrite <- H1. simpl. clear - H2.
        assert (P : forall n, prodb (repeat 1 n) = 3 ^ Z.of_nat n).
        { induction n as [|n IH]; [reflexivity|]. rewrite Nat2Z.inj_succ, Z.pow_succ_r by lia. rewrite <- IH. reflexivity. }
        rewrite P. induction ns as [|n l IH]; [simpl; lia|].
        assert (1 <= n)%nat by (apply H2; now left). specialize (IH ltac:(intros; apply H2; now right)).
        change (prodb (map Z.of_nat (n :: l))) with ((Z.of_nat n + 2) * prodb (map Z.of_nat l)).
        change (natsum (n :: l)) with (n + natsum l)%nat. rewrite Nat2Z.inj_add, Z.pow_add_r by lia.
        assert (Hn : Z.of_nat n + 2 <= 3 ^ Z.of_nat n).
        { clear - H. induction n as [|n IHn]; [lia|]. destruct n as [|n]; [simpl; lia|].
          specialize (IHn ltac:(lia)). rewrite Nat2Z.inj_succ, Z.pow_succ_r by lia. lia. }
        assert (1 <= prodb (map Z.of_nat l)).
        { apply prodb_pos. intros x Hx. apply in_map_iff in Hx. destruct Hx as (m & <- & _). lia. }
        nia.
    Qed.

    (** what the bucket vectors of the grouped question mean *)
    Lemma grouped_unknowns w : length w = length ns -> unknowns Q1 w = w.
    Proof.
      intros HL. unfold unknowns, unknown_loc. simpl. rewrite where_repeat_all, <- HL. apply map_nth_seq.
    Qed.
    Lemma grouped_extends w : extends (av (qans Q1)) w <-> length w = length ns.
    Proof.
      unfold extends. simpl. rewrite repeat_length. split; [tauto|]. intros HL. split; auto.
      intros i Hi. left. now apply nth_repeat_lt.
    Qed.
    Lemma dot_grouped row w : In row (mrows (qA Q)) -> length w = length ns -> within s w ->
      dot (pick 0 (nstarts 0 ns) row) w = dot row (expand s w).
    Proof.
      intros Hr HL Hw. destruct (sizes_rows row Hr) as (ks & K1 & E1 & E2). rewrite E2, E1.
      symmetry. now apply dot_runs_expand.
    Qed.
    Lemma expand_len w : length w = length ns -> within s w -> length (expand s w) = C.
    Proof.
      intros HL Hw. rewrite expand_length; [|unfold s; now rewrite map_length|exact Hw].
      unfold s. rewrite natsum_Z. destruct Hns as (H1 & _). lia.
    Qed.
    Lemma grouped_sol w : length w = length ns -> within s w -> holds (qsys Q) (expand s w) -> solw s Q1 w.
    Proof.
      intros HL Hw Hs. constructor.
      - now apply grouped_extends.
      - exact Hw.
      - rewrite grouped_unknowns by auto. intros r x Hin. destruct (qsys1_from _ _ Hin) as (row & Hin' & ->).
        rewrite dot_grouped; auto. eapply qsys_row; eauto.
      - rewrite grouped_unknowns by auto. pose proof (f_ones _ _ HF) as Ho. specialize (Hs _ _ Ho).
        rewrite <- dot_grouped in Hs; auto; [|eapply qsys_row; eauto]. rewrite pick_ones, dot_ones in Hs by auto. exact Hs.
      - rewrite grouped_unknowns by auto. intros j Hj. apply Hw. unfold s. rewrite map_length. exact Hj.
    Qed.
    Lemma grouped_sol_inv w : solw s Q1 w -> length w = length ns /\ within s w /\ holds (qsys Q) (expand s w).
    Proof.
      intros Hw. pose proof (proj1 (grouped_extends w) (sw_ext _ _ _ Hw)) as HL.
      assert (Hwi : within s w) by exact (sw_room _ _ _ Hw). conj; auto.
      intros row x Hin. rewrite <- dot_grouped; auto; [|eapply qsys_row; eauto].
      pose proof (sw_sys _ _ _ Hw) as H. rewrite grouped_unknowns in H by auto. apply H. now apply qsys1_in.
    Qed.
    Lemma grouped_weak w : weakw Q1 w -> within s w -> length w = length ns /\ below (qsys Q) (expand s w).
    Proof.
      intros Hw Hwi. pose proof (proj1 (grouped_extends w) (ww_ext _ _ Hw)) as HL. split; auto.
      intros row x Hin. rewrite <- dot_grouped; auto; [|eapply qsys_row; eauto].
      pose proof (ww_sys _ _ Hw) as H. rewrite grouped_unknowns in H by auto. apply H. now apply qsys1_in.
    Qed.
    Lemma grouped_ones_first w : length w = length ns -> within s w -> ones_first (mrows (qA Q)) (expand s w).
    Proof.
      intros HL Hw j j' Hj He. destruct Hns as (H1 & H2 & ks & K1 & K2 & K3).
      rewrite expand_len in Hj by auto. apply (expand_desc ks ns w); auto; [lia|]. apply K3; auto; lia.
    Qed.
    Lemma grouped_exists x : length x = C -> bits x -> ones_first (mrows (qA Q)) x ->
      exists w, length w = length ns /\ within s w /\ x = expand s w.
    Proof.
      intros HL Hb Ho. destruct Hns as (H1 & H2 & ks & K1 & K2 & K3).
      apply (expand_exists ks ns x); auto; [lia|]. intros i j Hij He. apply Ho; [lia|]. apply K3; auto; lia.
    Qed.
  End sizes.

  Lemma fresh_cand_at ns : sizes_ok ns -> reduce_col_body Q = Ok (grouped ns Q) ->
    (grouped ns Q = Q \/ (length ns < C)%nat) -> cand (map Z.of_nat ns) (grouped ns Q) Q.
  Proof.
    intros Hns ER Hcase.
    pose proof (grouped_base ns Hns) as HB1. pose proof (grouped_distinct ns Hns) as HD1.
    split; auto. split; [now apply grouped_mu|].
    assert (HR : reduce_col Q = post_check (grouped ns Q)) by (unfold reduce_col; rewrite ER; reflexivity).
    destruct (post_check_spec _ _ HB1) as [(P & _)|(P & F)].
    - rewrite P in HR. apply (refine_spec (repeat 1 C) (map Z.of_nat ns) Q (grouped ns Q)); auto using fresh_shell.
      destruct Hcase as [?|H]; auto. right. rewrite (f_cols _ _ HF). exact H.
    - left. split; auto. unfold refine, while_. rewrite P in HR.
      assert (E : forall n, iter2 n refine_step Q = inr NoSolution).
      { assert (E0 : refine_step Q = inr NoSolution).
        { unfold refine_step. rewrite (question_copy_ok (repeat 1 C)) by auto using fresh_shell. cbn [bind]. now rewrite HR. }
        induction n as [|n IH]; simpl; auto. now rewrite IH. }
      now rewrite E.
  Qed.
  Lemma fresh_cand : exists ns, sizes_ok ns /\
    (cand (map Z.of_nat ns) (grouped ns Q) Q).
  Proof.
    destruct sizes_exist as (ns & Hns & ER & Hcase). exists ns. split; auto. now apply fresh_cand_at.
  Qed.

  (** ** solve_question on a fresh question *)
  Theorem solve_question_fresh : exists xs, solve_question Q = Ok xs /\ NoDup xs
    /\ (forall x, In x xs -> length x = C /\ bits x /\ ones_first (mrows (qA Q)) x /\ below (qsys Q) x)
    /\ (forall x, length x = C -> bits x -> ones_first (mrows (qA Q)) x -> holds (qsys Q) x -> In x xs).
  Proof.
    destruct fresh_cand as (ns & Hns & Hc).
    destruct (solve_question_spec _ _ _ Hc) as (ws & E & Hnd & H1 & H2).
    { rewrite (f_bounds _ _ HF). intros b Hb. apply repeat_spec in Hb. lia. }
    assert (HLw : forall w, In w ws -> length w = length ns).
    { intros w Hw. destruct (H1 w Hw) as [A B]. now apply (grouped_weak ns Hns w). }
    exists (map (expand (map Z.of_nat ns)) ws). split; auto. split; [|split].
    - assert (G : forall l, NoDup l -> (forall w, In w l -> In w ws) -> NoDup (map (expand (map Z.of_nat ns)) l)).
      { induction 1 as [|w l Hw Hl IH]; intros Hsub; simpl; constructor.
        - intros Hin. apply in_map_iff in Hin. destruct Hin as (w' & Ew & Hw').
          assert (w' = w); [|congruence].
          apply (expand_inj (map Z.of_nat ns)); auto; rewrite ?map_length.
          + apply HLw, Hsub. now right.
          + apply HLw, Hsub. now left.
          + intros i Hi. apply (H1 w'); [apply Hsub; now right|]. now rewrite map_length.
          + intros i Hi. apply (H1 w); [apply Hsub; now left|]. now rewrite map_length.
        - apply IH. intros; apply Hsub; now right. }
      apply G; auto.
    - intros x Hx. apply in_map_iff in Hx. destruct Hx as (w & <- & Hw). destruct (H1 w Hw) as [A B].
      pose proof (HLw w Hw) as HL. conj.
      + now apply expand_len.
      + apply expand_bits.
      + now apply grouped_ones_first.
      + now apply (grouped_weak ns Hns w).
    - intros x HL Hb Ho Hs. destruct (grouped_exists ns Hns x HL Hb Ho) as (w & W1 & W2 & ->).
      apply in_map. apply H2. now apply grouped_sol.
  Qed.

  (** with no unknown left, only exact solutions remain *)
  Lemma solve_question_no_columns : C = 0%nat -> existsb (fun x => negb (x =? 0)) (qb Q) = true ->
    solve_question Q = Ok [].
  Proof.
    intros HC Hb.
    assert (HR : reduce_col Q = NoSolution).
    { unfold reduce_col, reduce_col_body. fold (qcols Q). rewrite (f_cols _ _ HF), HC. cbn [Nat.ltb Nat.leb bind].
      unfold post_check. fold (qcols Q). rewrite (f_cols _ _ HF), HC, Hb. reflexivity. }
    assert (EN : refine Q = NoSolution).
    { unfold refine, while_.
      assert (E : forall n, iter2 n refine_step Q = inr NoSolution).
      { assert (E0 : refine_step Q = inr NoSolution).
        { unfold refine_step. rewrite (question_copy_ok (repeat 1 C)) by auto using fresh_shell. cbn [bind]. now rewrite HR. }
        induction n as [|n IH]; simpl; auto. now rewrite IH. }
      now rewrite E. }
    unfold solve_question, while_, question_fuel. rewrite (f_bounds _ _ HF), HC. simpl. now rewrite EN.
  Qed.
End fresh.
