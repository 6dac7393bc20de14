(** General facts about lists, sums, indices and loops. *)
From Verif Require Import Np.
From Coq Require Export Permutation.
From Coq Require Import ZifyBool ZifyNat.

(** ** res *)
Lemma bind_Ok {A B} (x : res A) (f : A -> res B) r :
  bind x f = Ok r -> exists a, x = Ok a /\ f a = Ok r.
Proof. destruct x; simpl; try discriminate. eauto. Qed.

Lemma assert_true c : c = true -> assert_ c = Ok tt.
Proof. now intros ->. Qed.

(** ** zsum *)
Global Arguments zsum : simpl never.
Lemma zsum_app x y : zsum (x ++ y) = zsum x + zsum y.
Proof. induction x as [|a x IH]; unfold zsum in *; simpl in *; lia. Qed.

Lemma zsum_cons a x : zsum (a :: x) = a + zsum x.
Proof. reflexivity. Qed.

Lemma zsum_perm x y : Permutation x y -> zsum x = zsum y.
Proof. unfold zsum; induction 1; simpl; lia. Qed.

Lemma zsum_nonneg x : (forall a, In a x -> 0 <= a) -> 0 <= zsum x.
Proof.
  induction x as [|a x IH]; simpl; intros H; [unfold zsum; simpl; lia|].
  rewrite zsum_cons. specialize (H a (or_introl eq_refl)) as Ha.
  assert (0 <= zsum x) by (apply IH; intros; apply H; now right). lia.
Qed.

Lemma zsum_map_add {A} (f g : A -> Z) l :
  zsum (map (fun x => f x + g x) l) = zsum (map f l) + zsum (map g l).
Proof. unfold zsum. induction l as [|a l IH]; simpl; lia. Qed.

Lemma zsum_map_scale {A} c (f : A -> Z) l :
  zsum (map (fun x => c * f x) l) = c * zsum (map f l).
Proof. unfold zsum. induction l as [|a l IH]; simpl; lia. Qed.

Lemma zsum_map_ext {A} (f g : A -> Z) l :
  (forall x, In x l -> f x = g x) -> zsum (map f l) = zsum (map g l).
Proof. intros H. f_equal. apply map_ext_in, H. Qed.

Lemma zsum_map_le {A} (f g : A -> Z) l :
  (forall x, In x l -> f x <= g x) -> zsum (map f l) <= zsum (map g l).
Proof.
  induction l as [|a l IH]; simpl; intros H; [unfold zsum; simpl; lia|].
  rewrite !zsum_cons. specialize (H a (or_introl eq_refl)) as Ha.
  assert (zsum (map f l) <= zsum (map g l)) by (apply IH; intros; apply H; now right). lia.
Qed.

Lemma zsum_in_le x a : (forall y, In y x -> 0 <= y) -> In a x -> a <= zsum x.
Proof.
  induction x as [|b x IH]; simpl; intros H Hin; [easy|].
  rewrite zsum_cons.
  assert (Hb := H b (or_introl eq_refl)).
  assert (Hx : 0 <= zsum x) by (apply zsum_nonneg; intros; apply H; now right).
  destruct Hin as [->|Hin]; [lia|].
  assert (a <= zsum x) by (apply IH; auto). lia.
Qed.

Lemma zsum_repeat a n : zsum (repeat a n) = a * Z.of_nat n.
Proof. unfold zsum. induction n as [|n IH]; simpl repeat; simpl fold_right; lia. Qed.

Lemma zsum_map_zero {A} (l : list A) : zsum (map (fun _ => 0) l) = 0.
Proof. unfold zsum; induction l; simpl; lia. Qed.

Lemma zsum_swap {A B} (f : A -> B -> Z) la lb :
  zsum (map (fun a => zsum (map (f a) lb)) la)
  = zsum (map (fun b => zsum (map (fun a => f a b) la)) lb).
Proof.
  induction la as [|a la IH]; simpl.
  - now rewrite zsum_map_zero.
  - rewrite zsum_cons, IH. 
    rewrite <- zsum_map_add. apply zsum_map_ext. intros; now rewrite zsum_cons.
Qed.

Lemma zsum_all_zero x : (forall a, In a x -> 0 <= a) -> zsum x = 0 -> forall a, In a x -> a = 0.
Proof.
  intros Hn Hs a Ha. assert (a <= zsum x) by (apply zsum_in_le; auto).
  assert (0 <= a) by auto. lia.
Qed.

(** ** nth *)
Lemma nth_ext0 (x y : list Z) :
  length x = length y -> (forall i, (i < length x)%nat -> nth i x 0 = nth i y 0) -> x = y.
Proof. intros Hl H. apply (nth_ext x y 0 0); auto. Qed.

Lemma nth_map_in {A B} (f : A -> B) l i d d' :
  (i < length l)%nat -> nth i (map f l) d' = f (nth i l d).
Proof.
  revert i; induction l as [|a l IH]; intros [|i] H; simpl in *; try lia; auto.
  apply IH; lia.
Qed.

Lemma nth_seq0 i n : (i < n)%nat -> nth i (seq 0 n) 0%nat = i.
Proof. intros H. rewrite seq_nth; lia. Qed.

Lemma nth_repeat_lt {A} (a d : A) n i : (i < n)%nat -> nth i (repeat a n) d = a.
Proof. revert i; induction n as [|n IH]; intros [|i] H; simpl; try lia; auto. apply IH; lia. Qed.

Lemma map_nth_seq (l : list Z) : map (fun i => nth i l 0) (seq 0 (length l)) = l.
Proof.
  apply nth_ext0; rewrite map_length, seq_length; [reflexivity|].
  intros i Hi. rewrite (nth_map_in _ _ _ 0%nat) by (rewrite seq_length; lia).
  now rewrite nth_seq0.
Qed.

Lemma map2_length {A B C} (f : A -> B -> C) x y :
  length (map2 f x y) = Nat.min (length x) (length y).
Proof. revert y; induction x as [|a x IH]; intros [|b y]; simpl; auto. Qed.

Lemma nth_map2 {A B C} (f : A -> B -> C) x y i da db dc :
  (i < length x)%nat -> (i < length y)%nat ->
  nth i (map2 f x y) dc = f (nth i x da) (nth i y db).
Proof.
  revert y i; induction x as [|a x IH]; intros [|b y] [|i] H1 H2; simpl in *; try lia; auto.
  apply IH; lia.
Qed.

Lemma map2_map_l {A A' B C} (f : A' -> B -> C) (g : A -> A') x y :
  map2 f (map g x) y = map2 (fun a b => f (g a) b) x y.
Proof. revert y; induction x as [|a x IH]; intros [|b y]; simpl; f_equal; auto. Qed.

Lemma map2_map_r {A B B' C} (f : A -> B' -> C) (g : B -> B') x y :
  map2 f x (map g y) = map2 (fun a b => f a (g b)) x y.
Proof. revert y; induction x as [|a x IH]; intros [|b y]; simpl; f_equal; auto. Qed.

Lemma map_map2 {A B C D} (g : C -> D) (f : A -> B -> C) x y :
  map g (map2 f x y) = map2 (fun a b => g (f a b)) x y.
Proof. revert y; induction x as [|a x IH]; intros [|b y]; simpl; f_equal; auto. Qed.

Lemma map2_ext {A B C} (f g : A -> B -> C) x y :
  (forall a b, In a x -> In b y -> f a b = g a b) -> map2 f x y = map2 g x y.
Proof.
  revert y; induction x as [|a x IH]; intros [|b y] H; simpl; auto.
  rewrite (H a b); [|now left|now left]. f_equal. apply IH. intros; apply H; now right.
Qed.

Lemma in_map2 {A B C} (f : A -> B -> C) x y c :
  In c (map2 f x y) -> exists a b, In (a, b) (combine x y) /\ c = f a b.
Proof.
  revert y; induction x as [|a x IH]; intros [|b y]; simpl; try easy.
  intros [<-|H]; [exists a, b; auto|].
  destruct (IH _ H) as (a' & b' & Hin & ->). exists a', b'; auto.
Qed.

Lemma in_combine_map2 {A B C} (f : A -> B -> C) x y a b :
  In (a, b) (combine x y) -> In (f a b) (map2 f x y).
Proof.
  revert y; induction x as [|a' x IH]; intros [|b' y]; simpl; try easy.
  intros [H|H]; [injection H as -> ->; now left|right; auto].
Qed.

Lemma map2_combine {A B C} (f : A -> B -> C) x y :
  map2 f x y = map (fun p => f (fst p) (snd p)) (combine x y).
Proof. revert y; induction x as [|a x IH]; intros [|b y]; simpl; f_equal; auto. Qed.

Lemma map_fst_combine {A B} (x : list A) (y : list B) :
  length x = length y -> map fst (combine x y) = x.
Proof. revert y; induction x as [|a x IH]; intros [|b y]; simpl; intros; try lia; f_equal; auto. Qed.
Lemma map_snd_combine {A B} (x : list A) (y : list B) :
  length x = length y -> map snd (combine x y) = y.
Proof. revert y; induction x as [|a x IH]; intros [|b y]; simpl; intros; try lia; f_equal; auto. Qed.

Lemma in_combine_nth {A B} (x : list A) (y : list B) a b da db :
  In (a, b) (combine x y) ->
  exists i, (i < length x)%nat /\ (i < length y)%nat /\ nth i x da = a /\ nth i y db = b.
Proof.
  revert y; induction x as [|a' x IH]; intros [|b' y]; simpl; try easy.
  intros [H|H].
  - injection H as -> ->. exists 0%nat; simpl; repeat split; lia.
  - destruct (IH _ H) as (i & ? & ? & ? & ?). exists (S i); simpl; repeat split; auto; lia.
Qed.

Lemma nth_in_combine {A B} (x : list A) (y : list B) i da db :
  (i < length x)%nat -> (i < length y)%nat -> In (nth i x da, nth i y db) (combine x y).
Proof.
  revert y i; induction x as [|a' x IH]; intros [|b' y] [|i] H1 H2; simpl in *; try lia; auto.
  right. apply IH; lia.
Qed.

(** ** booleans *)
Lemma list_eqb_spec {A} (eqb : A -> A -> bool) :
  (forall a b, eqb a b = true <-> a = b) ->
  forall x y, list_eqb eqb x y = true <-> x = y.
Proof.
  intros H. induction x as [|a x IH]; intros [|b y]; simpl; split; try easy.
  - rewrite andb_true_iff, H, IH. intros [-> ->]. reflexivity.
  - injection 1 as -> ->. rewrite andb_true_iff, H, IH. auto.
Qed.
Lemma vec_eqb_spec x y : vec_eqb x y = true <-> x = y.
Proof. apply list_eqb_spec. apply Z.eqb_eq. Qed.

Lemma memn_spec i l : memn i l = true <-> In i l.
Proof.
  unfold memn. rewrite existsb_exists. split.
  - intros (x & Hx & E). apply Nat.eqb_eq in E. now subst.
  - intros H. exists i. split; auto. apply Nat.eqb_refl.
Qed.
Lemma memn_false i l : memn i l = false <-> ~ In i l.
Proof. rewrite <- memn_spec. destruct (memn i l); split; congruence. Qed.

(** ** where_ *)
Lemma where_from_spec {A} (p : A -> bool) (d : A) l : forall i j,
  In j (where_from i p l) <->
  (i <= j < i + length l)%nat /\ p (nth (j - i) l d) = true.
Proof.
  induction l as [|x l IH]; intros i j; simpl.
  - split; [easy|lia].
  - destruct (p x) eqn:E; simpl; rewrite IH; split.
    + intros [<-|[H1 H2]].
      * replace (i - i)%nat with 0%nat by lia. split; [lia|auto].
      * split; [lia|]. replace (j - i)%nat with (S (j - S i)) by lia. auto.
    + intros [H1 H2]. destruct (Nat.eq_dec i j) as [->|Hne]; [now left|right].
      split; [lia|]. replace (j - i)%nat with (S (j - S i)) in H2 by lia. auto.
    + intros [H1 H2]. split; [lia|]. replace (j - i)%nat with (S (j - S i)) by lia. auto.
    + intros [H1 H2]. destruct (Nat.eq_dec i j) as [->|Hne].
      * replace (j - j)%nat with 0%nat in H2 by lia. congruence.
      * split; [lia|]. replace (j - i)%nat with (S (j - S i)) in H2 by lia. auto.
Qed.
Lemma where_spec {A} (p : A -> bool) (d : A) l j :
  In j (where_ p l) <-> (j < length l)%nat /\ p (nth j l d) = true.
Proof.
  unfold where_. rewrite (where_from_spec p d). rewrite Nat.sub_0_r. split; intros [? ?]; split; auto; lia.
Qed.

Lemma where_from_NoDup {A} (p : A -> bool) l : forall i, NoDup (where_from i p l).
Proof.
  induction l as [|x l IH]; intros i; simpl; [constructor|].
  destruct (p x); auto. constructor; auto.
  intros H. apply (where_from_spec p x) in H. lia.
Qed.
Lemma where_NoDup {A} (p : A -> bool) l : NoDup (where_ p l).
Proof. apply where_from_NoDup. Qed.

Lemma where_from_length_le {A} (p : A -> bool) l : forall i, (length (where_from i p l) <= length l)%nat.
Proof. induction l as [|x l IH]; intros i; simpl; auto. destruct (p x); simpl; specialize (IH (S i)); lia. Qed.

Lemma where_from_none {A} (p : A -> bool) l : forall i,
  (forall x, In x l -> p x = false) -> where_from i p l = [].
Proof.
  induction l as [|x l IH]; intros i H; simpl; auto.
  rewrite (H x) by now left. apply IH. intros; apply H; now right.
Qed.
Lemma where_from_nil {A} (p : A -> bool) l : forall i,
  where_from i p l = [] -> forall x, In x l -> p x = false.
Proof.
  induction l as [|x l IH]; intros i H y Hy; simpl in *; [easy|].
  destruct (p x) eqn:E; [easy|]. destruct Hy as [<-|Hy]; eauto.
Qed.
Lemma where_from_filter {A} (p : A -> bool) (d : A) l : forall i,
  where_from i p l = filter (fun j => p (nth (j - i) l d)) (seq i (length l)).
Proof.
  induction l as [|x l IH]; intros i; simpl; auto.
  rewrite Nat.sub_diag, IH.
  assert (E : filter (fun j => p (nth (j - S i) l d)) (seq (S i) (length l))
          = filter (fun j => p (nth (j - i) (x :: l) d)) (seq (S i) (length l))).
  { apply filter_ext_in. intros j Hj. apply in_seq in Hj.
    replace (j - i)%nat with (S (j - S i)) by lia. reflexivity. }
  rewrite E. destruct (p x); reflexivity.
Qed.
Lemma where_filter {A} (p : A -> bool) (d : A) l :
  where_ p l = filter (fun j => p (nth j l d)) (seq 0 (length l)).
Proof.
  unfold where_. rewrite (where_from_filter p d).
  apply filter_ext. intros j. now rewrite Nat.sub_0_r.
Qed.

(** ** pick, delete *)
Definition keep (idxs : list nat) (n : nat) : list nat :=
  filter (fun j => negb (memn j idxs)) (seq 0 n).

Lemma delete_from_pick {A} (d : A) idxs l : forall i,
  delete_from i idxs l
  = map (fun j => nth (j - i) l d) (filter (fun j => negb (memn j idxs)) (seq i (length l))).
Proof.
  induction l as [|x l IH]; intros i; simpl; auto.
  rewrite IH.
  assert (E : map (fun j => nth (j - S i) l d)
                (filter (fun j => negb (memn j idxs)) (seq (S i) (length l)))
            = map (fun j => nth (j - i) (x :: l) d)
                (filter (fun j => negb (memn j idxs)) (seq (S i) (length l)))).
  { apply map_ext_in. intros j Hj. apply filter_In in Hj. destruct Hj as [Hj _]. apply in_seq in Hj.
    replace (j - i)%nat with (S (j - S i)) by lia. reflexivity. }
  rewrite E. destruct (memn i idxs); simpl; [reflexivity|].
  rewrite Nat.sub_diag. reflexivity.
Qed.
Lemma delete_pick {A} (d : A) idxs l : delete idxs l = pick d (keep idxs (length l)) l.
Proof.
  unfold delete, pick, keep. rewrite (delete_from_pick d).
  apply map_ext. intros j. now rewrite Nat.sub_0_r.
Qed.

Lemma pick_length {A} (d : A) idxs l : length (pick d idxs l) = length idxs.
Proof. apply map_length. Qed.
Lemma nth_pick {A} (d : A) idxs l i :
  (i < length idxs)%nat -> nth i (pick d idxs l) d = nth (nth i idxs 0%nat) l d.
Proof. intros H. unfold pick. now rewrite (nth_map_in _ _ _ 0%nat). Qed.

Lemma keep_NoDup idxs n : NoDup (keep idxs n).
Proof. apply NoDup_filter, seq_NoDup. Qed.
Lemma in_keep idxs n j : In j (keep idxs n) <-> (j < n)%nat /\ ~ In j idxs.
Proof.
  unfold keep. rewrite filter_In, in_seq, negb_true_iff, memn_false. split; intros [? ?]; split; auto; lia.
Qed.
Lemma keep_perm idxs n :
  NoDup idxs -> (forall j, In j idxs -> (j < n)%nat) ->
  Permutation (keep idxs n ++ idxs) (seq 0 n).
Proof.
  intros Hd Hb. apply NoDup_Permutation.
  - assert (H : forall a b : list nat, NoDup a -> NoDup b -> (forall x, In x a -> ~ In x b) -> NoDup (a ++ b)).
    { induction a as [|x a IH]; simpl; intros b Ha Hb' Hx; auto.
      inversion Ha; subst. constructor.
      - rewrite in_app_iff. intros [?|?]; auto. apply (Hx x); auto.
      - apply IH; auto. }
    apply H; auto using keep_NoDup.
    intros x Hx. apply in_keep in Hx. tauto.
  - apply seq_NoDup.
  - intros x. rewrite in_app_iff, in_keep, in_seq. split.
    + intros [[? _]|Hx]; [lia|]. apply Hb in Hx. lia.
    + intros Hx. destruct (in_dec Nat.eq_dec x idxs); [now right|left; split; auto; lia].
Qed.
Lemma keep_length idxs n :
  NoDup idxs -> (forall j, In j idxs -> (j < n)%nat) ->
  length (keep idxs n) = (n - length idxs)%nat /\ (length idxs <= n)%nat.
Proof.
  intros Hd Hb. pose proof (Permutation_length (keep_perm idxs n Hd Hb)) as H.
  rewrite app_length, seq_length in H. lia.
Qed.
Lemma keep_nil n : keep [] n = seq 0 n.
Proof.
  unfold keep. rewrite <- (filter_ext (fun _ => true)) by reflexivity.
  induction (seq 0 n) as [|x l IH]; simpl; f_equal; auto.
Qed.
Lemma delete_length {A} idxs (l : list A) :
  NoDup idxs -> (forall j, In j idxs -> (j < length l)%nat) ->
  length (delete idxs l) = (length l - length idxs)%nat.
Proof.
  intros Hd Hb. destruct l as [|a l]; [reflexivity|].
  rewrite (delete_pick a), pick_length. now apply keep_length.
Qed.
Lemma delete_nil {A} (l : list A) : delete [] l = l.
Proof.
  unfold delete. generalize 0%nat.
  induction l as [|x l IH]; intros i; simpl; f_equal; auto.
Qed.
Lemma in_delete {A} idxs (l : list A) x : In x (delete idxs l) -> In x l.
Proof.
  unfold delete. generalize 0%nat.
  induction l as [|y l IH]; intros i; simpl; auto.
  destruct (memn i idxs); simpl; intros H; eauto. destruct H; eauto.
Qed.
Lemma map_delete {A B} (f : A -> B) idxs l : map f (delete idxs l) = delete idxs (map f l).
Proof.
  unfold delete. generalize 0%nat.
  induction l as [|y l IH]; intros i; simpl; auto.
  destruct (memn i idxs); simpl; f_equal; auto.
Qed.
Lemma delete_repeat {A} (a : A) idxs n :
  NoDup idxs -> (forall j, In j idxs -> (j < n)%nat) ->
  delete idxs (repeat a n) = repeat a (n - length idxs).
Proof.
  intros Hd Hb.
  assert (H : length (delete idxs (repeat a n)) = (n - length idxs)%nat).
  { rewrite delete_length; rewrite ?repeat_length; auto. }
  rewrite <- H. generalize (fun x => @in_delete A idxs (repeat a n) x).
  generalize (delete idxs (repeat a n)). intros l Hl. clear - Hl.
  induction l as [|x l IH]; simpl; auto.
  rewrite <- IH by (intros; apply Hl; now right).
  f_equal. apply (repeat_spec n). apply Hl. now left.
Qed.

(** ** dot *)
Lemma dot_sum x y : length x = length y ->
  dot x y = zsum (map (fun j => nth j x 0 * nth j y 0) (seq 0 (length x))).
Proof.
  revert y; induction x as [|a x IH]; intros [|b y] H; simpl in *; try lia; try reflexivity.
  rewrite zsum_cons, IH by lia. f_equal.
  rewrite <- seq_shift, map_map. reflexivity.
Qed.
Lemma dot_pick idxs x y :
  dot (pick 0 idxs x) (pick 0 idxs y) = zsum (map (fun j => nth j x 0 * nth j y 0) idxs).
Proof. induction idxs as [|i idxs IH]; simpl; auto. rewrite zsum_cons, <- IH. reflexivity. Qed.
Lemma zsum_pick idxs x : zsum (pick 0 idxs x) = zsum (map (fun j => nth j x 0) idxs).
Proof. reflexivity. Qed.
Lemma zsum_sum x : zsum x = zsum (map (fun j => nth j x 0) (seq 0 (length x))).
Proof. now rewrite map_nth_seq. Qed.

Lemma dot_split idxs x y :
  length x = length y -> NoDup idxs -> (forall j, In j idxs -> (j < length x)%nat) ->
  dot x y = dot (delete idxs x) (delete idxs y) + dot (pick 0 idxs x) (pick 0 idxs y).
Proof.
  intros Hl Hd Hb. rewrite (delete_pick 0 idxs x), (delete_pick 0 idxs y), <- Hl, !dot_pick.
  rewrite <- zsum_app, <- map_app, dot_sum by auto.
  apply zsum_perm, Permutation_map. symmetry. now apply keep_perm.
Qed.
Lemma zsum_split idxs x :
  NoDup idxs -> (forall j, In j idxs -> (j < length x)%nat) ->
  zsum x = zsum (delete idxs x) + zsum (pick 0 idxs x).
Proof.
  intros Hd Hb. rewrite (delete_pick 0 idxs x), !zsum_pick, <- zsum_app, <- map_app, zsum_sum.
  apply zsum_perm, Permutation_map. symmetry. now apply keep_perm.
Qed.

Lemma dot_comm x y : dot x y = dot y x.
Proof. revert y; induction x as [|a x IH]; intros [|b y]; simpl; auto. rewrite IH. lia. Qed.
Lemma dot_repeat0 n y : dot (repeat 0 n) y = 0.
Proof. revert y; induction n as [|n IH]; intros [|b y]; simpl; auto. Qed.
Lemma dot_ones n y : length y = n -> dot (repeat 1 n) y = zsum y.
Proof. revert y; induction n as [|n IH]; intros [|b y] H; cbn [repeat dot length] in *; try lia; auto. rewrite IH by lia. rewrite zsum_cons. lia. Qed.
Lemma dot_nil_r x : dot x [] = 0.
Proof. destruct x; reflexivity. Qed.

Definition vadd (x y : list Z) : list Z := map2 Z.add x y.
Lemma dot_vadd x y z : length x = length y -> dot (vadd x y) z = dot x z + dot y z.
Proof.
  revert y z; induction x as [|a x IH]; intros [|b y] [|c z] H; simpl in *; try lia.
  unfold vadd in IH. rewrite IH by lia. lia.
Qed.
Lemma vadd_length x y : length x = length y -> length (vadd x y) = length x.
Proof. intros. unfold vadd. rewrite map2_length. lia. Qed.
Lemma nth_vadd x y i : length x = length y -> nth i (vadd x y) 0 = nth i x 0 + nth i y 0.
Proof.
  intros H. destruct (Nat.lt_ge_cases i (length x)) as [Hi|Hi].
  - unfold vadd. rewrite (nth_map2 _ _ _ _ 0 0); auto; lia.
  - rewrite !nth_overflow; try lia; rewrite vadd_length; lia.
Qed.
Lemma pick_vadd idxs x y : length x = length y ->
  pick 0 idxs (vadd x y) = vadd (pick 0 idxs x) (pick 0 idxs y).
Proof.
  intros H. induction idxs as [|i idxs IH]; simpl; auto.
  unfold vadd in *. simpl. f_equal; auto. now apply nth_vadd.
Qed.
Lemma delete_vadd idxs x y : length x = length y ->
  delete idxs (vadd x y) = vadd (delete idxs x) (delete idxs y).
Proof.
  intros H. rewrite !(delete_pick 0), vadd_length, <- H by auto. now apply pick_vadd.
Qed.
Lemma vadd_zero_r x : vadd x (repeat 0 (length x)) = x.
Proof. unfold vadd. induction x as [|a x IH]; simpl; auto. rewrite IH. f_equal. lia. Qed.
Lemma vadd_assoc x y z : vadd x (vadd y z) = vadd (vadd x y) z.
Proof.
  unfold vadd. revert y z. induction x as [|a x IH]; intros [|b y] [|c z]; simpl; auto.
  f_equal; [lia|apply IH].
Qed.

(** ** set_nth *)
Lemma set_nth_length {A} i (x : A) l : length (set_nth i x l) = length l.
Proof. revert i; induction l as [|y l IH]; intros [|i]; simpl; auto. Qed.
Lemma nth_set_nth {A} i (x d : A) l j :
  nth j (set_nth i x l) d = if (Nat.eqb j i && (j <? length l)%nat)%bool then x else nth j l d.
Proof.
  revert i j; induction l as [|y l IH]; intros [|i] [|j]; simpl; auto.
  - now rewrite andb_false_r.
  - rewrite IH. reflexivity.
Qed.

(** ** loops *)
Lemma iter2_spec {S R} (step : S -> S + R) (I : S -> Prop) (mu : S -> Z) (P : R -> Prop) :
  (forall s, I s -> 0 <= mu s) ->
  (forall s, I s -> match step s with
                    | inl s' => I s' /\ mu s' < mu s
                    | inr r => P r
                    end) ->
  forall n s, I s -> mu s < 2 ^ Z.of_nat n -> exists r, iter2 n step s = inr r /\ P r.
Proof.
  intros Hpos Hstep.
  assert (Hgen : forall n s, I s ->
    match iter2 n step s with
    | inl s' => I s' /\ mu s' <= mu s - 2 ^ Z.of_nat n
    | inr r => P r
    end).
  { induction n as [|n IH]; intros s Hs.
    - simpl. specialize (Hstep s Hs). destruct (step s); auto.
      change (2 ^ Z.of_nat 0) with 1. split; [tauto|lia].
    - simpl iter2. specialize (IH s Hs) as H1. destruct (iter2 n step s) as [s1|r]; auto.
      destruct H1 as [H1 H1']. specialize (IH s1 H1). destruct (iter2 n step s1) as [s2|r]; auto.
      split; [tauto|].
      rewrite Nat2Z.inj_succ, Z.pow_succ_r by lia. lia. }
  intros n s Hs Hmu. specialize (Hgen n s Hs).
  destruct (iter2 n step s) as [s'|r]; [|eauto].
  destruct Hgen as [Hs' Hle]. specialize (Hpos s' Hs'). lia.
Qed.

Lemma while_spec {S A} (step : S -> S + res A) (I : S -> Prop) (mu : S -> Z) (P : res A -> Prop) :
  (forall s, I s -> 0 <= mu s) ->
  (forall s, I s -> match step s with
                    | inl s' => I s' /\ mu s' < mu s
                    | inr r => P r
                    end) ->
  forall n s, I s -> mu s < 2 ^ Z.of_nat n -> P (while_ n step s).
Proof.
  intros Hpos Hstep n s Hs Hmu. unfold while_.
  destruct (iter2_spec step I mu P Hpos Hstep n s Hs Hmu) as (r & -> & Hr). exact Hr.
Qed.

(** ** misc *)
Lemma NoDup_app_intro {A} (a b : list A) :
  NoDup a -> NoDup b -> (forall x, In x a -> ~ In x b) -> NoDup (a ++ b).
Proof.
  induction a as [|x a IH]; simpl; intros Ha Hb Hx; auto.
  inversion Ha; subst. constructor.
  - rewrite in_app_iff. intros [?|?]; auto. apply (Hx x); auto.
  - apply IH; auto.
Qed.

Lemma forallb_all {A} (p : A -> bool) l : forallb p l = true <-> forall x, In x l -> p x = true.
Proof. apply forallb_forall. Qed.

Lemma existsb_none {A} (p : A -> bool) l : existsb p l = false <-> forall x, In x l -> p x = false.
Proof.
  split.
  - intros H x Hx. destruct (p x) eqn:E; auto.
    assert (existsb p l = true) by (apply existsb_exists; eauto). congruence.
  - intros H. destruct (existsb p l) eqn:E; auto.
    apply existsb_exists in E. destruct E as (x & Hx & E). rewrite H in E; auto.
Qed.

Lemma i8_id z : -128 <= z < 128 -> i8 z = z.
Proof. intros H. unfold i8, wrap. destruct (Z.leb_spec (-(128)) z); destruct (Z.ltb_spec z 128); simpl; lia. Qed.
Lemma i8_range z : -128 <= i8 z < 128.
Proof.
  unfold i8, wrap. destruct (Z.leb_spec (-(128)) z); destruct (Z.ltb_spec z 128); simpl; try lia;
  pose proof (Z.mod_pos_bound (z + 128) 256 ltac:(lia)); lia.
Qed.
Lemma i64_id z : -9223372036854775808 <= z < 9223372036854775808 -> i64 z = z.
Proof.
  intros H. unfold i64, wrap.
  destruct (Z.leb_spec (-(9223372036854775808)) z);
  destruct (Z.ltb_spec z 9223372036854775808); simpl; lia.
Qed.
Lemma map_i8_id l : (forall x, In x l -> 0 <= x < 128) -> map i8 l = l.
Proof.
  intros H. rewrite <- (map_id l) at 2. apply map_ext_in. intros x Hx. apply i8_id. apply H in Hx. lia.
Qed.

Lemma nonneg_spec_aux (l : list Z) :
  forallb (fun x => 0 <=? x) l = true <-> forall x, In x l -> 0 <= x.
Proof.
  rewrite forallb_forall. split; intros H x Hx; specialize (H x Hx); lia.
Qed.
