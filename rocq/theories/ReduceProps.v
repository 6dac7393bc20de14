(** reduce_col on any well-formed question whose groups of equal columns are
    neighbours in the answer (C18). *)
From Verif Require Import Np ModelGauss Model Spec QSpec Lib BitFacts Cone ElimFacts QFacts StepFacts ForkFacts GroupFacts QuestionProps.
From Coq Require Import ZifyBool ZifyNat Sorting.Sorted Sorting.Permutation.

(** ** groups *)
Lemma repeat_each_runs ks : forall ns, repeat_each ns ks = runs ks ns.
Proof. induction ks as [|k ks IH]; intros [|n ns]; simpl; auto. unfold runs in *. simpl. now rewrite IH. Qed.

Lemma group_sums_length ns : forall x, length (group_sums ns x) = length ns.
Proof. induction ns as [|n ns IH]; intros x; simpl; auto. Qed.
Lemma group_sums_app n ns x y : length x = n -> group_sums (n :: ns) (x ++ y) = zsum x :: group_sums ns y.
Proof.
  intros <-. simpl. rewrite firstn_app, Nat.sub_diag, firstn_all, firstn_O, app_nil_r.
  rewrite skipn_app, Nat.sub_diag, skipn_all. reflexivity.
Qed.
Lemma split_at {A} n (l : list A) : (n <= length l)%nat -> exists a b, l = a ++ b /\ length a = n.
Proof. intros H. exists (firstn n l), (skipn n l). rewrite firstn_skipn, firstn_length. split; auto. lia. Qed.
Lemma group_sums_zsum ns : forall x, length x = natsum ns -> zsum (group_sums ns x) = zsum x.
Proof.
  induction ns as [|n ns IH]; intros x H; simpl in H.
  - destruct x; [reflexivity|discriminate].
  - destruct (split_at n x ltac:(lia)) as (a & b & -> & Ha). rewrite group_sums_app by auto.
    rewrite app_length in H. rewrite zsum_cons, zsum_app, IH by lia. reflexivity.
Qed.
Lemma dot_group_sums ks : forall ns y, length ks = length ns -> length y = natsum ns ->
  dot (runs ks ns) y = dot ks (group_sums ns y).
Proof.
  induction ks as [|k ks IH]; intros [|n ns] y HL Hy; simpl in HL; try lia; auto.
  simpl in Hy. destruct (split_at n y ltac:(lia)) as (a & b & -> & Ha). rewrite group_sums_app by auto.
  rewrite app_length in Hy. unfold runs in *. cbn [map2 concat].
  rewrite dot_app by (rewrite repeat_length; lia). rewrite dot_const by auto. rewrite IH by lia. simpl. lia.
Qed.
Lemma zsum_le2 x y : Forall2 Z.le x y -> zsum x <= zsum y.
Proof. induction 1; [reflexivity|]. rewrite !zsum_cons. lia. Qed.
Lemma Forall2_app_split {A B} (R : A -> B -> Prop) a x b y : length a = length b ->
  Forall2 R (a ++ x) (b ++ y) -> Forall2 R a b /\ Forall2 R x y.
Proof.
  revert b. induction a as [|c a IH]; intros [|d b] H HF; simpl in *; try lia.
  - split; [constructor|auto].
  - inversion HF; subst. destruct (IH b ltac:(lia) ltac:(assumption)) as [H1 H2]. split; auto.
Qed.
Lemma Forall2_len {A B} (R : A -> B -> Prop) x y : Forall2 R x y -> length x = length y.
Proof. induction 1; simpl; auto. Qed.
Lemma group_sums_le ns : forall x y, length x = natsum ns -> Forall2 Z.le x y -> Forall2 Z.le (group_sums ns x) (group_sums ns y).
Proof.
  induction ns as [|n ns IH]; intros x y Hx HF; [constructor|]. simpl in Hx. pose proof (Forall2_len _ _ _ HF) as HL.
  destruct (split_at n x ltac:(lia)) as (a & b & -> & Ha). destruct (split_at n y ltac:(lia)) as (c & d & -> & Hc).
  destruct (Forall2_app_split Z.le a b c d ltac:(lia) HF) as [H1 H2]. rewrite !group_sums_app by auto.
  rewrite app_length in Hx. constructor; [now apply zsum_le2|]. apply IH; auto. lia.
Qed.
Lemma Forall2_nth {A B} (R : A -> B -> Prop) da db x y : length x = length y ->
  (forall i, (i < length x)%nat -> R (nth i x da) (nth i y db)) <-> Forall2 R x y.
Proof.
  revert y. induction x as [|a x IH]; intros [|b y] H; simpl in H; try lia.
  - split; [constructor|]. intros _ i Hi. simpl in Hi. lia.
  - split.
    + intros G. constructor; [apply (G 0%nat); simpl; lia|]. apply IH; [lia|]. intros i Hi. apply (G (S i)). simpl. lia.
    + intros HF. inversion HF; subst. intros [|i] Hi; simpl; auto. simpl in Hi. apply IH; auto; lia.
Qed.

(** the first entry of every group *)
Fixpoint heads (ms : list nat) (x : list Z) : list Z :=
  match ms with [] => [] | n :: t => nth 0 x 0 :: heads t (skipn n x) end.
Lemma heads_app n ms x y : (1 <= n)%nat -> length x = n -> heads (n :: ms) (x ++ y) = nth 0 x 0 :: heads ms y.
Proof.
  intros Hn <-. simpl. rewrite skipn_app, Nat.sub_diag, skipn_all. destruct x; [simpl in Hn; lia|reflexivity].
Qed.
Lemma pick_heads ms : (forall n, In n ms -> (1 <= n)%nat) -> forall x, length x = natsum ms ->
  pick 0 (nstarts 0 ms) x = heads ms x.
Proof.
  induction ms as [|n ms IH]; intros Hn x Hx; [reflexivity|]. simpl in Hx.
  destruct (split_at n x ltac:(lia)) as (a & b & -> & Ha). rewrite heads_app by (auto; apply Hn; now left).
  rewrite app_length in Hx. rewrite <- (IH ltac:(intros; apply Hn; now right) b) by lia.
  assert (1 <= n)%nat by (apply Hn; now left).
  unfold pick at 1. simpl map. f_equal.
  - destruct a; [simpl in Ha; lia|reflexivity].
  - pose proof (pick_shift a b ms 0) as E. rewrite Nat.add_0_r, Ha in E. exact E.
Qed.
Lemma delete_drops ms x : (forall n, In n ms -> (1 <= n)%nat) -> length x = natsum ms ->
  delete (drops 0 ms) x = heads ms x.
Proof.
  intros Hn Hx. destruct (drops_ok ms Hn) as (_ & _ & _ & D4).
  rewrite <- pick_heads by auto. rewrite <- D4, <- Hx, pick_delete. f_equal. symmetry. apply map_nth_seq.
Qed.
Lemma heads_starts ms : (forall n, In n ms -> (1 <= n)%nat) -> forall s p, length s = natsum ms ->
  heads ms (starts p s) = starts p (group_sums ms s).
Proof.
  induction ms as [|n ms IH]; intros Hn s p Hs; [reflexivity|]. simpl in Hs.
  destruct (split_at n s ltac:(lia)) as (a & b & -> & Ha).
  assert (G : forall a p b, starts p (a ++ b) = starts p a ++ starts (p + zsum a) b).
  { clear. induction a as [|x a IH]; intros p b; [unfold zsum; simpl; now rewrite Z.add_0_r|].
    simpl. rewrite IH, zsum_cons, Z.add_assoc. reflexivity. }
  rewrite G, heads_app by (rewrite ?starts_length; auto; apply Hn; now left). rewrite group_sums_app by auto.
  rewrite app_length in Hs. cbn [starts]. rewrite IH by (try lia; intros; apply Hn; now right). f_equal.
  assert (1 <= n)%nat by (apply Hn; now left). destruct a; [simpl in Ha; lia|reflexivity].
Qed.

(** ** selecting the values of the unknown buckets *)
Fixpoint sel (v w : list Z) : list Z :=
  match v, w with
  | a :: v', x :: w' => if is_unknown a then x :: sel v' w' else sel v' w'
  | _, _ => []
  end.
Lemma sel_pick v : forall w, length v = length w -> pick 0 (where_ is_unknown v) w = sel v w.
Proof.
  assert (G : forall v w pre, length v = length w -> pick 0 (where_from (length pre) is_unknown v) (pre ++ w) = sel v w).
  { clear. induction v as [|a v IH]; intros [|x w] pre H; simpl in H; try lia; [reflexivity|]. simpl.
    specialize (IH w (pre ++ [x]) ltac:(lia)). rewrite app_length, <- app_assoc in IH. simpl in IH.
    rewrite Nat.add_1_r in IH. destruct (is_unknown a); auto. unfold pick in *. simpl. f_equal; auto.
    rewrite app_nth2, Nat.sub_diag by lia. reflexivity. }
  intros w H. apply (G v w [] H).
Qed.
Lemma sel_unknown n : forall v a b, length a = n -> sel (repeat UNKNOWN n ++ v) (a ++ b) = a ++ sel v b.
Proof. induction n as [|n IH]; intros v [|x a] b H; simpl in *; try lia; auto. now rewrite IH by lia. Qed.

(** ** the buckets that belong together *)
Inductive merged : list nat -> list Z -> list nat -> Prop :=
| merged_nil : merged [] [] []
| merged_known x ns v ms : x <> UNKNOWN -> merged ns v ms -> merged ns (x :: v) (1%nat :: ms)
| merged_open n ns v ms : (1 <= n)%nat -> merged ns v ms ->
    merged (n :: ns) (repeat UNKNOWN n ++ v) (n :: ms).

Lemma where_from_ge {A} (p : A -> bool) l : forall i x, In x (where_from i p l) -> (i <= x)%nat.
Proof.
  induction l as [|a l IH]; intros i x H; simpl in H; [easy|].
  destruct (p a); [destruct H as [<-|H]; [lia|]|]; apply IH in H; lia.
Qed.

Lemma merged_exists v : forall p ks ns, length ks = length ns -> (forall n, In n ns -> (1 <= n)%nat) ->
  natsum ns = length (where_from p is_unknown v) ->
  (forall j, (S j < natsum ns)%nat -> nth j (runs ks ns) 0 = nth (S j) (runs ks ns) 0 ->
     nth (S j) (where_from p is_unknown v) 0%nat = S (nth j (where_from p is_unknown v) 0%nat)) ->
  exists ms, merged ns v ms.
Proof.
  induction v as [|x v IH]; intros p ks ns HL Hn HS HC.
  - simpl in HS. destruct ns as [|n ns]; [exists []; constructor|]. specialize (Hn n (or_introl eq_refl)). simpl in HS. lia.
  - simpl in HS, HC. destruct (is_unknown x) eqn:Ex.
    + assert (x = UNKNOWN) as -> by (unfold is_unknown in Ex; lia).
      destruct ns as [|n ns], ks as [|k ks]; try (simpl in HL, HS; lia).
      pose proof (Hn n (or_introl eq_refl)) as Hn1.
      destruct n as [|[|n]]; [lia| |].
      * destruct (IH (S p) ks ns) as (ms & Hm).
        -- simpl in HL. lia.
        -- intros; apply Hn; now right.
        -- simpl in HS. lia.
        -- intros j Hj E. specialize (HC (S j)). simpl in HC. apply HC; [lia|]. exact E.
        -- exists (1%nat :: ms). apply (merged_open 1%nat ns v ms); auto.
      * destruct (IH (S p) (k :: ks) (S n :: ns)) as (ms & Hm).
        -- simpl in *. lia.
        -- intros m [<-|Hm]; [lia|]. apply Hn. now right.
        -- simpl in *. lia.
        -- intros j Hj E. specialize (HC (S j)). simpl in HC. apply HC; [simpl in Hj; lia|]. exact E.
        -- specialize (HC 0%nat ltac:(simpl; lia) eq_refl). simpl in HC.
           inversion Hm as [|y ns0 v0 ms0 Hy Hm0|n0 ns0 v0 ms0 Hn0 Hm0]; subst.
           ++ exfalso. simpl in HC. destruct (is_unknown y) eqn:Ey; [unfold is_unknown in Ey; lia|].
              destruct (where_from (S (S p)) is_unknown v0) as [|z l] eqn:W; [simpl in HC; lia|].
              assert (In z (where_from (S (S p)) is_unknown v0)) as Hz by (rewrite W; now left).
              apply where_from_ge in Hz. simpl in HC. lia.
           ++ exists (S (S n) :: ms0). apply (merged_open (S (S n)) ns v0 ms0); auto.
    + destruct (IH (S p) ks ns HL Hn HS HC) as (ms & Hm). exists (1%nat :: ms). constructor; auto.
      intros ->. discriminate.
Qed.

Lemma blocks_shift q ns : forall p, blocks (q + p) ns = map (map (Nat.add q)) (blocks p ns).
Proof.
  induction ns as [|n ns IH]; intros p; simpl; auto. rewrite <- Nat.add_assoc, IH. f_equal.
  clear. revert p. induction n as [|n IH]; intros p; simpl; auto. rewrite <- IH. do 2 f_equal. lia.
Qed.
Lemma drops_shift q ns p : drops (q + p) ns = map (Nat.add q) (drops p ns).
Proof.
  unfold drops. rewrite blocks_shift, concat_map, !map_map. f_equal. apply map_ext. intros l. destruct l; reflexivity.
Qed.

Section merged.
  Variables (ns ms : list nat) (v : list Z).
  Hypothesis HM : merged ns v ms.
  Lemma merged_ge : forall n, In n ms -> (1 <= n)%nat.
  Proof. clear -HM. induction HM; intros k Hk; simpl in Hk; [easy| |]; (destruct Hk as [<-|Hk]; [lia|auto]). Qed.
  Lemma merged_length : length v = natsum ms.
  Proof. clear -HM. induction HM; simpl; auto. rewrite app_length, repeat_length. lia. Qed.
  Lemma where_unknowns n l : forall p, where_from p is_unknown (repeat UNKNOWN n ++ l) = seq p n ++ where_from (p + n) is_unknown l.
  Proof.
    clear. induction n as [|n IH]; intros p; simpl; [now rewrite Nat.add_0_r|]. now rewrite IH, Nat.add_succ_r.
  Qed.
  Lemma merged_drops p : map (fun j => nth j (where_from p is_unknown v) 0%nat) (drops 0 ns) = drops p ms.
  Proof.
    revert p. clear -HM. induction HM as [|x ns v ms Hx HM' IH|n ns v ms Hn HM' IH]; intros p; [reflexivity| |].
    - simpl where_from. destruct (is_unknown x) eqn:E; [unfold is_unknown in E; lia|]. rewrite IH by auto.
      unfold drops. simpl. now rewrite Nat.add_1_r.
    - rewrite where_unknowns. unfold drops at 1. cbn [blocks map concat]. rewrite map_app.
      fold (drops (0 + n) ns). rewrite (Nat.add_comm 0 n), drops_shift, map_map.
      change (drops p (n :: ms)) with (tl (seq p n) ++ drops (p + n) ms). f_equal.
      + destruct n as [|n]; [lia|]. cbn [seq tl].
        rewrite <- (seq_shift n 0), map_map. transitivity (map (fun i => S p + i)%nat (seq 0 n)).
        * apply map_ext_in. intros i Hi. apply in_seq in Hi. cbn [nth app].
          rewrite app_nth1 by (rewrite seq_length; lia). rewrite seq_nth by lia. reflexivity.
        * clear. generalize (S p) as q. intros q. replace (seq q n) with (seq (q + 0) n) by now rewrite Nat.add_0_r.
          generalize 0%nat as o. induction n as [|n IH]; intros o; simpl; auto. f_equal. rewrite <- Nat.add_succ_r. apply IH.
      + rewrite <- IH by auto. apply map_ext. intros j. rewrite app_nth2 by (rewrite seq_length; lia).
        rewrite seq_length. f_equal. lia.
  Qed.
  Lemma merged_sel_length : forall w, length w = length v -> length (sel v w) = natsum ns.
  Proof.
    clear -HM. induction HM as [|x ns v ms Hx HM' IH|n ns v ms Hn HM' IH]; intros w Hw.
    - destruct w; [reflexivity|discriminate].
    - destruct w as [|y w]; [discriminate|]. simpl. destruct (is_unknown x) eqn:E; [unfold is_unknown in E; lia|].
      apply IH; auto; simpl in Hw; lia.
    - rewrite app_length, repeat_length in Hw. destruct (split_at n w ltac:(lia)) as (a & b & -> & Ha).
      rewrite app_length in Hw. rewrite sel_unknown, app_length, IH by (auto; lia). simpl. lia.
  Qed.
  Lemma merged_sel : forall w, length w = length v -> sel (heads ms v) (group_sums ms w) = group_sums ns (sel v w).
  Proof.
    clear -HM. induction HM as [|x ns v ms Hx HM' IH|n ns v ms Hn HM' IH]; intros w Hw.
    - reflexivity.
    - destruct w as [|y w]; [discriminate|]. simpl. destruct (is_unknown x) eqn:E; [unfold is_unknown in E; lia|].
      apply IH; auto; simpl in Hw; lia.
    - rewrite app_length, repeat_length in Hw. destruct (split_at n w ltac:(lia)) as (a & b & -> & Ha).
      rewrite app_length in Hw. rewrite sel_unknown by auto. rewrite heads_app by (rewrite ?repeat_length; auto).
      rewrite !group_sums_app by auto. assert (E : nth 0 (repeat UNKNOWN n) 0 = UNKNOWN) by (destruct n; [lia|reflexivity]).
      rewrite E. cbn [sel]. change (is_unknown UNKNOWN) with true. cbv iota. f_equal. apply IH; auto; lia.
  Qed.
  Lemma merged_count : length (where_ is_unknown (heads ms v)) = length ns.
  Proof.
    assert (G : forall l : list Z, forall p, length (where_from p is_unknown l) = length (sel l l)).
    { clear. induction l as [|a l IH]; intros p; simpl; auto. destruct (is_unknown a); simpl; now rewrite IH. }
    assert (G2 : forall l p, length (where_from p is_unknown l) = length (where_from 0 is_unknown l)).
    { intros l p. now rewrite !G. }
    clear G. unfold where_. clear -HM G2.
    induction HM as [|x ns v ms Hx HM' IH|n ns v ms Hn HM' IH].
    - reflexivity.
    - simpl. destruct (is_unknown x) eqn:E; [unfold is_unknown in E; lia|]. rewrite G2. auto.
    - rewrite heads_app by (rewrite ?repeat_length; auto).
      assert (E : nth 0 (repeat UNKNOWN n) 0 = UNKNOWN) by (destruct n; [lia|reflexivity]).
      rewrite E. simpl. rewrite G2. auto.
  Qed.

  Definition ext2 (v w : list Z) : Prop := Forall2 (fun a x => a = UNKNOWN \/ x = a) v w.
  Lemma merged_ext w : ext2 v w -> ext2 (heads ms v) (group_sums ms w).
  Proof.
    revert w. clear -HM. induction HM as [|x ns v ms Hx HM' IH|n ns v ms Hn HM' IH]; intros w Hw.
    - constructor.
    - inversion Hw as [|? y ? w0 H1 H2]; subst. simpl. constructor; [|now apply IH].
      unfold zsum. simpl. destruct H1 as [?|H1]; [contradiction|]. right. lia.
    - assert (HL := Forall2_len _ _ _ Hw). rewrite app_length, repeat_length in HL.
      destruct (split_at n w ltac:(lia)) as (a & b & -> & Ha).
      apply Forall2_app_split in Hw; [|now rewrite repeat_length]. destruct Hw as [_ Hw].
      rewrite heads_app by (rewrite ?repeat_length; auto). rewrite group_sums_app by auto.
      constructor; [|now apply IH]. left. destruct n; [lia|reflexivity].
  Qed.

  Lemma split_exists bd : (forall x, In x bd -> 0 <= x) -> forall c, 0 <= c <= zsum bd ->
    exists y, length y = length bd /\ zsum y = c /\ Forall2 Z.le y bd /\ forall x, In x y -> 0 <= x.
  Proof.
    clear. induction bd as [|b bd IH]; intros Hb c Hc.
    - exists []. unfold zsum in *. simpl in *. repeat split; try constructor; try lia; easy.
    - rewrite zsum_cons in Hc. assert (0 <= b) by (apply Hb; now left).
      destruct (IH ltac:(intros; apply Hb; now right) (c - Z.min b c)) as (y & H1 & H2 & H3 & H4).
      { assert (0 <= zsum bd) by (clear -Hb; assert (G : forall x, In x bd -> 0 <= x) by (intros; apply Hb; now right); clear Hb;
          induction bd as [|a bd IH]; [unfold zsum; simpl; lia|]; rewrite zsum_cons; specialize (IH ltac:(intros; apply G; now right));
          specialize (G a (or_introl eq_refl)); lia). lia. }
      exists (Z.min b c :: y). simpl. repeat split; auto.
      + rewrite zsum_cons. lia.
      + constructor; auto. lia.
      + intros x [<-|Hx]; auto. lia.
  Qed.

  (** every solution of the merged buckets comes from one of the original *)
  Lemma merged_back s bd w' : length s = length v -> (forall x, In x s -> 1 <= x) ->
    Forall2 Z.le bd (sel v s) -> (forall x, In x bd -> 0 <= x) ->
    ext2 (heads ms v) w' -> Forall2 (fun x r => 0 <= x <= r) w' (group_sums ms s) ->
    Forall2 Z.le (sel (heads ms v) w') (group_sums ns bd) ->
    exists w, length w = length v /\ ext2 v w /\ Forall2 (fun x r => 0 <= x <= r) w s
      /\ group_sums ms w = w' /\ Forall2 Z.le (sel v w) bd.
  Proof.
    revert s bd w'. clear -HM. induction HM as [|x ns v ms Hx HM' IH|n ns v ms Hn HM' IH]; intros s bd w' Hs Hs1 Hbd Hbd0 HE HW HB.
    - destruct s; [|discriminate]. inversion HE; subst. inversion Hbd; subst. exists []. repeat split; constructor.
    - destruct s as [|s0 s]; [discriminate|]. simpl in HE. inversion HE as [|? y ? w0 E1 E2]; subst.
      simpl in HW. inversion HW as [|? ? ? ? W1 W2]; subst. simpl in Hbd, HB.
      destruct (is_unknown x) eqn:E; [unfold is_unknown in E; lia|].
      destruct (IH HM' s bd w0 ltac:(simpl in Hs; lia) ltac:(intros; apply Hs1; now right) Hbd Hbd0 E2 W2 HB)
        as (w & H1 & H2 & H3 & H4 & H5).
      exists (y :: w). simpl. rewrite E. repeat split; auto.
      + constructor; auto.
      + constructor; auto. unfold zsum in W1. simpl in W1. lia.
      + rewrite H4. unfold zsum. simpl. now rewrite Z.add_0_r.
    - rewrite app_length, repeat_length in Hs. destruct (split_at n s ltac:(lia)) as (sa & sb & -> & Hsa).
      rewrite app_length in Hs. rewrite sel_unknown in Hbd by auto.
      assert (HL := Forall2_len _ _ _ Hbd). rewrite app_length in HL.
      destruct (split_at n bd ltac:(lia)) as (ba & bb & -> & Hba). apply Forall2_app_split in Hbd; [|lia].
      destruct Hbd as [Hbda Hbdb]. rewrite heads_app in HE, HB by (rewrite ?repeat_length; auto).
      rewrite group_sums_app in HW, HB by auto.
      inversion HE as [|? c ? w0 E1 E2]; subst. inversion HW as [|? ? ? ? W1 W2]; subst.
      assert (E : nth 0 (repeat UNKNOWN (length sa)) 0 = UNKNOWN) by (destruct (length sa); [lia|reflexivity]).
      rewrite E in HB. cbn [sel] in HB. change (is_unknown UNKNOWN) with true in HB. cbv iota in HB.
      inversion HB as [|? ? ? ? B1 B2]; subst.
      destruct (IH HM' sb bb w0 ltac:(lia) ltac:(intros; apply Hs1, in_app_iff; now right) Hbdb
                   ltac:(intros; apply Hbd0, in_app_iff; now right) E2 W2 B2) as (w & H1 & H2 & H3 & H4 & H5).
      destruct (split_exists ba) with (c := c) as (y & Y1 & Y2 & Y3 & Y4).
      { intros; apply Hbd0, in_app_iff; now left. } { lia. }
      exists (y ++ w). rewrite app_length, app_length, repeat_length. split; [lia|]. split; [|split; [|split]].
      + apply Forall2_app; auto. rewrite <- Hba, <- Y1. clear. induction y; simpl; constructor; auto.
      + apply Forall2_app; auto. clear -Y1 Y3 Y4 Hbda Hba. revert y sa Y1 Y3 Y4 Hbda Hba.
        induction ba as [|b ba IH]; intros [|y0 y] [|s0 sa] Y1 Y3 Y4 Hb Hba; simpl in *; try lia; constructor.
        * inversion Y3; subst. inversion Hb; subst. specialize (Y4 y0 (or_introl eq_refl)). lia.
        * inversion Y3; subst. inversion Hb; subst. apply IH; auto; lia.
      + rewrite group_sums_app by lia. now rewrite Y2, H4.
      + rewrite sel_unknown by lia. apply Forall2_app; auto.
  Qed.
End merged.

(** ** reduce_col *)
Lemma repeat1_group_sums x : group_sums (repeat 1%nat (length x)) x = x.
Proof. induction x as [|a x IH]; simpl; auto. rewrite IH. unfold zsum. simpl. now rewrite Z.add_0_r. Qed.
Lemma column_differ i j rows : column i rows <> column j rows -> exists row, In row rows /\ nth i row 0 <> nth j row 0.
Proof.
  induction rows as [|r rows IH]; intros H; [now contradict H|].
  destruct (Z.eq_dec (nth i r 0) (nth j r 0)) as [E|E]; [|exists r; split; [now left|auto]].
  destruct IH as (row & H1 & H2).
  - intros E2. apply H. unfold column in *. simpl. congruence.
  - exists row. split; auto. now right.
Qed.
Lemma group_sums_nonneg ns : forall x, (forall a, In a x -> 0 <= a) -> forall a, In a (group_sums ns x) -> 0 <= a <= zsum x.
Proof.
  induction ns as [|n ns IH]; intros x Hx a Ha; [easy|]. simpl in Ha.
  assert (P : forall l, (forall a, In a l -> 0 <= a) -> 0 <= zsum l).
  { clear. induction l as [|b l IH]; intros H; [unfold zsum; simpl; lia|]. rewrite zsum_cons.
    specialize (IH ltac:(intros; apply H; now right)). specialize (H b (or_introl eq_refl)). lia. }
  assert (E : zsum x = zsum (firstn n x) + zsum (skipn n x)) by (rewrite <- zsum_app, firstn_skipn; reflexivity).
  assert (F : forall a, In a (firstn n x) -> 0 <= a) by (intros b Hb; apply Hx; rewrite <- (firstn_skipn n x); apply in_app_iff; now left).
  assert (G : forall a, In a (skipn n x) -> 0 <= a) by (intros b Hb; apply Hx; rewrite <- (firstn_skipn n x); apply in_app_iff; now right).
  pose proof (P _ F). pose proof (P _ G). destruct Ha as [<-|Ha]; [lia|]. apply IH in Ha; auto. lia.
Qed.

Lemma skipn_plus {X} n m : forall l : list X, skipn n (skipn m l) = skipn (m + n) l.
Proof. induction m as [|m IH]; intros l; [reflexivity|]. destruct l; simpl; [apply skipn_nil|apply IH]. Qed.
Lemma zsum_pick_blocks ns : forall p x, (p + natsum ns <= length x)%nat ->
  map (fun ls => zsum (pick 0 ls x)) (blocks p ns) = group_sums ns (skipn p x).
Proof.
  induction ns as [|n ns IH]; intros p x H; [reflexivity|]. simpl in H. cbn [blocks map group_sums]. f_equal.
  - f_equal. clear IH. revert p x H. induction n as [|n IH]; intros p x H; [reflexivity|].
    unfold pick in *. cbn [seq map]. destruct (skipn p x) as [|a t] eqn:E.
    { apply (f_equal (@length Z)) in E. rewrite skipn_length in E. simpl in E. lia. }
    cbn [firstn]. f_equal.
    + rewrite <- (Nat.add_0_r p), <- nth_skipn, E. reflexivity.
    + rewrite IH by lia. f_equal. replace (S p) with (p + 1)%nat by lia. rewrite <- skipn_plus, E. reflexivity.
  - rewrite IH by lia. now rewrite skipn_plus.
Qed.

Section reduce.
  Variable Q : question.
  Let C := mcols (qA Q).
  Hypothesis HQ : question_ok Q.
  Hypothesis Hadj : equal_columns_adjacent C (mrows (qA Q)).
  Hypothesis HR : (2 <= C)%nat -> (1 <= length (qb Q) <= 64)%nat.
  Hypothesis Hsum : zsum (qbounds Q) <= 127.
  Hypothesis Hroom : forall j, (j < C)%nat -> nth j (qbounds Q) 0 <= room (qans Q) (nth j (open (qans Q)) 0%nat).
  Hypothesis Hnext : forall j, (S j < C)%nat -> (forall row, In row (mrows (qA Q)) -> nth j row 0 = nth (S j) row 0) ->
    nth (S j) (open (qans Q)) 0%nat = S (nth j (open (qans Q)) 0%nat).

  Let s := diff (edges (qans Q)).
  Let v := av (qans Q).
  Lemma rd_shell : shell s Q.
  Proof. now apply ok_shell. Qed.
  Lemma rd_s : length s = length v /\ forall x, In x s -> 1 <= x.
  Proof. destruct (i_rooms _ _ rd_shell) as (_ & _ & H & H'). auto. Qed.
  Lemma rd_rooms_sel : map (room (qans Q)) (open (qans Q)) = sel v s.
  Proof.
    destruct rd_s as [H _]. rewrite <- sel_pick by (unfold v; auto). rewrite open_unknown. unfold pick, unknown_loc, v.
    apply map_ext_in. intros i Hi. apply where_spec with (d := 0) in Hi. apply (rooms_room s); [apply (i_rooms _ _ rd_shell)|lia].
  Qed.
  Lemma rd_bd_sel : Forall2 Z.le (qbounds Q) (sel v s).
  Proof.
    pose proof (i_bdlen _ _ rd_shell) as H1. pose proof (i_ul _ _ rd_shell) as H2. unfold qcols in *.
    rewrite <- rd_rooms_sel. apply (Forall2_nth _ 0 0).
    - rewrite map_length, open_unknown. congruence.
    - intros j Hj. rewrite (nth_map_in _ _ _ 0%nat) by (rewrite open_unknown; lia). apply Hroom. unfold C. lia.
  Qed.

  Section sizes.
    Variables (ks : list Z) (ns ms : list nat).
    Hypothesis HL : length ks = length ns.
    Hypothesis HN : NoDup ks.
    Hypothesis Hn : forall n, In n ns -> (1 <= n)%nat.
    Hypothesis HC : natsum ns = C.
    Hypothesis Hks : forall i j, (i < C)%nat -> (j < C)%nat ->
      (nth i (runs ks ns) 0 = nth j (runs ks ns) 0 <-> forall row, In row (mrows (qA Q)) -> nth i row 0 = nth j row 0).
    Hypothesis HM : merged ns v ms.

    Let s' := group_sums ms s.
    Let Q' := Qst (Mat (length ns) (map (pick 0 (nstarts 0 ns)) (mrows (qA Q)))) (qb Q) (qquota Q)
                  (group_sums ns (qbounds Q)) (Ans (heads ms v) (starts 0 s') (zsum s')).

    Lemma rs_row row : In row (mrows (qA Q)) -> row = runs (pick 0 (nstarts 0 ns) row) ns
      /\ length (pick 0 (nstarts 0 ns) row) = length ns.
    Proof.
      intros Hr. destruct (i_rows _ _ rd_shell _ Hr) as [L _]. fold C in L. unfold qcols in L. fold C in L.
      destruct (factor (runs ks ns) row) as (f & Ef).
      { rewrite runs_length by auto. lia. }
      { rewrite runs_length, HC by auto. intros i j Hi Hj E. exact (proj1 (Hks i j Hi Hj) E row Hr). }
      rewrite runs_map in Ef. rewrite Ef, pick_nstarts_runs by (rewrite ?map_length; auto).
      rewrite map_length. auto.
    Qed.
    Lemma rs_ms : forall n, In n ms -> (1 <= n)%nat.
    Proof. exact (merged_ge _ _ _ HM). Qed.
    Lemma rs_len : length s = natsum ms.
    Proof. destruct rd_s as [H _]. rewrite H. exact (merged_length _ _ _ HM). Qed.
    Lemma rs_zsum : zsum s' = alen (qans Q).
    Proof. unfold s'. rewrite group_sums_zsum by apply rs_len. destruct (i_rooms _ _ rd_shell) as (_ & H & _). auto. Qed.
    Lemma heads_length k : forall x, length (heads k x) = length k.
    Proof. clear. induction k as [|n k IH]; intros x; simpl; auto. Qed.
    Lemma group_sums_pos k : (forall n, In n k -> (1 <= n)%nat) -> forall x, length x = natsum k ->
      (forall a, In a x -> 1 <= a) -> forall a, In a (group_sums k x) -> 1 <= a.
    Proof.
      clear. induction k as [|n k IH]; intros Hk x Hx Hp a Ha; [easy|]. simpl in Hx.
      destruct (split_at n x ltac:(lia)) as (y & z & -> & Hy). rewrite group_sums_app in Ha by auto.
      rewrite app_length in Hx. assert (1 <= n)%nat by (apply Hk; now left). destruct Ha as [<-|Ha].
      - destruct y as [|b y]; [simpl in Hy; lia|]. rewrite zsum_cons. assert (1 <= b) by (apply Hp; now left).
        assert (0 <= zsum y); [|lia]. assert (G : forall a, In a y -> 1 <= a) by (intros c Hc; apply Hp, in_app_iff; left; now right).
        clear -G. induction y as [|c y IH]; [unfold zsum; simpl; lia|]. rewrite zsum_cons.
        specialize (IH ltac:(intros; apply G; now right)). specialize (G c (or_introl eq_refl)). lia.
      - apply (IH ltac:(intros; apply Hk; now right) z); auto; [lia|]. intros; apply Hp, in_app_iff; now right.
    Qed.
    Lemma rs_rooms : rooms s' (qans Q').
    Proof.
      unfold rooms. simpl. repeat split; auto.
      - unfold s'. now rewrite heads_length, group_sums_length.
      - apply group_sums_pos; [exact rs_ms|exact rs_len|apply rd_s].
    Qed.
    Lemma rs_shell : shell s' Q'.
    Proof.
      pose proof rd_shell as HS. constructor; unfold qcols; simpl.
      - intros row Hr. apply in_map_iff in Hr. destruct Hr as (r & <- & Hr). split; [now apply rs_row|].
        apply pick_bits. now apply (i_rows _ _ HS).
      - unfold mnrows. simpl. rewrite map_length. apply (i_blen _ _ HS).
      - apply (i_b _ _ HS).
      - apply group_sums_length.
      - intros x Hx. apply group_sums_nonneg in Hx; [lia|]. intros a Ha. apply (i_bd _ _ HS) in Ha. lia.
      - apply (i_quota _ _ HS).
      - exact rs_rooms.
      - exact (merged_count _ _ _ HM).
    Qed.

    Lemma rs_unknowns w : length w = length v -> unknowns Q' (group_sums ms w) = group_sums ns (unknowns Q w).
    Proof.
      intros Hw. unfold unknowns, unknown_loc. simpl. fold v.
      rewrite sel_pick by now rewrite heads_length, group_sums_length. rewrite sel_pick by auto.
      exact (merged_sel _ _ _ HM w Hw).
    Qed.
    Lemma rs_dot row w : In row (mrows (qA Q)) -> length w = length v ->
      dot (pick 0 (nstarts 0 ns) row) (unknowns Q' (group_sums ms w)) = dot row (unknowns Q w).
    Proof.
      intros Hr Hw. destruct (rs_row row Hr) as [E L]. rewrite rs_unknowns by auto. rewrite E at 2.
      symmetry. apply dot_group_sums; auto. rewrite unknowns_length. rewrite (i_ul _ _ rd_shell). unfold qcols. now fold C.
    Qed.
    Lemma ext_ext2 a w : extends a w <-> ext2 a w.
    Proof.
      clear. unfold extends, ext2. split.
      - intros [H1 H2]. apply (Forall2_nth _ 0 0); auto. 
      - intros H. pose proof (Forall2_len _ _ _ H) as HL. split; auto. exact (proj2 (Forall2_nth _ 0 0 a w HL) H).
    Qed.
    Lemma within2 r w : length w = length r -> (forall i, (i < length r)%nat -> 0 <= nth i w 0 <= nth i r 0) <->
      Forall2 (fun x y => 0 <= x <= y) w r.
    Proof. clear. intros H. rewrite <- (Forall2_nth _ 0 0) by auto. rewrite H. reflexivity. Qed.
    Lemma group_sums_within k : forall w r, length w = natsum k -> Forall2 (fun x y => 0 <= x <= y) w r ->
      Forall2 (fun x y => 0 <= x <= y) (group_sums k w) (group_sums k r).
    Proof.
      clear. induction k as [|n k IH]; intros w r Hw HF; [constructor|]. simpl in Hw. pose proof (Forall2_len _ _ _ HF) as HL.
      destruct (split_at n w ltac:(lia)) as (a & b & -> & Ha). destruct (split_at n r ltac:(lia)) as (c & d & -> & Hc).
      destruct (Forall2_app_split _ a b c d ltac:(lia) HF) as [H1 H2]. rewrite !group_sums_app by auto.
      rewrite app_length in Hw. constructor; [|apply IH; auto; lia].
      clear -H1. induction H1; [unfold zsum; simpl; lia|]. rewrite !zsum_cons. lia.
    Qed.
    Lemma rs_ul w : length (unknowns Q w) = C.
    Proof. rewrite unknowns_length. apply (i_ul _ _ rd_shell). Qed.

    Lemma rs_forth w : solw s Q w -> solw s' Q' (group_sums ms w).
    Proof.
      intros [W1 W2 W3 W4 W5]. pose proof W1 as [L1 _]. fold v in L1. destruct rd_s as [Ls Ls1]. constructor.
      - apply ext_ext2. simpl. apply (merged_ext _ _ _ HM). now apply ext_ext2.
      - apply within2; [unfold s'; now rewrite !group_sums_length|]. apply group_sums_within.
        + rewrite <- rs_len. lia.
        + apply within2; auto. lia.
      - intros row x Hin. unfold qsys, msys in Hin. simpl in Hin. rewrite combine_map2_l in Hin.
        apply in_map_iff in Hin. destruct Hin as ([r y] & E & Hin). injection E as <- <-.
        rewrite rs_dot by (auto; now apply in_combine_l in Hin). apply (W3 r y Hin).
      - rewrite rs_unknowns by auto. rewrite group_sums_zsum by (rewrite rs_ul; auto). exact W4.
      - rewrite rs_unknowns by auto. change (qbounds Q') with (group_sums ns (qbounds Q)).
        assert (G : Forall2 Z.le (unknowns Q w) (qbounds Q)).
        { apply (Forall2_nth _ 0 0); rewrite rs_ul; [symmetry; apply (i_bdlen _ _ rd_shell)|]. exact W5. }
        apply (group_sums_le ns) in G; [|rewrite rs_ul; auto]. intros j Hj.
        refine (proj2 (Forall2_nth _ 0 0 _ _ _) G j _); rewrite ?group_sums_length; auto.
    Qed.
    Lemma rs_back w' : solw s' Q' w' -> exists w, solw s Q w /\ group_sums ms w = w'.
    Proof.
      intros [W1 W2 W3 W4 W5]. pose proof W1 as [L1 _]. simpl in L1. rewrite heads_length in L1. destruct rd_s as [Ls Ls1].
      assert (EU : unknowns Q' w' = sel (heads ms v) w').
      { unfold unknowns, unknown_loc. simpl. apply sel_pick. now rewrite heads_length. }
      destruct (merged_back _ _ _ HM s (qbounds Q) w') as (w & H1 & H2 & H3 & H4 & H5); auto.
      - exact rd_bd_sel.
      - intros x Hx. apply (i_bd _ _ rd_shell) in Hx. lia.
      - now apply ext_ext2.
      - apply within2; auto. unfold s'. rewrite group_sums_length. lia.
      - rewrite <- EU. apply (Forall2_nth _ 0 0).
        + rewrite unknowns_length, group_sums_length. exact (merged_count _ _ _ HM).
        + intros i Hi. rewrite unknowns_length in Hi. rewrite (merged_count _ _ _ HM : length (unknown_loc (qans Q')) = _) in Hi. now apply W5.
      - exists w. split; auto. constructor.
        + now apply ext_ext2.
        + apply within2; auto. lia.
        + intros row x Hin. pose proof (in_combine_l _ _ _ _ Hin) as Hr.
          rewrite <- rs_dot by auto. rewrite H4. apply W3. unfold qsys, msys. simpl. rewrite combine_map2_l.
          apply in_map_iff. exists (row, x). auto.
        + change (zsum (unknowns Q w) = qquota Q'). rewrite <- W4, <- H4, rs_unknowns by auto.
          rewrite group_sums_zsum; auto. rewrite rs_ul. auto.
        + assert (E : unknowns Q w = sel v w) by (apply sel_pick; auto).
          rewrite E. intros j Hj. refine (proj2 (Forall2_nth _ 0 0 _ _ _) H5 j _).
          * rewrite <- E, rs_ul. symmetry. apply (i_bdlen _ _ rd_shell).
          * rewrite <- E, rs_ul. exact Hj.
    Qed.

    Lemma rs_reduced : col_reduced Q Q' ns ms.
    Proof.
      constructor.
      - eapply shell_ok. apply rs_shell.
      - split; [|reflexivity]. intros n Hin. apply in_app_iff in Hin. destruct Hin; auto. now apply rs_ms.
      - simpl. rewrite map_map. rewrite <- (map_id (mrows (qA Q))) at 1. apply map_ext_in. intros row Hr.
        rewrite repeat_each_runs. now apply rs_row.
      - simpl. intros i j Hij.
        assert (N : nth i ks 0 <> nth j ks 0).
        { intros E. rewrite NoDup_nth in HN. specialize (HN i j ltac:(lia) ltac:(lia) E). lia. }
        assert (G : forall i, (i < length ns)%nat -> nth i ks 0 = nth (nth i (nstarts 0 ns) 0%nat) (runs ks ns) 0
                    /\ (nth i (nstarts 0 ns) 0 < C)%nat).
        { intros a Ha. split.
          - rewrite <- (pick_nstarts_runs ks ns HL Hn) at 1. unfold pick. rewrite (nth_map_in _ _ _ 0%nat); auto. now rewrite nstarts_length.
          - assert (In (nth a (nstarts 0 ns) 0%nat) (seq 0 (natsum ns))) as HI.
            { eapply Permutation_in; [apply (blocks_perm ns Hn 0)|]. apply in_app_iff. left. apply nth_In. now rewrite nstarts_length. }
            apply in_seq in HI. lia. }
        destruct (G i ltac:(lia)) as [E1 B1]. destruct (G j ltac:(lia)) as [E2 B2].
        assert (D : column (nth i (nstarts 0 ns) 0%nat) (mrows (qA Q)) <> column (nth j (nstarts 0 ns) 0%nat) (mrows (qA Q))).
        { intros E. apply N. rewrite E1, E2. apply Hks; auto. now apply column_eq. }
        destruct (column_differ _ _ _ D) as (row & Hr & Hd). exists (pick 0 (nstarts 0 ns) row). split; [now apply in_map|].
        unfold pick. rewrite !(nth_map_in _ _ _ 0%nat) by (rewrite nstarts_length; lia). exact Hd.
      - auto.
      - reflexivity.
      - rewrite rd_rooms_sel.
        assert (E : map (room (qans Q')) (open (qans Q')) = sel (heads ms v) s').
        { rewrite <- sel_pick by (unfold s'; now rewrite heads_length, group_sums_length). rewrite open_unknown.
          apply map_ext_in. intros i Hi. apply where_spec with (d := 0) in Hi. apply (rooms_room s'); [exact rs_rooms|].
          simpl in *. lia. }
        rewrite E. apply (merged_sel _ _ _ HM). apply rd_s.
      - intros w Hw. rewrite !open_values_unknowns. apply (solution_solw _ _ _ rd_shell) in Hw.
        split; [|apply rs_unknowns; apply (sw_ext _ _ _ Hw)].
        apply (solution_solw _ _ _ rs_shell). now apply rs_forth.
      - intros w' Hw. apply (solution_solw _ _ _ rs_shell) in Hw. destruct (rs_back w' Hw) as (w & H1 & H2).
        exists w. split; auto. now apply (solution_solw _ _ _ rd_shell).
    Qed.

    Lemma rs_body : (2 <= C)%nat -> map (fun j => pack (column j (mrows (qA Q)))) (seq 0 C) = runs ks ns ->
      reduce_col_body Q = Ok Q'.
    Proof.
      intros H2 E. pose proof rd_shell as HS. pose proof (i_blen _ _ HS) as Hb. pose proof (i_bdlen _ _ HS) as Hd.
      pose proof (i_ul _ _ HS) as Hu. unfold qcols in *. fold C in Hd, Hu.
      destruct (drops_ok ns Hn) as (D1 & D2 & D3 & D4).
      unfold reduce_col_body. fold C. destruct (Nat.ltb_spec C 2); [lia|]. unfold unique_encode. fold C.
      destruct (Nat.eqb_spec (mnrows (qA Q)) 0) as [E0|_]; [specialize (HR H2); lia|]. cbn [bind].
      rewrite E, groups_runs by auto. rewrite Hd, Nat.ltb_irrefl. cbv zeta. rewrite (hd_blocks ns Hn 0). fold (drops 0 ns).
      rewrite zsum_pick_blocks by lia. change (skipn 0 (qbounds Q)) with (qbounds Q).
      rewrite Hu.
      assert (Ex : existsb (fun j => (C <=? j)%nat) (drops 0 ns) = false).
      { apply existsb_none. intros j Hj. specialize (D2 j Hj). lia. }
      rewrite Ex.
      assert (Ed : pick 0%nat (drops 0 ns) (unknown_loc (qans Q)) = drops 0 ms) by exact (merged_drops _ _ _ HM 0%nat).
      rewrite Ed. fold v. destruct rd_s as [Ls Ls1]. destruct (i_rooms _ _ HS) as (A1 & A2 & A3 & A4).
      rewrite (delete_drops ms v rs_ms (merged_length _ _ _ HM)).
      rewrite A1, (delete_drops ms (starts 0 s) rs_ms) by (rewrite starts_length; apply rs_len).
      rewrite heads_starts by (try exact rs_ms; apply rs_len). fold s'.
      assert (Hpos : forall x, In x (group_sums ns (qbounds Q)) -> 0 <= x <= 127).
      { intros x Hx. apply group_sums_nonneg in Hx; [lia|]. intros a Ha. apply (i_bd _ _ HS) in Ha. lia. }
      rewrite map_i8_id by (intros x Hx; apply Hpos in Hx; lia). rewrite nonneg_true by (intros x Hx; now apply Hpos in Hx).
      cbn [assert_ bind]. rewrite <- rs_zsum. destruct rs_rooms as (R1 & R2 & R3 & R4).
      rewrite mk_answer_rooms by auto. cbn [bind]. unfold answer_fits. cbn [mcols]. rewrite nstarts_length.
      assert (Ec : length (unknown_loc (Ans (heads ms v) (starts 0 s') (zsum s'))) = length ns) by exact (merged_count _ _ _ HM).
      rewrite Ec, Nat.eqb_refl. reflexivity.
    Qed.
  End sizes.

  Lemma rd_enc i j : (2 <= C)%nat -> (i < C)%nat -> (j < C)%nat ->
    (nth i (map (fun j => pack (column j (mrows (qA Q)))) (seq 0 C)) 0 = nth j (map (fun j => pack (column j (mrows (qA Q)))) (seq 0 C)) 0
     <-> forall row, In row (mrows (qA Q)) -> nth i row 0 = nth j row 0).
  Proof.
    intros H2 Hi Hj. rewrite !(nth_map_in _ _ _ 0%nat) by now rewrite seq_length. rewrite !nth_seq0 by auto. split.
    - intros E. apply column_eq. pose proof rd_shell as HS. apply pack_inj64; auto.
      + apply column_bits. intros r Hr. now apply (i_rows _ _ HS).
      + apply column_bits. intros r Hr. now apply (i_rows _ _ HS).
      + now rewrite !column_length.
      + rewrite column_length. pose proof (i_blen _ _ HS) as Hb. unfold mnrows in Hb. specialize (HR H2). lia.
    - intros E. f_equal. unfold column. apply map_ext_in. auto.
  Qed.

  Lemma reduce_body_proof : exists Q' ns ms, reduce_col_body Q = Ok Q' /\ col_reduced Q Q' ns ms.
  Proof.
    pose proof rd_shell as HS. pose proof (i_ul _ _ HS) as Hu. unfold qcols in Hu. fold C in Hu.
    pose proof Hnext as Hnext'. rewrite open_unknown in Hnext'.
    assert (G : exists ks ns, length ks = length ns /\ NoDup ks /\ (forall n, In n ns -> (1 <= n)%nat) /\ natsum ns = C
      /\ (forall i j, (i < C)%nat -> (j < C)%nat ->
           (nth i (runs ks ns) 0 = nth j (runs ks ns) 0 <-> forall row, In row (mrows (qA Q)) -> nth i row 0 = nth j row 0))
      /\ ((2 <= C)%nat -> map (fun j => pack (column j (mrows (qA Q)))) (seq 0 C) = runs ks ns)
      /\ ((C < 2)%nat -> ns = repeat 1%nat C)).
    { destruct (Nat.lt_ge_cases C 2) as [H|H].
      - exists (repeat 0 C), (repeat 1%nat C). rewrite !repeat_length. repeat split; auto.
        + destruct C as [|[|?]]; simpl; repeat constructor; try lia; easy.
        + intros n Hn. apply repeat_spec in Hn. lia.
        + apply natsum_ones.
        + intros _ row _. f_equal. lia.
        + intros _. assert (i = j) as -> by lia. reflexivity.
        + lia.
      - destruct (runs_exist (map (fun j => pack (column j (mrows (qA Q)))) (seq 0 C))) as (ks & ns & K1 & K2 & K3 & K4).
        { rewrite map_length, seq_length. intros i j k Hij Hk E. apply rd_enc; try lia. apply (Hadj i j k); auto. exact (proj1 (rd_enc i k H ltac:(lia) ltac:(lia)) E). }
        exists ks, ns. assert (E : natsum ns = C).
        { rewrite <- (runs_length ks) by auto. rewrite <- K4, map_length. apply seq_length. }
        repeat split; auto; try lia.
        + rewrite <- K4. intros E1. apply (proj1 (rd_enc i j H ltac:(lia) ltac:(lia))); auto.
        + rewrite <- K4. intros E1. apply rd_enc; auto. }
    destruct G as (ks & ns & K1 & K2 & K3 & K4 & K5 & K6 & K7).
    destruct (merged_exists v 0 ks ns K1 K3) as (ms & HM).
    { rewrite K4. symmetry. exact Hu. }
    { intros j Hj E. apply Hnext'; [lia|]. apply K5; auto; lia. }
    destruct (Nat.lt_ge_cases C 2) as [H|H].
    - eexists _, ns, ms. split; [|exact (rs_reduced ks ns ms K1 K2 K3 K4 K5 HM)].
      unfold reduce_col_body. fold C. destruct (Nat.ltb_spec C 2); [|lia]. f_equal.
      assert (M1 : ms = repeat 1%nat (length v)).
      { assert (G : forall n, In n ns -> n = 1%nat) by (intros n Hn; rewrite (K7 H) in Hn; now apply repeat_spec in Hn).
        clear -HM G. induction HM as [|x ns v ms Hx HM' IH|n ns v ms Hn HM' IH]; simpl; auto.
        - f_equal. auto.
        - rewrite (G n (or_introl eq_refl)). simpl. f_equal. apply IH; auto. intros; apply G; now right. }
      assert (Hh : forall x, heads (repeat 1%nat (length x)) x = x) by (clear; induction x; simpl; congruence).
      destruct rd_s as [Ls Ls1]. pose proof (i_rooms _ _ HS) as (A1 & A2 & A3 & A4).
      rewrite M1, Hh, <- Ls, repeat1_group_sums, <- A1, <- A2.
      assert (Eb : group_sums ns (qbounds Q) = qbounds Q).
      { rewrite (K7 H). rewrite <- (i_bdlen _ _ HS : length (qbounds Q) = C). apply repeat1_group_sums. }
      assert (Er : map (pick 0 (nstarts 0 ns)) (mrows (qA Q)) = mrows (qA Q)).
      { rewrite <- (map_id (mrows (qA Q))) at 2. apply map_ext_in. intros row Hr. rewrite (K7 H), nstarts_ones.
        destruct (i_rows _ _ HS row Hr) as [L _]. unfold qcols in L. fold C in L. rewrite <- L. apply map_nth_seq. }
      rewrite Eb, Er. rewrite (K7 H), repeat_length. unfold C, v. destruct Q as [[c r] b q bd [a1 a2 a3]]. reflexivity.
    - eexists _, ns, ms. split; [eapply (rs_body ks ns ms); eauto|exact (rs_reduced ks ns ms K1 K2 K3 K4 K5 HM)].
  Qed.

  (** with the checks made after the step *)
  Lemma reduce_col_proof : exists Q' ns ms, col_reduced Q Q' ns ms
    /\ (reduce_col Q = Ok Q' \/ reduce_col Q = NoSolution /\ forall w, ~ solution Q w).
  Proof.
    destruct reduce_body_proof as (Q' & ns & ms & E & HR'). exists Q', ns, ms. split; auto.
    unfold reduce_col. rewrite E. cbn [bind].
    destruct (post_check_proof Q' (rd_ok _ _ _ _ HR')) as [H|[H F]]; auto.
    right. split; auto. intros w Hw. apply (F (group_sums ms w)). now apply (rd_forth _ _ _ _ HR').
  Qed.
End reduce.

Lemma reducible_proof Q : reducible Q -> exists Q' ns ms, col_reduced Q Q' ns ms
  /\ (reduce_col Q = Ok Q' \/ reduce_col Q = NoSolution /\ forall w, ~ solution Q w).
Proof. intros [H1 H2 H3 H4 H5 H6]. now apply reduce_col_proof. Qed.
Lemma reduced_room_proof Q Q' ns ms : col_reduced Q Q' ns ms ->
  qbounds Q = map (room (qans Q)) (open (qans Q)) -> qbounds Q' = map (room (qans Q')) (open (qans Q')).
Proof. intros H E. rewrite (rd_bounds _ _ _ _ H), (rd_room _ _ _ _ H). congruence. Qed.
