(** heapq on the array: a heap stays a heap, the least item comes out; the
    elimination is the one of [ModelGauss]. *)
From Verif Require Import Np ModelGauss Spec Lib BitFacts Cone ElimFacts ModelHeapq HeapqSpec.
From Coq Require Import ZifyBool ZifyNat Sorting.Sorted Sorting.Permutation.

Section Heap.
Context {T : Type} (lt : T -> T -> bool) (d : T) (HO : strict_order lt).
Local Notation le x y := (lt y x = false).

Lemma le_refl' x : le x x.
Proof. destruct (lt x x) eqn:E; auto. pose proof (proj1 HO _ _ E). congruence. Qed.
Lemma le_trans' x y z : le x y -> le y z -> le x z.
Proof. intros. now apply (proj2 HO x y z). Qed.
Lemma lt_le x y : lt x y = true -> le x y.
Proof. apply (proj1 HO). Qed.

Definition child (i c : nat) : Prop := (c = 2 * i + 1 \/ c = 2 * i + 2)%nat.
Definition hole (h : list T) (p : nat) : Prop :=
  (forall i c, child i c -> (c < length h)%nat -> i <> p -> c <> p -> le (nth i h d) (nth c h d))
  /\ (forall i c, child i p -> child p c -> (c < length h)%nat -> le (nth i h d) (nth c h d)).
Definition heap_n (h : list T) : Prop :=
  forall i c, child i c -> (c < length h)%nat -> le (nth i h d) (nth c h d).

Lemma heap_n_iff h : is_heap lt h <-> heap_n h.
Proof.
  split.
  - intros H i c Hc Hl. apply (H i c); [exact Hc| |]; apply nth_error_nth'; unfold child in Hc; lia.
  - intros H k c x y Hc Hx Hy.
    assert (Hl : (c < length h)%nat) by (apply nth_error_Some; congruence).
    pose proof (H k c Hc Hl) as E.
    now rewrite (nth_error_nth _ _ _ Hx), (nth_error_nth _ _ _ Hy) in E.
Qed.

Lemma set_same i (x : T) l : (i < length l)%nat -> nth i (set_nth i x l) d = x.
Proof. revert i. induction l as [|a l IH]; intros [|i] H; simpl in *; try lia; auto. apply IH. lia. Qed.
Lemma set_other i j (x : T) l : i <> j -> nth j (set_nth i x l) d = nth j l d.
Proof. revert i j. induction l as [|a l IH]; intros [|i] [|j] H; simpl; auto; try congruence. Qed.
Lemma set_exchange i (a : T) l : (i < length l)%nat -> Permutation (nth i l d :: set_nth i a l) (a :: l).
Proof.
  revert i. induction l as [|x l IH]; intros [|i] H; simpl in *; try lia; [apply perm_swap|].
  rewrite perm_swap. rewrite (IH i ltac:(lia)). apply perm_swap.
Qed.
Lemma set_swap i j (a : T) l : i <> j -> (i < length l)%nat -> (j < length l)%nat ->
  Permutation (set_nth i a (set_nth j (nth i l d) l)) (set_nth j a l).
Proof.
  intros Hij Hi Hj. set (c := nth i l d). set (l1 := set_nth j c l).
  assert (E1 : Permutation (c :: set_nth i a l1) (a :: l1)).
  { replace c with (nth i l1 d) by (unfold l1; now rewrite set_other by auto).
    apply set_exchange. unfold l1. now rewrite set_nth_length. }
  assert (E2 : Permutation (nth j l d :: l1) (c :: l)) by now apply set_exchange.
  assert (E3 : Permutation (nth j l d :: set_nth j a l) (a :: l)) by now apply set_exchange.
  apply (Permutation_cons_inv (a := nth j l d)). apply (Permutation_cons_inv (a := c)).
  rewrite perm_swap, E1. rewrite perm_swap, E2. rewrite perm_swap. now rewrite E3.
Qed.

Lemma div2_child p : (0 < p)%nat -> child (Nat.div2 (p - 1)) p.
Proof. intros H. unfold child. rewrite Nat.div2_div. pose proof (Nat.div_mod (p - 1) 2 ltac:(lia)). pose proof (Nat.mod_upper_bound (p - 1) 2 ltac:(lia)). lia. Qed.

Lemma place h p x : (p < length h)%nat -> hole h p ->
  (forall c, child p c -> (c < length h)%nat -> le x (nth c h d)) ->
  (forall i, child i p -> le (nth i h d) x) -> heap_n (set_nth p x h).
Proof.
  intros Hp (H1 & _) Hc Hi i c Hic Hl. rewrite set_nth_length in Hl.
  assert (i <> c) by (unfold child in Hic; lia).
  destruct (Nat.eq_dec i p) as [->|Ni].
  - rewrite set_same, set_other by auto. now apply Hc.
  - destruct (Nat.eq_dec c p) as [->|Nc].
    + rewrite set_same, set_other by auto. now apply Hi.
    + rewrite !set_other by auto. now apply H1.
Qed.

Lemma siftdown_ok n : forall h p x, (p <= n)%nat -> (p < length h)%nat -> hole h p ->
  (forall c, child p c -> (c < length h)%nat -> le x (nth c h d)) ->
  heap_n (siftdown lt d n h p x) /\ Permutation (siftdown lt d n h p x) (set_nth p x h).
Proof.
  induction n as [|n IH]; intros h p x Hn Hp HH Hc; simpl.
  - split; [|reflexivity]. apply place; auto. intros i Hi. unfold child in Hi. lia.
  - destruct (Nat.ltb_spec 0 p) as [H0|H0].
    2: { split; [|reflexivity]. apply place; auto. intros i Hi. unfold child in Hi. lia. }
    pose proof (div2_child p H0) as Hpar. set (q := Nat.div2 (p - 1)) in *.
    assert (Hq : (q < p)%nat) by (unfold child in Hpar; lia).
    destruct (lt x (nth q h d)) eqn:Ex.
    + destruct HH as (H1 & H2).
      destruct (IH (set_nth p (nth q h d) h) q x) as (A & B); try (rewrite ?set_nth_length; lia).
      * split.
        -- intros i c Hic Hl Hi Hcq. rewrite set_nth_length in Hl.
           assert (i <> c) by (unfold child in Hic; lia).
           destruct (Nat.eq_dec i p) as [->|Ni].
           ++ rewrite set_same, set_other by auto. now apply H2.
           ++ destruct (Nat.eq_dec c p) as [->|Nc]; [exfalso; unfold child in *; lia|].
              rewrite !set_other by auto. now apply H1.
        -- intros i c Hiq Hqc Hl. rewrite set_nth_length in Hl.
           assert (Hip : p <> i) by (unfold child in *; lia).
           rewrite (set_other p i) by auto.
           assert (E : le (nth i h d) (nth q h d)) by (apply H1; unfold child in *; lia).
           destruct (Nat.eq_dec c p) as [->|Nc]; [now rewrite set_same by auto|].
           rewrite set_other by auto. eapply le_trans'; [exact E|]. apply H1; unfold child in *; lia.
      * intros c Hqc Hl. rewrite set_nth_length in Hl.
        destruct (Nat.eq_dec c p) as [->|Nc]; [rewrite set_same by auto; now apply lt_le|].
        rewrite set_other by auto. eapply le_trans'; [apply lt_le, Ex|]. apply H1; unfold child in *; lia.
      * split; [exact A|]. rewrite B. apply set_swap; lia.
    + split; [|reflexivity]. apply place; auto. intros i Hi.
      replace i with q by (unfold child in *; lia). exact Ex.
Qed.

Lemma siftup_ok n : forall h p x, (length h - p <= n)%nat -> (p < length h)%nat -> hole h p ->
  heap_n (siftup lt d n h p x) /\ Permutation (siftup lt d n h p x) (set_nth p x h).
Proof.
  induction n as [|n IH]; intros h p x Hn Hp HH; [lia|]. cbn [siftup]. cbv zeta.
  destruct (Nat.ltb_spec (2 * p + 1) (length h)) as [Hl|Hl].
  2: { apply siftdown_ok; auto. intros c Hc Hlc. unfold child in Hc. lia. }
  set (c := if _ && _ then _ else _).
  assert (Hc : child p c /\ (c < length h)%nat /\ forall c', child p c' -> (c' < length h)%nat -> le (nth c h d) (nth c' h d)).
  { unfold c. destruct (Nat.ltb_spec (2 * p + 1 + 1) (length h)) as [Hr|Hr]; cbn [andb].
    - destruct (lt (nth (2 * p + 1) h d) (nth (2 * p + 1 + 1) h d)) eqn:E; cbn [negb].
      + split; [unfold child; lia|]. split; [lia|]. intros c' [->| ->] _; [apply le_refl'|].
        replace (2 * p + 2)%nat with (2 * p + 1 + 1)%nat by lia. now apply lt_le.
      + split; [unfold child; lia|]. split; [lia|]. intros c' [->| ->] _; [exact E|].
        replace (2 * p + 2)%nat with (2 * p + 1 + 1)%nat by lia. apply le_refl'.
    - split; [unfold child; lia|]. split; [lia|]. intros c' [->| ->] H; [apply le_refl'|lia]. }
  clearbody c. destruct Hc as (Hpc & Hcl & Hmin). destruct HH as (H1 & H2).
  assert (Hlt : (p < c)%nat) by (unfold child in Hpc; lia).
  destruct (IH (set_nth p (nth c h d) h) c x) as (A & B); try (rewrite ?set_nth_length; lia).
  - split.
    + intros i e Hie He Hi Hec. rewrite set_nth_length in He.
      assert (i <> e) by (unfold child in Hie; lia).
      destruct (Nat.eq_dec i p) as [->|Ni].
      * rewrite set_same, set_other by auto. now apply Hmin.
      * destruct (Nat.eq_dec e p) as [->|Ne].
        -- rewrite set_same, set_other by auto. now apply H2.
        -- rewrite !set_other by auto. now apply H1.
    + intros i e Hic Hce He. rewrite set_nth_length in He.
      replace i with p by (unfold child in *; lia).
      rewrite set_same by auto. rewrite set_other by (unfold child in *; lia).
      apply H1; unfold child in *; lia.
  - split; [exact A|]. rewrite B. apply set_swap; lia.
Qed.

Lemma heap_hole h : heap_n h -> hole h 0.
Proof. intros H. split; intros; [now apply H|]. unfold child in *. lia. Qed.

Lemma replace_ok a h x : heap_n (a :: h) ->
  heap_n (heapreplace lt d (a :: h) x) /\ Permutation (heapreplace lt d (a :: h) x) (x :: h).
Proof.
  intros H. unfold heapreplace. destruct (siftup_ok (length (a :: h)) (a :: h) 0 x) as (A & B); try (simpl; lia).
  - now apply heap_hole.
  - split; [exact A|]. rewrite B. reflexivity.
Qed.

Lemma heap_root h : heap_n h -> forall i, (i < length h)%nat -> le (nth 0 h d) (nth i h d).
Proof.
  intros H i. induction i as [i IH] using (well_founded_induction Wf_nat.lt_wf). intros Hi.
  destruct (Nat.eq_dec i 0) as [->|N]; [apply le_refl'|].
  pose proof (div2_child i ltac:(lia)) as Hc. set (q := Nat.div2 (i - 1)) in *.
  eapply le_trans'; [apply (IH q); unfold child in Hc; lia|]. now apply H.
Qed.
Lemma heap_least a h : heap_n (a :: h) -> forall y, In y (a :: h) -> le a y.
Proof. intros H y Hy. destruct (In_nth _ _ d Hy) as (i & Hi & <-). now apply (heap_root (a :: h)). Qed.

Lemma heap_prefix a x : heap_n (a ++ [x]) -> heap_n a.
Proof.
  intros H i c Hic Hl. pose proof (H i c Hic) as E. rewrite app_length in E.
  rewrite !app_nth1 in E by (unfold child in Hic; lia). apply E. simpl. lia.
Qed.

Lemma pop_ok h : h <> [] -> heap_n h -> exists x h',
  heappop lt d h = Some (x, h') /\ Permutation h (x :: h') /\ heap_n h' /\ (forall y, In y h' -> le x y).
Proof.
  intros Hne H. destruct (exists_last Hne) as (a & z & ->).
  assert (E : heappop lt d (a ++ [z]) = match a with [] => Some (z, []) | r :: _ => Some (r, heapreplace lt d a z) end).
  { unfold heappop. rewrite last_last, removelast_last. destruct a; reflexivity. }
  rewrite E. destruct a as [|r a].
  - exists z, []. split; [reflexivity|]. split; [reflexivity|]. split; [|simpl; tauto]. intros i c _ Hl. simpl in Hl. lia.
  - pose proof (heap_prefix _ _ H) as Ha. destruct (replace_ok r a z Ha) as (A & B).
    exists r, (heapreplace lt d (r :: a) z). split; [reflexivity|].
    assert (P : Permutation ((r :: a) ++ [z]) (r :: heapreplace lt d (r :: a) z)).
    { rewrite B. rewrite <- app_comm_cons. constructor. symmetry. apply Permutation_cons_append. }
    split; [exact P|]. split; [exact A|]. intros y Hy.
    apply (heap_least r (a ++ [z]) H). apply (Permutation_in y (Permutation_sym P)). now right.
Qed.

Lemma pop_all_ok n : forall h, (length h <= n)%nat -> heap_n h ->
  Permutation h (pop_all lt d n h) /\ StronglySorted (fun x y => le x y) (pop_all lt d n h).
Proof.
  induction n as [|n IH]; intros h Hn H.
  - destruct h; simpl in *; [|lia]. split; constructor.
  - simpl. destruct h as [|a h].
    + simpl. split; constructor.
    + destruct (pop_ok (a :: h) ltac:(discriminate) H) as (x & h' & E & P & Hh & Hm). rewrite E.
      pose proof (Permutation_length P) as PL. simpl in PL, Hn.
      destruct (IH h' ltac:(lia) Hh) as (P' & S'). split.
      * rewrite P. now constructor.
      * constructor; auto. apply Forall_forall. intros y Hy. apply Hm.
        apply (Permutation_in y (Permutation_sym P') Hy).
Qed.
End Heap.

Lemma pop_root {T} (lt : T -> T -> bool) d a h x h' : heappop lt d (a :: h) = Some (x, h') -> x = a.
Proof. destruct h as [|b h]; cbn; intros E; injection E; auto. Qed.

(** ** Entries and streams *)
Lemma entry_strict : strict_order entry_ltb.
Proof.
  unfold strict_order, entry_ltb, entry_leb. split.
  - intros x y. lia.
  - intros x y z. lia.
Qed.
Lemma stream_strict : strict_order stream_ltb.
Proof.
  unfold strict_order, stream_ltb, entry_ltb, entry_eqb, entry_leb. split.
  - intros x y. lia.
  - intros x y z. lia.
Qed.
Lemma entry_le x y : entry_ltb y x = false <-> ele x y.
Proof. unfold entry_ltb, ele. destruct (entry_leb x y); simpl; split; congruence. Qed.
Lemma stream_le s t : stream_ltb t s = false -> ele (fst (fst s)) (fst (fst t)).
Proof. rewrite ele_iff. unfold stream_ltb, entry_ltb, entry_eqb, entry_leb. lia. Qed.
Lemma ele_anti x y : ele x y -> ele y x -> x = y.
Proof. rewrite !ele_iff. destruct x as [[a b] c], y as [[a' b'] c']. unfold ekey, eidx, eval_. cbn. intros. repeat f_equal; lia. Qed.

Lemma ssorted_unique a : forall b, ssorted a -> ssorted b -> Permutation a b -> a = b.
Proof.
  induction a as [|x a IH]; intros [|y b] Ha Hb P; auto.
  - apply Permutation_nil in P. discriminate.
  - symmetry in P. apply Permutation_nil in P. discriminate.
  - inversion Ha as [|? ? Sa Fa]; inversion Hb as [|? ? Sb Fb]; subst.
    assert (x = y).
    { apply ele_anti.
      - assert (I : In y (x :: a)) by (apply (Permutation_in y (Permutation_sym P)); now left).
        destruct I as [->|I]; [apply ele_refl|]. rewrite Forall_forall in Fa. now apply Fa.
      - assert (I : In x (y :: b)) by (apply (Permutation_in x P); now left).
        destruct I as [->|I]; [apply ele_refl|]. rewrite Forall_forall in Fb. now apply Fb. }
    subst y. f_equal. apply IH; auto. eapply Permutation_cons_inv; eauto.
Qed.
Lemma ssorted_heap l : ssorted l -> heap_n entry_ltb no_entry l.
Proof.
  intros H i c Hic Hl. apply entry_le. assert (Hlt : (i < c)%nat) by (unfold child in Hic; lia). clear Hic.
  revert i c Hlt Hl. induction H as [|x l S IH F]; intros i c Hlt Hl; [simpl in Hl; lia|].
  destruct c as [|c]; [lia|]. simpl in Hl. destruct i as [|i]; cbn [nth].
  - rewrite Forall_forall in F. apply F, nth_In. lia.
  - apply IH; lia.
Qed.
Lemma popped_sorted l h : ssorted l -> heap_n entry_ltb no_entry h -> Permutation l h ->
  pop_all entry_ltb no_entry (length h) h = l.
Proof.
  intros Hl Hh P. destruct (pop_all_ok _ no_entry entry_strict (length h) h (Nat.le_refl _) Hh) as (P' & S').
  symmetry. apply ssorted_unique; auto.
  - clear - S'. induction S' as [|x l S IH F]; constructor; auto. eapply Forall_impl; [|exact F]. intros y. apply entry_le.
  - now rewrite P.
Qed.
(** the head of the sorted list is what [heappop] returns *)
Lemma pop_head m l h : ssorted (m :: l) -> heap_n entry_ltb no_entry h -> Permutation (m :: l) h ->
  exists h', heappop entry_ltb no_entry h = Some (m, h') /\ Permutation l h' /\ heap_n entry_ltb no_entry h'.
Proof.
  intros HS Hh P. assert (Hne : h <> []) by (intros ->; symmetry in P; now apply Permutation_nil_cons in P).
  destruct (pop_ok _ no_entry entry_strict h Hne Hh) as (x & h' & E & P1 & H1 & Hm).
  assert (x = m).
  { inversion HS as [|? ? S F]; subst. apply ele_anti.
    - assert (I : In m (x :: h')) by (apply (Permutation_in m P1), (Permutation_in m P); now left).
      destruct I as [->|I]; [apply ele_refl|]. now apply entry_le, Hm.
    - assert (I : In x (m :: l)) by (apply (Permutation_in x (Permutation_sym P)), (Permutation_in x (Permutation_sym P1)); now left).
      destruct I as [->|I]; [apply ele_refl|]. rewrite Forall_forall in F. now apply F. }
  subst x. exists h'. split; [exact E|]. split; [|exact H1].
  apply (Permutation_cons_inv (a := m)). now rewrite P.
Qed.

(** ** merge *)
Definition contents (s : stream) : list entry := fst (fst s) :: snd s.
Definition all_of (h : list stream) : list entry := concat (map contents h).
Lemma all_of_perm h h' : Permutation h h' -> Permutation (all_of h) (all_of h').
Proof. unfold all_of. intros P. rewrite <- !flat_map_concat_map. now apply Permutation_flat_map. Qed.
Lemma least_of h a : Forall (fun s => ssorted (contents s)) h ->
  (forall s, In s h -> ele a (fst (fst s))) -> Forall (ele a) (all_of h).
Proof.
  intros HF Ha. apply Forall_forall. intros y Hy. unfold all_of in Hy. apply in_concat in Hy as (l & Hl & Hy).
  apply in_map_iff in Hl as (s & <- & Hs). specialize (Ha s Hs). rewrite Forall_forall in HF. specialize (HF s Hs).
  unfold contents in *. inversion HF as [|? ? S F]; subst. destruct Hy as [<-|Hy]; auto.
  rewrite Forall_forall in F. eapply ele_trans; [exact Ha|]. now apply F.
Qed.
Lemma merge_loop_pop n v o s2 h : merge_loop (S n) ((v, o, []) :: s2 :: h) =
  match heappop stream_ltb no_stream ((v, o, []) :: s2 :: h) with Some (_, h') => v :: merge_loop n h' | None => [v] end.
Proof. reflexivity. Qed.
Lemma merge_loop_next n v o w r s2 h : merge_loop (S n) ((v, o, w :: r) :: s2 :: h) =
  v :: merge_loop n (heapreplace stream_ltb no_stream ((v, o, w :: r) :: s2 :: h) (w, o, r)).
Proof. reflexivity. Qed.
Lemma merge_loop_ok n : forall h, (length (all_of h) < n)%nat -> heap_n stream_ltb no_stream h ->
  Forall (fun s => ssorted (contents s)) h ->
  Permutation (all_of h) (merge_loop n h) /\ ssorted (merge_loop n h).
Proof.
  induction n as [|n IH]; intros h Hn Hh HF; [lia|].
  destruct h as [|s1 h]; [simpl; split; constructor|].
  destruct h as [|s2 h].
  { destruct s1 as [[v o] r]. unfold all_of. inversion HF as [|? ? HS _]; subst. cbn. rewrite app_nil_r. destruct r; (split; [reflexivity|exact HS]). }
  assert (HL : forall s, In s (s1 :: s2 :: h) -> ele (fst (fst s1)) (fst (fst s))).
  { intros s Hs. apply stream_le. apply (heap_least _ no_stream stream_strict _ _ Hh s Hs). }
  pose proof (least_of _ _ HF HL) as HM.
  destruct s1 as [[v o] [|w r]].
  - rewrite merge_loop_pop.
    destruct (pop_ok _ no_stream stream_strict ((v, o, []) :: s2 :: h) ltac:(discriminate) Hh) as (x & h' & E & P & H' & _).
    pose proof (pop_root _ _ _ _ _ _ E) as ->.
    match goal with |- context [heappop ?l ?d ?g] => replace (heappop l d g) with (Some ((v, o, []) : stream, h')) by (symmetry; exact E) end.
    assert (P' : Permutation (all_of (s2 :: h)) (all_of h')) by (apply all_of_perm; eapply Permutation_cons_inv; exact P).
    change (all_of ((v, o, []) :: s2 :: h)) with (v :: all_of (s2 :: h)) in *.
    destruct (IH h') as (A & B).
    + rewrite <- (Permutation_length P'). cbn [length] in Hn. lia.
    + exact H'.
    + apply Forall_forall. intros s Hs. rewrite Forall_forall in HF. apply HF.
      apply (Permutation_in s (Permutation_sym P)). now right.
    + split.
      * constructor. now rewrite P'.
      * constructor; auto. inversion HM as [|? ? _ HM']; subst. apply Forall_forall. intros y Hy.
        rewrite Forall_forall in HM'. apply HM'. apply (Permutation_in y (Permutation_sym P')), (Permutation_in y (Permutation_sym A)), Hy.
  - rewrite merge_loop_next.
    destruct (replace_ok _ no_stream stream_strict (v, o, w :: r) (s2 :: h) (w, o, r) Hh) as (H' & P).
    set (h' := heapreplace _ _ _ _) in *.
    pose proof (all_of_perm _ _ P) as P'.
    change (all_of ((w, o, r) :: s2 :: h)) with (w :: r ++ all_of (s2 :: h)) in P'.
    change (all_of ((v, o, w :: r) :: s2 :: h)) with (v :: w :: r ++ all_of (s2 :: h)) in *.
    destruct (IH h') as (A & B).
    + rewrite (Permutation_length P'). cbn [length] in Hn |- *. lia.
    + exact H'.
    + apply Forall_forall. intros s Hs. apply (Permutation_in s P) in Hs. rewrite Forall_forall in HF.
      destruct Hs as [<-|Hs]; [|apply HF; now right].
      specialize (HF _ (or_introl eq_refl)). unfold contents in *. cbn in *. now inversion HF.
    + split.
      * constructor. now rewrite <- P'.
      * constructor; auto. inversion HM as [|? ? _ HM']; subst. apply Forall_forall. intros y Hy.
        rewrite Forall_forall in HM'. apply HM'. apply (Permutation_in y P'), (Permutation_in y (Permutation_sym A)), Hy.
Qed.
Lemma streams_all ls : forall k, all_of (streams k ls) = concat ls.
Proof. induction ls as [|[|x l] ls IH]; intros k; [reflexivity|exact (IH (S k))|]. cbn [streams concat app]. change (all_of ((x, k, l) :: streams (S k) ls)) with ((x :: l) ++ all_of (streams (S k) ls)). now rewrite IH. Qed.
Lemma streams_sorted ls : forall k, Forall ssorted ls -> Forall (fun s => ssorted (contents s)) (streams k ls).
Proof.
  induction ls as [|[|x l] ls IH]; intros k H; cbn; [constructor| |]; inversion H; subst; [now apply IH|].
  constructor; [assumption|now apply IH].
Qed.
Lemma streams_length ls : forall k, (length (streams k ls) <= length ls)%nat.
Proof. induction ls as [|[|x l] ls IH]; intros k; cbn; [lia|specialize (IH (S k)); lia|specialize (IH (S k)); lia]. Qed.
Lemma heapify3_ok h : (length h <= 3)%nat -> heap_n stream_ltb no_stream (heapify3 h) /\ Permutation (heapify3 h) h.
Proof.
  intros Hl. destruct h as [|a [|b h]].
  - split; [|reflexivity]. intros i c _ H. simpl in H. lia.
  - split; [|reflexivity]. intros i c Hc H. unfold child in Hc. simpl in H. lia.
  - unfold heapify3.
    destruct (siftup_ok _ no_stream stream_strict (length (a :: b :: h)) (a :: b :: h) 0 a) as (A & B); try (simpl; lia).
    + split; intros i c H1 H2; unfold child in *; simpl in *; intros; lia.
    + split; [exact A|]. now rewrite B.
Qed.
Lemma merge_ok ls : (length ls <= 3)%nat -> Forall ssorted ls ->
  Permutation (concat ls) (merge ls) /\ ssorted (merge ls).
Proof.
  intros Hl HF. unfold merge. pose proof (streams_length ls 0).
  destruct (heapify3_ok (streams 0 ls) ltac:(lia)) as (A & B).
  pose proof (all_of_perm _ _ B) as P. rewrite streams_all in P.
  destruct (merge_loop_ok (S (length (concat ls))) (heapify3 (streams 0 ls))) as (C & D); auto.
  - rewrite (Permutation_length P). lia.
  - apply Forall_forall. intros s Hs. apply (Permutation_in s B) in Hs. revert s Hs. apply Forall_forall. now apply streams_sorted.
  - split; [|exact D]. eapply Permutation_trans; [symmetry; exact P|exact C].
Qed.
Lemma merge_two a b : ssorted a -> ssorted b -> merge [a; b] = merge_e a b.
Proof.
  intros Ha Hb. destruct (merge_ok [a; b] ltac:(simpl; lia) ltac:(auto)) as (P & S).
  apply ssorted_unique; auto; [now apply merge_e_sorted|]. rewrite <- P. cbn. rewrite app_nil_r. apply merge_e_perm.
Qed.
Lemma merge_three a b c : ssorted a -> ssorted b -> ssorted c -> merge [a; b; c] = merge_e a (merge_e b c).
Proof.
  intros Ha Hb Hc. destruct (merge_ok [a; b; c] ltac:(simpl; lia) ltac:(auto)) as (P & S).
  apply ssorted_unique; auto; [now repeat apply merge_e_sorted|]. rewrite <- P. cbn. rewrite app_nil_r.
  rewrite <- merge_e_perm. apply Permutation_app_head, merge_e_perm.
Qed.

(** ** The elimination *)
Lemma sub_mono m x y : ele x y -> ele (sub_entry m x) (sub_entry m y).
Proof. rewrite !ele_iff. unfold sub_entry, ekey, eidx, eval_. cbn. lia. Qed.
Lemma gauss_same h l : ssorted l -> heap_n entry_ltb no_entry h -> Permutation l h ->
  gauss_elim_q h = gauss_elim l.
Proof.
  intros HS Hh P. destruct l as [|m l].
  { apply Permutation_nil in P. subst h. reflexivity. }
  destruct (pop_head m l h HS Hh P) as (h' & E & P' & H').
  unfold gauss_elim_q. rewrite E. unfold gauss_elim.
  destruct (assert_ (0 <? ekey m)); cbn [bind]; auto.
  inversion HS as [|? ? Sl Fl]; subst. rewrite (popped_sorted l h' Sl H' P').
  assert (S1 : ssorted [m]) by (repeat constructor).
  assert (S2 : ssorted (filter (fun e => negb (reduces m e)) l)) by now apply ssorted_filter.
  assert (S3 : ssorted (remove_zerokeys (map (sub_entry m) (filter (reduces m) l)))).
  { apply ssorted_filter, ssorted_map; [apply sub_mono|]. now apply ssorted_filter. }
  cbv zeta. rewrite (merge_two [m]) by auto.
  destruct (map (sub_entry m) (filter (reduces m) l)) as [|e r]; auto.
  now rewrite merge_three by auto.
Qed.
Lemma gauss_sorted l b l' : ssorted l -> gauss_elim l = Ok (b, l') -> ssorted l' /\ (b = false -> l' = l).
Proof.
  intros HS. destruct l as [|m l]; [discriminate|]. unfold gauss_elim.
  destruct (assert_ (0 <? ekey m)); cbn [bind]; try discriminate.
  inversion HS as [|? ? Sl Fl]; subst.
  assert (S1 : ssorted [m]) by (repeat constructor).
  destruct (map (sub_entry m) (filter (reduces m) l)) as [|e r] eqn:ER.
  - intros H. assert (E' : l' = merge_e [m] (filter (fun e => negb (reduces m e)) l)) by congruence. clear H.
    assert (EF : filter (reduces m) l = []) by (now apply map_eq_nil in ER).
    assert (EL : filter (fun e => negb (reduces m e)) l = l).
    { clear - EF. induction l as [|x l IH]; cbn in *; auto. destruct (reduces m x); cbn; [discriminate|]. now rewrite IH. }
    rewrite E', EL, merge_e_single by auto. auto.
  - intros H. assert (Eb : b = true) by congruence.
    assert (E' : l' = merge_e [m] (merge_e (remove_zerokeys (e :: r)) (filter (fun e => negb (reduces m e)) l))) by congruence.
    clear H. rewrite Eb, E'. split; [|discriminate].
    apply merge_e_sorted; auto. apply merge_e_sorted; [|now apply ssorted_filter].
    rewrite <- ER. apply ssorted_filter, ssorted_map; [apply sub_mono|]. now apply ssorted_filter.
Qed.

(** states of the two loops *)
Definition same_state (s t : list entry * list entry) : Prop :=
  fst s = fst t /\ ssorted (fst t ++ snd t) /\ Permutation (snd t) (snd s) /\ heap_n entry_ltb no_entry (snd s).
Definition same_result (x y : (list entry * list entry) + res (list entry)) : Prop :=
  match x, y with inl s, inl t => same_state s t | inr r, inr r' => r = r' | _, _ => False end.
Lemma step_same s t : same_state s t -> same_result (elim_step_q s) (elim_step t).
Proof.
  destruct s as [hs hd], t as [hs' l]. intros (E & HS & P & Hh). cbn [fst snd] in *. subst hs'.
  unfold elim_step_q, elim_step. destruct l as [|m l].
  { apply Permutation_nil in P. subst hd. reflexivity. }
  destruct hd as [|x hd]; [symmetry in P; now apply Permutation_nil_cons in P|].
  pose proof (ssorted_app_r _ _ HS) as HSl. pose proof (ssorted_app_l _ _ HS) as HSh.
  rewrite (gauss_same _ _ HSl Hh P).
  destruct (gauss_elim (m :: l)) as [[[|] l']| |e] eqn:EG; try reflexivity.
  - destruct (gauss_sorted _ _ _ HSl EG) as (S' & _). rewrite merge_two by auto.
    pose proof (merge_e_sorted _ _ HSh S') as SM.
    split; [reflexivity|]. split; [exact SM|]. split; [reflexivity|]. now apply ssorted_heap.
  - destruct (gauss_sorted _ _ _ HSl EG) as (_ & ->); [|reflexivity].
    destruct (pop_head m l (m :: l) HSl (ssorted_heap _ HSl) (Permutation_refl _)) as (h' & E & P' & H'). rewrite E.
    split; [reflexivity|]. cbn [fst snd]. rewrite <- app_assoc. auto.
Qed.
Lemma iter_same n : forall s t, same_state s t -> same_result (iter2 n elim_step_q s) (iter2 n elim_step t).
Proof.
  induction n as [|n IH]; intros s t H; cbn [iter2]; [now apply step_same|].
  specialize (IH s t H) as H1.
  destruct (iter2 n elim_step_q s) as [s1|r1], (iter2 n elim_step t) as [t1|r2]; cbn [same_result] in H1; try contradiction.
  - now apply IH.
  - now subst.
Qed.
Theorem elim_same_proof A b : elim_q A b = elim A b.
Proof.
  unfold elim_q, elim. destruct (encode A b) as [E| |]; cbn [bind]; auto.
  assert (H : forall n, elim_core_q n E = elim_core n E); [|now rewrite H].
  intros n. unfold elim_core_q, elim_core. destruct (_ <=? 1)%nat; auto. unfold while_.
  pose proof (sort_e_sorted (remove_zerokeys E)) as S.
  assert (H : same_state ([], sort_e (remove_zerokeys E)) ([], sort_e (remove_zerokeys E))).
  { split; [reflexivity|]. split; [exact S|]. split; [reflexivity|]. now apply ssorted_heap. }
  pose proof (iter_same n _ _ H) as H1.
  destruct (iter2 n elim_step_q _) as [s1|r1], (iter2 n elim_step _) as [t1|r2]; cbn [same_result] in H1; try contradiction; congruence.
Qed.

(** ** Statements for [Properties] *)
Theorem heappop_proof {T} (lt : T -> T -> bool) d h : strict_order lt -> is_heap lt h -> h <> [] ->
  exists x h', heappop lt d h = Some (x, h') /\ Permutation h (x :: h') /\ is_heap lt h' /\ forall y, In y h' -> lt y x = false.
Proof.
  intros HO Hh Hne. destruct (pop_ok lt d HO h Hne (proj1 (heap_n_iff lt d h) Hh)) as (x & h' & E & P & H' & Hm).
  exists x, h'. repeat split; auto. now apply (heap_n_iff lt d).
Qed.
Theorem pop_all_proof {T} (lt : T -> T -> bool) d h : strict_order lt -> is_heap lt h ->
  Permutation h (pop_all lt d (length h) h) /\ StronglySorted (fun x y => lt y x = false) (pop_all lt d (length h) h).
Proof. intros HO Hh. apply pop_all_ok; auto. now apply heap_n_iff. Qed.
Theorem merge_proof ls : (length ls <= 3)%nat -> Forall (StronglySorted (fun x y => entry_leb x y = true)) ls ->
  Permutation (concat ls) (merge ls) /\ StronglySorted (fun x y => entry_leb x y = true) (merge ls).
Proof. exact (merge_ok ls). Qed.
