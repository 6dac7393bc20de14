(** Elimination on 64 columns or more (C86): the keys are 64-bit integers, so
    only the last 63 columns count, and the rows with a one in the column
    before those are lost. *)
From Coq Require Import ZifyBool ZifyNat.
From Verif Require Import Np ModelGauss Model Spec Lib BitFacts ElimFacts QFacts WidthProps Total.

(** ** elimination does not look at the row numbers, only at their order *)
Definition re (f : Z -> Z) (e : entry) : entry := (ekey e, f (eidx e), eval_ e).
Definition climbs (f : Z -> Z) : Prop := forall x y, x < y -> f x < f y.
Section Reindex.
  Variable f : Z -> Z.
  Hypothesis Hf : climbs f.
  Lemma re_lt x y : (f x <? f y) = (x <? y).
  Proof.
    destruct (Z.ltb_spec x y) as [L|L]; [apply Hf in L; lia|].
    destruct (Z.eq_dec x y) as [->|N]; [lia|]. assert (f y < f x) by (apply Hf; lia). lia.
  Qed.
  Lemma re_eq x y : (f x =? f y) = (x =? y).
  Proof.
    pose proof (re_lt x y). pose proof (re_lt y x). destruct (Z.eqb_spec x y) as [->|N]; [lia|].
    destruct (Z.ltb_spec x y), (Z.ltb_spec y x); lia.
  Qed.
  Lemma re_leb x y : entry_leb (re f x) (re f y) = entry_leb x y.
  Proof. unfold entry_leb, re, ekey, eidx, eval_. cbn [fst snd]. now rewrite re_lt, re_eq. Qed.
  Lemma re_insert e l : insert_e (re f e) (map (re f) l) = map (re f) (insert_e e l).
  Proof. induction l as [|x l IH]; cbn [insert_e map]; [reflexivity|]. rewrite re_leb. destruct (entry_leb e x); cbn [map]; congruence. Qed.
  Lemma re_sort l : sort_e (map (re f) l) = map (re f) (sort_e l).
  Proof. induction l as [|x l IH]; [reflexivity|]. unfold sort_e in *. cbn [map fold_right]. now rewrite IH, re_insert. Qed.
  Lemma re_merge a : forall b, merge_e (map (re f) a) (map (re f) b) = map (re f) (merge_e a b).
  Proof.
    induction a as [|x a IHa]; [intros []; reflexivity|]. induction b as [|y b IHb]; [reflexivity|].
    specialize (IHa (y :: b)). cbn [merge_e map] in *. rewrite re_leb. destruct (entry_leb x y); cbn [map]; congruence.
  Qed.
  Lemma re_filter (p : entry -> bool) l : (forall e, p (re f e) = p e) -> filter p (map (re f) l) = map (re f) (filter p l).
  Proof. intros Hp. induction l as [|x l IH]; [reflexivity|]. cbn [map filter]. rewrite Hp, IH. now destruct (p x). Qed.
  Lemma re_zero l : remove_zerokeys (map (re f) l) = map (re f) (remove_zerokeys l).
  Proof. now apply re_filter. Qed.
  Definition re_state (s : list entry * list entry) := (map (re f) (fst s), map (re f) (snd s)).
  Definition re_res (r : res (list entry)) : res (list entry) := match r with Ok l => Ok (map (re f) l) | NoSolution => NoSolution | Raise e => Raise e end.
  Lemma re_gauss hd : gauss_elim (map (re f) hd) =
    match gauss_elim hd with Ok (c, l) => Ok (c, map (re f) l) | NoSolution => NoSolution | Raise e => Raise e end.
  Proof.
    destruct hd as [|m rest]; [reflexivity|]. unfold gauss_elim. cbn [map].
    change (ekey (re f m)) with (ekey m). destruct (0 <? ekey m); [|reflexivity]. cbn [assert_ bind].
    rewrite !re_filter by reflexivity. rewrite map_map.
    change (map (fun x => sub_entry (re f m) (re f x))) with (map (fun x => re f (sub_entry m x))).
    rewrite <- (map_map (sub_entry m) (re f)). set (r := map (sub_entry m) _). set (s := filter _ rest).
    rewrite re_zero, re_merge. change [re f m] with (map (re f) [m]). rewrite !re_merge. now destruct r.
  Qed.
  Lemma re_step s : elim_step (re_state s) = match elim_step s with inl s' => inl (re_state s') | inr r => inr (re_res r) end.
  Proof.
    destruct s as [hs hd]. unfold elim_step, re_state. cbn [fst snd]. destruct hd as [|m hd]; [reflexivity|].
    change (map (re f) (m :: hd)) with (re f m :: map (re f) hd) at 1. cbv iota.
    rewrite re_gauss. destruct (gauss_elim (m :: hd)) as [[[|] l]| |e]; [| |reflexivity|reflexivity].
    - now rewrite re_merge.
    - destruct l as [|x l]; [reflexivity|]. cbn [map fst snd]. now rewrite map_app.
  Qed.
  Lemma re_iter n s : iter2 n elim_step (re_state s) = match iter2 n elim_step s with inl s' => inl (re_state s') | inr r => inr (re_res r) end.
  Proof.
    revert s. induction n as [|n IH]; intros s; cbn [iter2]; [apply re_step|].
    rewrite IH. destruct (iter2 n elim_step s) as [s'|]; [apply IH|reflexivity].
  Qed.
  Lemma re_core n hd : elim_core n (map (re f) hd) = re_res (elim_core n hd).
  Proof.
    unfold elim_core. cbv zeta. rewrite re_zero, map_length. destruct (_ <=? 1)%nat; [reflexivity|].
    rewrite re_sort. change ([], map (re f) (sort_e (remove_zerokeys hd))) with (re_state ([], sort_e (remove_zerokeys hd))).
    unfold while_. rewrite re_iter. now destruct (iter2 n elim_step _).
  Qed.
  Lemma re_decode l : decode (map (re f) l) = decode l.
  Proof. apply decode_same; now rewrite map_map. Qed.
End Reindex.

(** ** keys of wide rows *)
Lemma pack_zero_head x : pack (0 :: x) = pack x.
Proof.
  cbn [pack]. rewrite Z.shiftl_0_l. change (i64 0) with 0. rewrite Z.add_0_r. destruct x as [|a x]; [reflexivity|].
  cbn [pack]. generalize (pack x + i64 (Z.shiftl a (Z.of_nat (length x)))). intros z. unfold i64, wrap at 1.
  assert (H : - 9223372036854775808 <= wrap 9223372036854775808 z < 9223372036854775808).
  { unfold wrap. destruct ((- (9223372036854775808) <=? z) && (z <? 9223372036854775808)) eqn:E; [lia|].
    pose proof (Z.mod_pos_bound (z + 9223372036854775808) (2 * 9223372036854775808) ltac:(lia)). lia. }
  destruct (_ && _) eqn:E; [reflexivity|]. lia.
Qed.
Lemma pack_prefix p x : (64 <= length x)%nat -> pack (p ++ x) = pack x.
Proof.
  intros L. induction p as [|a p IH]; [reflexivity|]. cbn [app]. rewrite (pack_lost a 0) by (rewrite app_length; lia).
  now rewrite pack_zero_head.
Qed.
Lemma wide_split (row : list Z) C : length row = C -> (64 <= C)%nat ->
  exists p x, row = p ++ nth (C - 64) row 0 :: x /\ length p = (C - 64)%nat /\ length x = 63%nat /\ skipn (C - 63) row = x.
Proof.
  intros L HC. exists (firstn (C - 64) row), (skipn (C - 63) row).
  assert (E : skipn (C - 64) row = nth (C - 64) row 0 :: skipn (C - 63) row).
  { replace (C - 63)%nat with (S (C - 64)) by lia. assert (H : (C - 64 < length row)%nat) by lia.
    revert H. generalize (C - 64)%nat. clear. induction row as [|a row IH]; intros n Hn; cbn [length] in Hn; [lia|].
    destruct n; [reflexivity|]. cbn [skipn nth]. apply IH. lia. }
  split; [|split; [|split]].
  - rewrite <- E. symmetry. apply firstn_skipn.
  - rewrite firstn_length. lia.
  - rewrite skipn_length. lia.
  - reflexivity.
Qed.
Lemma wide_pack row C : length row = C -> (64 <= C)%nat -> bits row ->
  if nth (C - 64) row 0 =? 0 then pack row = pack (skipn (C - 63) row) else pack row < 0.
Proof.
  intros L HC HB. destruct (wide_split row C L HC) as (p & x & E & Lp & Lx & ->). set (a := nth (C - 64) row 0) in *.
  assert (Ba : bits (a :: x)) by (intros y Hy; apply HB; rewrite E; apply in_or_app; now right).
  rewrite E, pack_prefix by (cbn [length]; lia).
  assert (Ha : a = 0 \/ a = 1) by (apply Ba; now left). clearbody a.
  destruct Ha as [-> | ->]; cbn [Z.eqb]; [apply pack_zero_head|].
  apply pack_negative; auto. intros y Hy. apply Ba. now right.
Qed.

(** ** the theorem *)
Fixpoint ents (i : Z) (l : list (list Z * Z)) : list entry :=
  match l with [] => [] | (row, x) :: l => (pack row, i, x) :: ents (i + 1) l end.
Lemma encode_ents A b : mcols A <> 0%nat -> length b = mnrows A -> encode A b = Ok (ents 0 (combine (mrows A) b)).
Proof.
  intros HC Hb. unfold encode. rewrite Hb, Nat.eqb_refl. cbn [assert_ bind].
  destruct (Nat.eqb_spec (mcols A) 0) as [E|_]; [easy|]. f_equal. unfold mnrows in *.
  change 0 with (Z.of_nat 0). generalize 0%nat. generalize dependent b. generalize (mrows A) as rows. clear.
  induction rows as [|r rows IH]; intros [|x b] Hb i; cbn [length] in Hb; try dis.
  cbn [map map2 seq length fst snd combine ents]. injection Hb as Hb. rewrite IH by exact Hb. do 3 f_equal. lia.
Qed.
Lemma rz_cons k i x l : remove_zerokeys ((k, i, x) :: l) = if 0 <? k then (k, i, x) :: remove_zerokeys l else remove_zerokeys l.
Proof. reflexivity. Qed.
Definition wide_keep C (p : list Z * Z) : bool := nth (C - 64) (fst p) 0 =? 0.
Definition wide_cut C (p : list Z * Z) : list Z * Z := (skipn (C - 63) (fst p), snd p).
Lemma ents_keep C l : (64 <= C)%nat -> (forall p, In p l -> length (fst p) = C /\ bits (fst p)) -> forall i j,
  exists f, climbs f /\ (forall x, j <= x -> i <= f x) /\
    remove_zerokeys (ents i l) = map (re f) (remove_zerokeys (ents j (map (wide_cut C) (filter (wide_keep C) l)))).
Proof.
  intros HC. induction l as [|[row x] l IH]; intros Hl i j.
  - exists (fun x => x - j + i). repeat split; try (intros; lia). intros x y L; lia.
  - destruct (Hl (row, x) (or_introl eq_refl)) as [Lr Br]. cbn [fst] in *.
    specialize (IH ltac:(intros; apply Hl; now right)). pose proof (wide_pack row C Lr HC Br) as HP.
    cbn [filter]. unfold wide_keep at 1. cbn [fst]. destruct (nth (C - 64) row 0 =? 0).
    + destruct (IH (i + 1) (j + 1)) as (f & Hf & Hg & HE). exists (fun y => if y <=? j then i + (y - j) else f y).
      assert (HF : climbs (fun y => if y <=? j then i + (y - j) else f y)).
      { intros a b L. cbv beta. destruct (Z.leb_spec a j), (Z.leb_spec b j); try (specialize (Hg b ltac:(lia)); lia); try lia; now apply Hf. }
      split; [exact HF|]. split.
      { intros y Ly. destruct (Z.leb_spec y j); [lia|]. specialize (Hg y ltac:(lia)). lia. }
      cbn [map]. unfold wide_cut at 1. cbn [fst snd ents]. rewrite !rz_cons, HP.
      assert (HM : map (re f) (remove_zerokeys (ents (j + 1) (map (wide_cut C) (filter (wide_keep C) l)))) =
        map (re (fun y => if y <=? j then i + (y - j) else f y)) (remove_zerokeys (ents (j + 1) (map (wide_cut C) (filter (wide_keep C) l))))).
      { apply map_ext_in. intros e He. apply filter_In in He. destruct He as [He _]. unfold re.
        assert (j + 1 <= eidx e).
        { revert He. generalize (j + 1). generalize (map (wide_cut C) (filter (wide_keep C) l)). clear. intros q.
          induction q as [|[r y] q IH]; intros k He; [easy|]. cbn [ents] in He. destruct He as [<-|He]; [unfold eidx; cbn; lia|].
          apply IH in He. lia. }
        destruct (Z.leb_spec (eidx e) j); [lia|reflexivity]. }
      rewrite HE, HM. destruct (0 <? _); cbn [map]; [|reflexivity]. f_equal. unfold re, ekey, eidx, eval_. cbn [fst snd].
      rewrite Z.leb_refl. do 2 f_equal. lia.
    + destruct (IH (i + 1) j) as (f & Hf & Hg & HE). exists f. split; [exact Hf|]. split; [intros y Ly; specialize (Hg y Ly); lia|].
      cbn [ents]. rewrite rz_cons. destruct (Z.ltb_spec 0 (pack row)); [lia|]. exact HE.
Qed.

Lemma ents_length i l : length (ents i l) = length l.
Proof. revert i. induction l as [|[r x] l IH]; intros i; cbn [ents length]; auto. Qed.
Lemma zsum_ge b : (forall x, In x b -> 0 <= x) -> forall x, In x b -> x <= zsum b.
Proof.
  induction b as [|y b IH]; [easy|]. intros Hpos x Hx. rewrite zsum_cons.
  assert (0 <= zsum b) by (apply zsum_nonneg; intros; apply Hpos; now right). pose proof (Hpos y (or_introl eq_refl)).
  destruct Hx as [->|Hx]; [lia|]. specialize (IH ltac:(intros; apply Hpos; now right) _ Hx). lia.
Qed.
Lemma ents_good B rows b i : (forall row, In row rows -> length row = 63%nat /\ bits row) -> (forall x, In x b -> 0 <= x <= B) ->
  Forall (good 63 B) (ents i (combine rows b)).
Proof.
  revert b i. induction rows as [|r rows IH]; intros [|x b] i Hr Hb; cbn [combine ents]; try constructor.
  - destruct (Hr r (or_introl eq_refl)) as [L Br]. pose proof (pack_range r Br ltac:(lia)) as R. rewrite L in R.
    split; [exact R|apply Hb; now left].
  - apply IH; intros; [apply Hr|apply Hb]; now right.
Qed.
Theorem elim_wide A b : (64 <= mcols A)%nat -> length b = mnrows A ->
  (forall row, In row (mrows A) -> length row = mcols A /\ bits row) -> (forall x, In x b -> 0 <= x) ->
  let kept := filter (fun p => nth (mcols A - 64) (fst p) 0 =? 0) (combine (mrows A) b) in
  elim A b = elim (Mat 63 (map (fun p => skipn (mcols A - 63) (fst p)) kept)) (map snd kept).
Proof.
  intros HC Hb Hrows Hpos kept. set (C := mcols A) in *.
  set (A2 := Mat 63 (map (fun p => skipn (C - 63) (fst p)) kept)). set (b2 := map snd kept).
  assert (Hk : forall p, In p kept -> In (fst p) (mrows A) /\ In (snd p) b).
  { intros [r x] Hp. apply filter_In in Hp. destruct Hp as [Hp _]. split; [eapply in_combine_l|eapply in_combine_r]; exact Hp. }
  assert (HN : (length kept <= mnrows A)%nat).
  { unfold kept. etransitivity; [apply filter_len|]. rewrite combine_length. unfold mnrows. lia. }
  assert (L2 : length b2 = mnrows A2) by (unfold b2, mnrows, A2; cbn [mrows]; now rewrite !map_length).
  assert (R2 : forall row, In row (mrows A2) -> length row = mcols A2 /\ bits row).
  { intros row Hr. unfold A2 in Hr. cbn [mrows] in Hr. apply in_map_iff in Hr. destruct Hr as (p & <- & Hp). apply Hk in Hp.
    destruct (Hrows _ (proj1 Hp)) as [L B]. split; [rewrite skipn_length, L; cbn; lia|].
    intros y Hy. apply B. rewrite <- (firstn_skipn (C - 63)). apply in_or_app. now right. }
  assert (P2 : forall x, In x b2 -> 0 <= x).
  { intros x Hx. apply in_map_iff in Hx. destruct Hx as (p & <- & Hp). apply Hpos, Hk, Hp. }
  assert (N2 : mcols A2 <> 0%nat) by (cbn; lia).
  assert (HG : Forall (good 63 (zsum b2)) (ents 0 (combine (mrows A2) b2))).
  { apply ents_good; [|intros x Hx; split; [now apply P2|now apply zsum_ge]].
    intros row Hr. destruct (R2 row Hr) as [L B]. split; [exact L|exact B]. }
  destruct (elim_core_spec 63 (zsum b2) (mnrows A2) _ HG) as (E2 & E2E & _).
  { rewrite ents_length, combine_length. unfold mnrows. lia. }
  unfold elim. rewrite (encode_ents A b), (encode_ents A2 b2) by (auto; unfold C in *; lia). cbn [bind].
  assert (EK : combine (mrows A2) b2 = map (wide_cut C) (filter (wide_keep C) (combine (mrows A) b))).
  { unfold A2, b2. cbn [mrows]. change (filter (wide_keep C) (combine (mrows A) b)) with kept. generalize kept. clear.
    induction kept as [|p q IH]; [reflexivity|]. cbn [map combine]. now rewrite IH. }
  destruct (ents_keep C (combine (mrows A) b) HC) with (i := 0) (j := 0) as (f & Hf & _ & HF).
  { intros [r x] Hp. apply Hrows. eapply in_combine_l; exact Hp. }
  rewrite <- EK in HF.
  set (n2 := (2 * mnrows A2 + mcols A2 + 1)%nat) in *. set (n1 := (2 * mnrows A + mcols A + 1)%nat).
  assert (Hn : (n2 <= n1)%nat) by (unfold n1, n2, A2, mnrows at 1; cbn [mrows mcols]; rewrite map_length; unfold C in HC; lia).
  rewrite <- (elim_core_filter n1), HF, (re_core f Hf), elim_core_filter.
  change (elim_core n2 (ents 0 (combine (mrows A2) b2)) = Ok E2) in E2E. rewrite E2E, (elim_core_more _ _ _ _ Hn E2E).
  cbn [re_res bind]. apply re_decode.
Qed.
