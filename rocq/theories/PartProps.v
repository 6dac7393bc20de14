(** Proofs of C21 (partition.enum) and C22 (unique.reduce / expand). *)
From Verif Require Import Np ModelGauss Model Spec QSpec Lib BitFacts QuestionProps.
From Coq Require Import ZifyBool ZifyNat Sorting.Sorted.

(** ** C21 *)
Definition composition (s : Z) (bounds t : list Z) : Prop :=
  length t = length bounds /\ (forall i, (i < length bounds)%nat -> 0 <= nth i t 0 <= nth i bounds 0) /\ zsum t = s.

Lemma in_zrange' a b x : In x (zrange a b) <-> a <= x < b.
Proof. unfold zrange. rewrite in_map_iff. split.
  - intros (i & <- & Hi). apply in_seq in Hi. lia.
  - intros H. exists (Z.to_nat (x - a)). split; [lia|]. apply in_seq. lia.
Qed.
Lemma zrange_sorted a b : StronglySorted Z.lt (zrange a b).
Proof.
  unfold zrange. generalize (Z.to_nat (b - a)) as n. generalize 0%nat as i.
  intros i n. revert i. induction n as [|n IH]; intros i; simpl; constructor; auto.
  apply Forall_forall. intros x Hx. apply in_map_iff in Hx. destruct Hx as (k & <- & Hk). apply in_seq in Hk. lia.
Qed.
Lemma composition_cons s b bs x t : composition s (b :: bs) (x :: t) <-> 0 <= x <= b /\ composition (s - x) bs t.
Proof.
  unfold composition. rewrite zsum_cons. simpl length. split.
  - intros (H1 & H2 & H3). repeat split; try lia; try apply (H2 0%nat ltac:(lia)); apply (H2 (S i)); lia.
  - intros (H0 & H1 & H2 & H3). repeat split; try lia; destruct i as [|i]; simpl; try lia; apply H2; lia.
Qed.
Lemma partition_in bounds : bounds <> [] -> forall s t, 0 <= s -> (In t (partition_enum bounds s) <-> composition s bounds t).
Proof.
  induction bounds as [|b bs IH]; intros Hne s t Hs; [easy|].
  destruct bs as [|b' bs].
  - simpl. destruct t as [|x t].
    { split; [|intros (H & _); discriminate]. destruct (s <=? b); [intros [H|[]]; discriminate|easy]. }
    rewrite composition_cons. destruct t as [|y t].
    2:{ split; [|intros (_ & H & _); discriminate]. destruct (s <=? b); [intros [H|[]]; discriminate|easy]. }
    assert (E : composition (s - x) [] [] <-> s = x).
    { unfold composition, zsum. simpl. split; [lia|]. intros ->. repeat split; lia. }
    rewrite E. destruct (Z.leb_spec s b).
    + split; [intros [H1|[]]; injection H1; lia|]. intros [H1 ->]. now left.
    + split; [easy|]. intros [H1 ->]. lia.
  - change (partition_enum (b :: b' :: bs) s) with
      (flat_map (fun v => map (cons v) (partition_enum (b' :: bs) (s - v))) (zrange 0 (Z.min b s + 1))).
    rewrite in_flat_map. split.
    + intros (v & Hv & Ht). apply in_zrange' in Hv. apply in_map_iff in Ht. destruct Ht as (t' & <- & Ht).
      apply IH in Ht; [|discriminate|lia]. apply composition_cons. split; [lia|auto].
    + destruct t as [|x t]; [intros (H & _); discriminate|]. rewrite composition_cons. intros (Hx & Ht).
      assert (0 <= s - x).
      { destruct Ht as (L & Hr & <-). apply zsum_nonneg. intros y Hy. apply (In_nth _ _ 0) in Hy. destruct Hy as (i & Hi & <-). apply Hr. lia. }
      exists x. split; [apply in_zrange'; lia|]. apply in_map. apply IH; auto; discriminate.
Qed.
Lemma sorted_app {A} (R : A -> A -> Prop) x y : StronglySorted R x -> StronglySorted R y ->
  (forall a b, In a x -> In b y -> R a b) -> StronglySorted R (x ++ y).
Proof.
  induction 1 as [|a x H IH HF]; intros Hy Hxy; simpl; auto. constructor.
  - apply IH; auto. intros; apply Hxy; simpl; auto.
  - apply Forall_forall. intros b Hb. apply in_app_iff in Hb. rewrite Forall_forall in HF.
    destruct Hb as [Hb|Hb]; auto. apply Hxy; simpl; auto.
Qed.
Lemma partition_sorted bounds : forall s, StronglySorted lex_lt (partition_enum bounds s).
Proof.
  induction bounds as [|b bs IH]; intros s; [constructor|].
  destruct bs as [|b' bs]; [simpl; destruct (s <=? b); repeat constructor|].
  change (partition_enum (b :: b' :: bs) s) with
      (flat_map (fun v => map (cons v) (partition_enum (b' :: bs) (s - v))) (zrange 0 (Z.min b s + 1))).
  generalize (zrange_sorted 0 (Z.min b s + 1)). generalize (zrange 0 (Z.min b s + 1)) as l.
  induction 1 as [|v l H IHl HF]; cbn [flat_map]; [constructor|]. apply sorted_app; auto.
  - specialize (IH (s - v)). induction IH as [|t l' H' IH' HF']; simpl; constructor; auto.
    apply Forall_forall. intros t' Ht'. apply in_map_iff in Ht'. destruct Ht' as (t0 & <- & Ht0).
    rewrite Forall_forall in HF'. right. auto.
  - intros t t' Ht Ht'. apply in_map_iff in Ht. destruct Ht as (t0 & <- & _).
    apply in_flat_map in Ht'. destruct Ht' as (v' & Hv' & Ht'). apply in_map_iff in Ht'. destruct Ht' as (t1 & <- & _).
    rewrite Forall_forall in HF. left. auto.
Qed.
Lemma lex_lt_irrefl x : ~ lex_lt x x.
Proof. induction x as [|a x IH]; simpl; [tauto|]. intros [H|[_ H]]; [lia|auto]. Qed.
Lemma lex_sorted_nodup l : StronglySorted lex_lt l -> NoDup l.
Proof.
  induction 1 as [|x l H IH HF]; constructor; auto. intros Hin. rewrite Forall_forall in HF. now apply (lex_lt_irrefl x), HF.
Qed.
Lemma partition_proof s bounds : 0 <= s -> bounds <> [] ->
  exists l, partition_enum_api s bounds = Ok l /\ NoDup l /\ StronglySorted lex_lt l
    /\ forall t, In t l <->
         length t = length bounds /\ (forall i, (i < length bounds)%nat -> 0 <= nth i t 0 <= nth i bounds 0) /\ zsum t = s.
Proof.
  intros Hs Hb. exists (partition_enum bounds s). split.
  - unfold partition_enum_api. destruct (Z.leb_spec 0 s); [|lia]. cbn [assert_ bind].
    destruct bounds; [easy|]. reflexivity.
  - split; [apply lex_sorted_nodup, partition_sorted|]. split; [apply partition_sorted|].
    intros t. now apply partition_in.
Qed.

(** ** C22 *)
Lemma diff_snoc l x : l <> [] -> diff (l ++ [x]) = diff l ++ [x - last l 0].
Proof.
  induction l as [|a l IH]; intros H; [easy|]. destruct l as [|b l]; [reflexivity|].
  change (diff ((a :: b :: l) ++ [x])) with (b - a :: diff ((b :: l) ++ [x])). rewrite IH by discriminate. reflexivity.
Qed.

Section runs.
  Variable p : Z -> bool.
  Let locs := fun i es => i :: map S (where_from i p (diff es)).
  Let gaps := fun i es => diff (map Z.of_nat (locs i es) ++ [Z.of_nat (i + length es)]).

  Lemma locs_skip i e e' es : p (e' - e) = false -> locs i (e :: e' :: es) = i :: tl (locs (S i) (e' :: es)).
  Proof. intros H. unfold locs. change (diff (e :: e' :: es)) with (e' - e :: diff (e' :: es)). simpl where_from. now rewrite H. Qed.
  Lemma locs_cut i e e' es : p (e' - e) = true -> locs i (e :: e' :: es) = i :: locs (S i) (e' :: es).
  Proof. intros H. unfold locs. change (diff (e :: e' :: es)) with (e' - e :: diff (e' :: es)). simpl where_from. now rewrite H. Qed.
  Lemma where_from_ge {A} (q : A -> bool) l : forall i j, In j (where_from i q l) -> (i <= j < i + length l)%nat.
  Proof.
    induction l as [|x l IH]; intros i j H; simpl in *; [easy|]. destruct (q x).
    - destruct H as [<-|H]; [lia|]. specialize (IH _ _ H). lia.
    - specialize (IH _ _ H). lia.
  Qed.
  Lemma gaps_length i es : length (gaps i es) = length (locs i es).
  Proof.
    unfold gaps. generalize (locs i es) as L. intros L. destruct (map Z.of_nat L ++ [Z.of_nat (i + length es)]) as [|x l] eqn:E.
    - destruct L; discriminate.
    - rewrite diff_length. apply (f_equal (@length Z)) in E. rewrite app_length, map_length in E. simpl length in E. lia.
  Qed.

  Lemma expand_runs es : forall e a rs i pre, length pre = i -> length rs = length es ->
    (forall j, (j < length es)%nat -> p (nth (S j) (e :: es) 0 - nth j (e :: es) 0) = false -> nth (S j) (a :: rs) 0 = nth j (a :: rs) 0) ->
    concat (map2 (fun x n => repeat x (Z.to_nat n)) (pick 0 (locs i (e :: es)) (pre ++ a :: rs)) (gaps i (e :: es))) = a :: rs.
  Proof.
    assert (N : forall (pre : list Z) a l, nth (length pre) (pre ++ a :: l) 0 = a).
    { intros. rewrite app_nth2, Nat.sub_diag by lia. reflexivity. }
    induction es as [|e' es IH]; intros e a rs i pre Hi HL Hc.
    - destruct rs; [|discriminate]. unfold gaps, locs. simpl. subst i. rewrite N.
      replace (Z.to_nat _) with 1%nat by lia. reflexivity.
    - destruct rs as [|a' rs]; [discriminate|]. simpl in HL.
      specialize (IH e' a' rs (S i) (pre ++ [a]) ltac:(rewrite app_length; simpl; lia) ltac:(lia)).
      rewrite <- app_assoc in IH. simpl app in IH.
      specialize (IH ltac:(intros j Hj Hp; apply (Hc (S j)); simpl; auto; lia)).
      assert (EN : Z.of_nat (i + length (e :: e' :: es)) = Z.of_nat (S i + length (e' :: es))) by (cbn [length]; lia).
      pose proof (Hc 0%nat ltac:(simpl; lia)) as H0. cbn [nth] in H0.
      destruct (p (e' - e)) eqn:Ep.
      + unfold gaps in *. rewrite EN, locs_cut by auto.
        change (map Z.of_nat (i :: locs (S i) (e' :: es)) ++ [Z.of_nat (S i + length (e' :: es))])
          with (Z.of_nat i :: (Z.of_nat (S i) :: map Z.of_nat (tl (locs (S i) (e' :: es))) ++ [Z.of_nat (S i + length (e' :: es))])).
        change (diff (Z.of_nat i :: Z.of_nat (S i) :: ?l)) with (Z.of_nat (S i) - Z.of_nat i :: diff (Z.of_nat (S i) :: l)).
        unfold pick in *. cbn [map map2 concat]. rewrite <- Hi at 1. rewrite N.
        replace (Z.to_nat (Z.of_nat (S i) - Z.of_nat i)) with 1%nat by lia. cbn [repeat app]. f_equal. exact IH.
      + specialize (H0 eq_refl). subst a'. unfold gaps in *. rewrite EN, locs_skip by auto. clear Hc EN.
        set (L := tl (locs (S i) (e' :: es))) in *.
        change (locs (S i) (e' :: es)) with (S i :: L) in IH.
        assert (HLge : forall j, In j L -> (S (S i) <= j)%nat).
        { intros j Hj. unfold L, locs in Hj. simpl in Hj. apply in_map_iff in Hj. destruct Hj as (k & <- & Hk). apply where_from_ge in Hk. lia. }
        assert (HD : exists y l, map Z.of_nat L ++ [Z.of_nat (S i + length (e' :: es))] = y :: l /\ Z.of_nat (S i) < y).
        { destruct L as [|y L']; [eexists _, _; split; [reflexivity|cbn [length]; lia]|].
          eexists _, _. split; [reflexivity|]. specialize (HLge y ltac:(now left)). lia. }
        destruct HD as (y & l & Ey & Hy).
        assert (EM : forall k, map Z.of_nat (k :: L) ++ [Z.of_nat (S i + length (e' :: es))] = Z.of_nat k :: y :: l) by (intros k; cbn [map app]; now rewrite Ey).
        rewrite EM in *. change (diff (Z.of_nat ?k :: y :: l)) with (y - Z.of_nat k :: diff (y :: l)) in *.
        unfold pick in *. cbn [map map2 concat] in *.
        assert (Na : nth (S i) (pre ++ a :: a :: rs) 0 = a).
        { rewrite app_nth2 by lia. replace (S i - length pre)%nat with 1%nat by lia. reflexivity. }
        rewrite Na in IH. rewrite <- Hi at 1. rewrite N.
        replace (Z.to_nat (y - Z.of_nat i)) with (S (Z.to_nat (y - Z.of_nat (S i)))) by lia. cbn [repeat app]. f_equal. exact IH.
  Qed.

  Lemma runs_differ es : p 0 = false -> forall e i pre, length pre = i ->
    (forall j, (j < length es)%nat -> p (nth (S j) (e :: es) 0 - nth j (e :: es) 0) = false -> nth (S j) (e :: es) 0 = nth j (e :: es) 0) ->
    Sorted (fun k k' => nth k (pre ++ e :: es) 0 <> nth k' (pre ++ e :: es) 0) (locs i (e :: es)).
  Proof.
    intros P0.
    assert (N : forall (pre : list Z) a l, nth (length pre) (pre ++ a :: l) 0 = a).
    { intros. rewrite app_nth2, Nat.sub_diag by lia. reflexivity. }
    induction es as [|e' es IH]; intros e i pre Hi P1; [repeat constructor|].
    specialize (IH e' (S i) (pre ++ [e]) ltac:(rewrite app_length; simpl; lia) ltac:(intros j Hj; apply (P1 (S j)); simpl; lia)). rewrite <- app_assoc in IH. simpl app in IH.
    assert (N2 : nth (S i) (pre ++ e :: e' :: es) 0 = e').
    { rewrite app_nth2 by lia. replace (S i - length pre)%nat with 1%nat by lia. reflexivity. }
    assert (N1 : nth i (pre ++ e :: e' :: es) 0 = e) by (rewrite <- Hi; apply N).
    destruct (p (e' - e)) eqn:Ep.
    - rewrite locs_cut by auto. constructor; auto. constructor. rewrite N1, N2. intros ->. rewrite Z.sub_diag in Ep. congruence.
    - pose proof (P1 0%nat ltac:(simpl; lia) Ep) as Ee. cbn [nth] in Ee. rewrite locs_skip by auto. unfold locs in IH. simpl tl. inversion IH as [|? ? H1 H2]; subst. constructor; auto.
      unfold locs. simpl tl. inversion H2; subst; constructor. rewrite N1. subst; congruence.
  Qed.
  Lemma locs_range i es : es <> [] -> forall k, In k (locs i es) -> (i <= k < i + length es)%nat.
  Proof.
    intros H k [<-|Hk]; [destruct es; [easy|simpl; lia]|]. apply in_map_iff in Hk. destruct Hk as (j & <- & Hj).
    apply where_from_ge in Hj. destruct es as [|e es]; [easy|]. rewrite diff_length in Hj. simpl. lia.
  Qed.
End runs.

Lemma i64_zero d : - 18446744073709551616 < d < 18446744073709551616 -> i64 d = 0 -> d = 0.
Proof.
  unfold i64, wrap. intros H. destruct (_ && _); auto.
  set (m := 2 * 9223372036854775808). assert (Em : m = 18446744073709551616) by reflexivity. intros E.
  pose proof (Z.div_mod (d + 9223372036854775808) m ltac:(lia)) as Hd. nia.
Qed.

Lemma unique_proof A R : (1 <= mcols A)%nat -> (1 <= R <= 64)%nat -> shape R (mcols A) (mrows A) ->
  (forall row, In row (mrows A) -> bits row) ->
  exists A' bnds locs, unique_reduce A = Ok (A', bnds, locs)
    /\ unique_expand A' bnds = A
    /\ mcols A' = length locs /\ length bnds = length locs
    /\ mrows A' = map (fun row => map (fun j => nth j row 0) locs) (mrows A)
    /\ neighbours_differ (mcols A') (mrows A').
Proof.
  intros HC HR [HL Hrow] Hbits.
  set (n := mcols A) in *.
  set (enc := map (fun j => pack (column j (mrows A))) (seq 0 n)).
  set (p := fun d => negb (i64 d =? 0)).
  assert (EL : length enc = n) by (unfold enc; now rewrite map_length, seq_length).
  assert (EN : forall j, (j < n)%nat -> nth j enc 0 = pack (column j (mrows A))).
  { intros j Hj. unfold enc. rewrite (nth_indep _ 0 (pack (column 0 (mrows A)))) by (rewrite map_length, seq_length; lia).
    rewrite (map_nth (fun j => pack (column j (mrows A))) (seq 0 n) 0%nat j), seq_nth by lia. reflexivity. }
  assert (Cb : forall j, (j < n)%nat -> bits (column j (mrows A))).
  { intros j Hj x Hx. apply in_map_iff in Hx. destruct Hx as (row & <- & Hr). apply (Hbits row Hr). apply nth_In. rewrite Hrow; auto. }
  assert (Cl : forall j, length (column j (mrows A)) = R) by (intros; unfold column; now rewrite map_length).
  assert (Er : forall x, - 9223372036854775808 <= pack x < 9223372036854775808).
  { intros x. assert (G : forall z, - 9223372036854775808 <= i64 z < 9223372036854775808); [|destruct x; [simpl; lia|apply G]].
    intros z. unfold i64, wrap. destruct ((_ <=? z) && _) eqn:E; [lia|].
    pose proof (Z.mod_pos_bound (z + 9223372036854775808) (2 * 9223372036854775808)). lia. }
  assert (Ediff : forall i j, (i < n)%nat -> (j < n)%nat -> p (nth i enc 0 - nth j enc 0) = false -> column i (mrows A) = column j (mrows A)).
  { intros i j Hi Hj Hp. unfold p in Hp. rewrite !EN in Hp by auto.
    apply pack_inj64; auto; [now rewrite !Cl|rewrite Cl; lia|].
    assert (i64 (pack (column i (mrows A)) - pack (column j (mrows A))) = 0) as E by lia. apply i64_zero in E; [lia|].
    pose proof (Er (column i (mrows A))). pose proof (Er (column j (mrows A))). lia. }
  destruct enc as [|e es] eqn:Eenc; [simpl in EL; lia|]. rewrite <- Eenc in *.
  set (locs := 0%nat :: map S (where_ p (diff enc))).
  set (bnds := diff (map Z.of_nat locs ++ [Z.of_nat n])).
  exists (Mat (length locs) (map (pick 0 locs) (mrows A))), bnds, locs.
  assert (Eb : diff (map Z.of_nat locs) ++ [Z.of_nat (length enc) - zsum (diff (map Z.of_nat locs))] = bnds).
  { unfold bnds. rewrite diff_snoc by discriminate. rewrite EL. f_equal. f_equal. unfold locs. cbn [map]. rewrite zsum_diff. rewrite Z.sub_0_r. reflexivity. }
  assert (Eg : bnds = diff (map Z.of_nat (0%nat :: map S (where_from 0 p (diff (e :: es)))) ++ [Z.of_nat (0 + length (e :: es))])).
  { unfold bnds, locs, where_. rewrite <- Eenc, Nat.add_0_l, EL. reflexivity. }
  assert (Hrange : forall k, In k locs -> (k < n)%nat).
  { intros k Hk. unfold locs, where_ in Hk. rewrite Eenc in Hk.
    apply (locs_range p 0 (e :: es)) in Hk; [|discriminate]. rewrite Eenc in EL. lia. }
  split.
  { unfold unique_reduce, unique_encode. destruct (Nat.eqb_spec (mnrows A) 0) as [E|_]; [unfold mnrows in E; lia|]. cbn [bind].
    fold n. fold p. destruct (Nat.eqb_spec n 0) as [E|_]; [lia|]. unfold enc in *.
    fold locs. cbv zeta. rewrite Eb. reflexivity. }
  split.
  { unfold unique_expand. cbn [mrows].
    assert (EZ : zsum bnds = Z.of_nat n).
    { unfold bnds, locs. cbn [map app]. rewrite zsum_diff.
      change (Z.of_nat 0 :: map Z.of_nat (map S (where_ p (diff enc))) ++ [Z.of_nat n])
        with ((Z.of_nat 0 :: map Z.of_nat (map S (where_ p (diff enc)))) ++ [Z.of_nat n]). rewrite last_last. simpl. lia. }
    rewrite EZ, Nat2Z.id. destruct A as [c rows]. unfold n in *. simpl in *. f_equal.
    rewrite map_map. rewrite <- (map_id rows) at 2. apply map_ext_in. intros row Hr. unfold expand_row.
    destruct row as [|a rs] eqn:Erow; [specialize (Hrow _ Hr); simpl in Hrow; lia|]. rewrite <- Erow in *.
    unfold locs, where_. rewrite Eg, Eenc. rewrite Erow.
    apply (expand_runs p es e a rs 0%nat [] eq_refl).
    - specialize (Hrow _ Hr). rewrite Erow in Hrow. rewrite Eenc in EL. simpl in Hrow, EL. lia.
    - intros j Hj Hp. rewrite <- Eenc in Hp. rewrite Eenc in EL. simpl in EL.
      assert (E : column (S j) rows = column j rows) by (apply Ediff; auto; lia).
      unfold column in E. rewrite <- Erow.
      apply (In_nth _ _ []) in Hr. destruct Hr as (k & Hk & Ek).
      apply (f_equal (fun l => nth k l 0)) in E.
      rewrite !(nth_map_in _ _ _ (@nil Z)) in E by auto. now rewrite Ek in E. }
  split; [reflexivity|]. split.
  { rewrite Eg. apply (gaps_length p 0 (e :: es)) || (unfold locs, where_; rewrite Eenc; apply (gaps_length p 0 (e :: es))). }
  split; [reflexivity|].
  intros j Hj. cbn [mcols] in Hj.
  assert (HS : Sorted (fun k k' => nth k enc 0 <> nth k' enc 0) locs).
  { unfold locs, where_. rewrite Eenc. apply (runs_differ p es) with (pre := @nil Z); auto.
    intros k Hk Hp. rewrite <- Eenc in *. rewrite !EN by (rewrite Eenc in EL; simpl in EL; lia).
    f_equal. apply Ediff; auto; rewrite Eenc in EL; simpl in EL; lia. }
  assert (Hd : nth (nth j locs 0%nat) enc 0 <> nth (nth (S j) locs 0%nat) enc 0).
  { revert HS Hj. clear. generalize locs as l. intros l H. revert j. induction H as [|k l H IH HR]; intros j Hj; simpl in Hj; [lia|].
    destruct j as [|j]; [|apply IH; lia]. destruct l as [|k' l]; simpl in Hj; [lia|]. inversion HR; subst. auto. }
  rewrite !EN in Hd by (apply Hrange, nth_In; lia).
  assert (Hc : column (nth j locs 0%nat) (mrows A) <> column (nth (S j) locs 0%nat) (mrows A)) by congruence.
  destruct (existsb (fun row => negb (nth (nth j locs 0%nat) row 0 =? nth (nth (S j) locs 0%nat) row 0)) (mrows A)) eqn:E.
  - apply existsb_exists in E. destruct E as (row & Hr & E). exists (pick 0 locs row). split; [apply (in_map (pick 0 locs)); exact Hr|].
    rewrite !nth_pick by lia. lia.
  - exfalso. apply Hc. apply map_ext_in. intros row Hr. rewrite existsb_none in E. specialize (E row Hr). cbv beta in E. lia.
Qed.
