(** Single steps of [solve_question] and the order of the search. *)
From Coq Require Import Sorting.Sorted.
From Verif Require Import Np ModelGauss Model Spec QSpec StepSpec Lib QFacts StepFacts ForkFacts SolveFacts AnyFacts QuestionProps DebugProps Settled.
From Coq Require Import ZifyBool ZifyNat.

(** ** the search *)
Inductive ends {S R} (step : S -> S + R) : S -> R -> Prop :=
| ends_now : forall s r, step s = inr r -> ends step s r
| ends_later : forall s s' r, step s = inl s' -> ends step s' r -> ends step s r.
Lemma iter2_ends {S R} (step : S -> S + R) n : forall s,
  match iter2 n step s with inr r => ends step s r | inl s' => forall r, ends step s' r -> ends step s r end.
Proof.
  induction n as [|n IH]; intros s; simpl.
  - destruct (step s) as [s'|r] eqn:E; [intros r H; eapply ends_later; eauto|now apply ends_now].
  - pose proof (IH s) as H1. destruct (iter2 n step s) as [s1|r]; [|exact H1]. pose proof (IH s1) as H2.
    destruct (iter2 n step s1) as [s2|r]; auto.
Qed.
Lemma while_ends {S A} (step : S -> S + res A) n s a : while_ n step s = Ok a -> ends step s (Ok a).
Proof.
  unfold while_. pose proof (iter2_ends step n s) as H. destruct (iter2 n step s) as [s'|r]; [discriminate|]. now intros <-.
Qed.
Lemma search_all_app a b : forall xs, search_all (a ++ b) xs -> exists ys zs, xs = ys ++ zs /\ search_all a ys /\ search_all b zs.
Proof.
  induction a as [|q a IH]; intros xs H; [exists [], xs; split; [reflexivity|split; [constructor|exact H]]|].
  simpl in H. inversion H as [|? ? xs1 ys1 H1 H2]; subst. destruct (IH _ H2) as (ys & zs & -> & H3 & H4).
  exists (xs1 ++ ys), zs. split; [now rewrite app_assoc|]. split; [now constructor|exact H4].
Qed.
Lemma binarize_not_none a : binarize a <> NoSolution.
Proof. unfold binarize, answer_quota, assert_. do 3 (try destruct (negb _)); destruct (forallb _ _); cbn [bind]; try discriminate; destruct (_ =? _); cbn [bind]; try discriminate; destruct (negb _); cbn [bind]; discriminate. Qed.
Lemma ends_search s r : ends question_step s r -> forall stack out xs, s = (stack, out) -> r = Ok xs ->
  exists ys, search_all stack ys /\ xs = rev out ++ ys.
Proof.
  induction 1 as [s r E|s s' r E _ IH]; intros stack out xs -> ->.
  - destruct stack as [|Q rest]; cbn [question_step] in E.
    + injection E as <-. exists []. split; [constructor|]. symmetry. apply app_nil_r.
    + exfalso. destruct (refine Q) as [Q'| |]; try discriminate. destruct (answer_unknown _).
      * destruct (fork_enum Q'); discriminate.
      * destruct (binarize _); discriminate.
  - destruct stack as [|Q rest]; cbn [question_step] in E; [discriminate|].
    destruct (refine Q) as [Q'| |] eqn:ER; try discriminate.
    + destruct (answer_unknown (qans Q')) eqn:EU.
      * destruct (fork_enum Q') as [qs| |] eqn:EF; try discriminate; injection E as <-.
        -- destruct (IH _ _ xs eq_refl eq_refl) as (ys & H1 & ->). destruct (search_all_app _ _ _ H1) as (y1 & y2 & -> & H2 & H3).
           exists (y1 ++ y2). split; [|reflexivity]. constructor; [|exact H3]. now apply (search_fork Q Q' qs y1).
        -- destruct (IH _ _ xs eq_refl eq_refl) as (ys & H1 & ->). exists ys. split; [|reflexivity].
           change ys with ([] ++ ys). constructor; [|exact H1]. now apply (search_dead Q Q').
      * destruct (binarize (qans Q')) as [x| |] eqn:EB; try discriminate; [|now apply binarize_not_none in EB]. injection E as <-.
        destruct (IH _ _ xs eq_refl eq_refl) as (ys & H1 & ->). exists ([x] ++ ys). split; [|simpl; now rewrite <- app_assoc].
        constructor; [|exact H1]. now apply (search_found Q Q').
    + injection E as <-. destruct (IH _ _ xs eq_refl eq_refl) as (ys & H1 & ->). exists ys. split; [|reflexivity].
      change ys with ([] ++ ys). constructor; [|exact H1]. now apply search_none.
Qed.
Scheme search_mut := Minimality for search Sort Prop with search_all_mut := Minimality for search_all Sort Prop.
Lemma search_unique Q xs : search Q xs -> forall ys, search Q ys -> ys = xs.
Proof.
  apply (search_mut (fun Q xs => forall ys, search Q ys -> ys = xs) (fun qs xs => forall ys, search_all qs ys -> ys = xs)).
  - intros Q0 E ys H. inversion H; subst; congruence.
  - intros Q0 Q' x E1 E2 E3 ys H. inversion H; subst; congruence.
  - intros Q0 Q' E1 E2 E3 ys H. inversion H; subst; try congruence.
  - intros Q0 Q' qs xs0 E1 E2 E3 _ IH ys H. inversion H as [|? ? ? F1 F2 F3|? ? F1 F2 F3|? ? ? ? F1 F2 F3 F4]; subst; try congruence.
    apply IH. assert (Q'0 = Q') by congruence. subst. congruence.
  - intros ys H. now inversion H.
  - intros Q0 qs xs0 ys0 _ IH1 _ IH2 ys H. inversion H as [|? ? x1 y1 H1 H2]; subst. rewrite (IH1 _ H1), (IH2 _ H2). reflexivity.
Qed.
Lemma search_proof Q xs : solve_question Q = Ok xs -> search Q xs /\ forall ys, search Q ys -> ys = xs.
Proof.
  intros E. apply while_ends in E. destruct (ends_search _ _ E [Q] [] xs eq_refl eq_refl) as (ys & H & ->).
  inversion H as [|? ? x1 y1 H1 H2]; subst. inversion H2; subst. rewrite app_nil_r. cbn [rev app]. split; [exact H1|now apply search_unique].
Qed.

(** ** the refinement loop *)
Lemma settled_proof Q Q' : question_ok Q -> refine Q = Ok Q' -> (mcols (qA Q') <= 63)%nat ->
  settled Q' /\ reduce_col Q' = Ok Q' /\ eliminate Q' = Ok Q' /\ zero_in_b Q' = Ok Q' /\ only_1_element_in_row Q' = Ok Q'.
Proof.
  intros HQ E HC. pose proof (refine_still Q Q' (ok_wf Q HQ) E) as HS. split; [now apply still_settled|].
  split; [apply HS|]. split; [apply HS|]. split; apply HS.
Qed.

(** ** the check after each step *)
Lemma refused_proof Q : question_ok Q -> (refused Q -> post_check Q = NoSolution) /\ (~ refused Q -> post_check Q = Ok Q).
Proof.
  intros HQ. pose proof (ok_shell Q HQ) as HB. set (s := diff (edges (qans Q))) in *. pose proof (i_rooms _ _ HB) as HR. pose proof HR as (_ & _ & HL & _).
  assert (D : any2 Z.gtb (av (qans Q)) s = false <-> ~ exists i, (i < length (av (qans Q)))%nat /\ room (qans Q) i < nth i (av (qans Q)) 0).
  { rewrite any2_gtb_false by auto. split.
    - intros H (i & Hi & Hr). specialize (H i Hi). rewrite (rooms_room s) in Hr by auto. lia.
    - intros H i Hi. destruct (Z.le_gt_cases (nth i (av (qans Q)) 0) (nth i s 0)) as [|Hg]; auto. exfalso. apply H. exists i. split; auto.
      rewrite (rooms_room s) by auto. lia. }
  unfold refused, post_check. destruct (Nat.eqb_spec (mcols (qA Q)) 0) as [E|E].
  - destruct (existsb (fun x => negb (x =? 0)) (qb Q)) eqn:Eb; cbn [andb].
    + split; [auto|]. intros H. exfalso. apply H. left. split; auto. apply existsb_exists in Eb. destruct Eb as (x & H1 & H2). exists x. split; [auto|lia].
    + rewrite (i_bdlen _ _ HB). unfold qcols. rewrite Nat.eqb_refl, E. cbn [assert_ bind Nat.ltb Nat.leb andb]. rewrite (rooms_quota s) by auto. cbn [bind].
      assert (N : ~ exists x, In x (qb Q) /\ x <> 0). { intros (x & H1 & H2). rewrite existsb_none in Eb. specialize (Eb x H1). lia. }
      destruct (any2 Z.gtb (av (qans Q)) s); split; auto.
      * intros H. exfalso. assert (F : true = false); [|discriminate]. apply D. tauto.
      * intros [[_ H]|[[H _]|H]]; [contradiction|lia|]. exfalso. now apply D.
  - cbn [andb]. rewrite (i_bdlen _ _ HB). unfold qcols. rewrite Nat.eqb_refl. cbn [assert_ bind]. replace (0 <? mcols (qA Q))%nat with true by lia. cbn [andb].
    destruct (Z.ltb_spec (zsum (qbounds Q)) (qquota Q)) as [H0|H0].
    + split; [auto|]. intros H. exfalso. apply H. right. left. lia.
    + rewrite (rooms_quota s) by auto. cbn [bind]. destruct (any2 Z.gtb (av (qans Q)) s); split; auto.
      * intros H. exfalso. assert (F : true = false); [|discriminate]. apply D. intros G. apply H. auto.
      * intros [[H _]|[[_ H]|H]]; [contradiction|lia|]. exfalso. now apply D.
Qed.

(** ** zero_in_b *)
Lemma tightest_unique Q j z z' : tightest Q j z -> tightest Q j z' -> z = z'.
Proof.
  intros (H1 & H2 & H3) (K1 & K2 & K3). apply Z.le_antisymm.
  - destruct K3 as [->|(i & Hi & Hc & ->)]; auto.
  - destruct H3 as [->|(i & Hi & Hc & ->)]; auto.
Qed.
Section zero.
  Variables (s : list Z) (Q : question).
  Hypothesis HB : shell s Q.
  Let T := tighten Q.
  Let bd := qbounds T.
  Lemma z_rows : forall row, In row (mrows (qA Q)) -> length row = length (qbounds Q).
  Proof. intros row Hr. rewrite (i_bdlen _ _ HB). now apply (i_rows _ _ HB). Qed.
  Lemma z_len : length bd = mcols (qA Q).
  Proof. unfold bd, T. simpl. rewrite lub_length by apply z_rows. apply (i_bdlen _ _ HB). Qed.
  Lemma z_tight j : (j < mcols (qA Q))%nat -> tightest Q j (nth j bd 0).
  Proof.
    intros Hj. assert (HL : length (mrows (qA Q)) = length (qb Q)) by (symmetry; apply (i_blen _ _ HB)).
    destruct (bounds_proof (mrows (qA Q)) (qb Q) (qbounds Q) HL z_rows) as (_ & H & _).
    destruct (H j) as (H1 & H2 & H3); [now rewrite (i_bdlen _ _ HB)|]. rewrite HL in H2, H3. split; [exact H1|]. split; [exact H2|exact H3].
  Qed.
  Lemma z_range x : In x bd -> 0 <= x <= 127.
  Proof.
    intros Hx. destruct (In_nth _ _ 0 Hx) as (j & Hj & <-). rewrite z_len in Hj. destruct (z_tight j Hj) as (H1 & _ & H3).
    assert (R1 : 0 <= nth j (qbounds Q) 0 <= 127) by (apply (i_bd _ _ HB), nth_In; rewrite (i_bdlen _ _ HB); exact Hj).
    destruct H3 as [->|(i & Hi & _ & ->)]; [lia|]. apply (i_b _ _ HB), nth_In. exact Hi.
  Qed.
  Lemma z_shell : shell s T.
  Proof.
    constructor; [exact (i_rows _ _ HB)|exact (i_blen _ _ HB)|exact (i_b _ _ HB)|exact z_len|exact z_range|exact (i_quota _ _ HB)|exact (i_rooms _ _ HB)|exact (i_ul _ _ HB)].
  Qed.
  Lemma z_sol w : solw s Q w <-> solw s T w.
  Proof.
    split; intros Hw.
    - constructor; [exact (sw_ext _ _ _ Hw)|exact (sw_room _ _ _ Hw)|exact (sw_sys _ _ _ Hw)|exact (sw_quota _ _ _ Hw)|].
      intros j Hj. change (unknowns T w) with (unknowns Q w). change (qcols T) with (qcols Q) in Hj.
      assert (Hb : (j < length (qbounds Q))%nat) by (rewrite (i_bdlen _ _ HB); exact Hj).
      apply (lub_spec (mrows (qA Q)) (qb Q) (qbounds Q) j (nth j (unknowns Q w) 0) z_rows Hb). split; [now apply (sw_bd _ _ _ Hw)|].
      intros row x Hin Hne. destruct (qsys_good _ _ _ _ HB Hin) as (L & Bt & _).
      rewrite <- (sw_sys _ _ _ Hw _ _ Hin). apply dot_ge; auto.
      + apply pick_pos. apply (solw_pos s Q); auto. apply (i_rooms _ _ HB).
      + rewrite unknowns_length, (i_ul _ _ HB). auto.
      + destruct (Bt (nth j row 0)) as [?|?]; [apply nth_In; lia|easy|auto].
    - constructor; [exact (sw_ext _ _ _ Hw)|exact (sw_room _ _ _ Hw)|exact (sw_sys _ _ _ Hw)|exact (sw_quota _ _ _ Hw)|].
      intros j Hj. pose proof (sw_bd _ _ _ Hw j Hj) as H. change (unknowns T w) with (unknowns Q w) in H.
      pose proof (proj1 (z_tight j Hj)) as H0. fold bd in H. lia.
  Qed.
  Lemma z_body : exists Q' cols, zero_in_b_body Q = Ok Q' /\ zeros_removed Q Q' cols /\ shell s Q' /\ forall w, solw s Q w <-> solw s Q' w.
  Proof.
    pose proof z_shell as HT. pose proof z_len as HL. unfold zero_in_b_body.
    change (lower_upper_bound (mrows (qA Q)) (qb Q) (qbounds Q)) with bd. cbv zeta.
    rewrite (i_ul _ _ HB), HL. unfold qcols. rewrite Nat.eqb_refl. cbn [assert_ bind].
    set (zs := zero_bound_loc bd).
    assert (Hzs : forall j, In j zs <-> (j < mcols (qA Q))%nat /\ nth j bd 0 = 0).
    { intros j. unfold zs, zero_bound_loc. rewrite (where_spec _ 0), HL. split; intros [H1 H2]; split; auto; lia. }
    assert (Hnd : NoDup zs) by apply where_NoDup.
    rewrite nonneg_true by (intros x Hx; apply in_delete in Hx; now apply z_range in Hx). cbn [assert_ bind].
    eexists _, (keep zs (mcols (qA Q))). split; [reflexivity|]. set (Q' := Qst _ _ _ _ _).
    assert (HS : substituted zs (repeat 0 (length zs)) T Q').
    { constructor; try reflexivity.
      - intros i Hi. rewrite dot_comm, dot_repeat0. simpl. lia.
      - rewrite zsum_repeat. simpl. lia.
      - simpl. now rewrite map_zero_pairs. }
    assert (HX : forall x, In x (repeat 0 (length zs)) -> 0 <= x) by (intros x Hx; apply repeat_spec in Hx; lia).
    assert (Hcs : forall j, In j zs -> (j < qcols T)%nat) by (intros j Hj; now apply Hzs).
    assert (HLx : length (repeat 0 (length zs)) = length zs) by apply repeat_length.
    assert (HP : forall w, solw s T w -> pick 0 zs (unknowns T w) = repeat 0 (length zs)).
    { intros w Hw. apply nth_ext0; [now rewrite pick_length, repeat_length|].
      rewrite pick_length. intros i Hi. rewrite nth_pick, nth_repeat_lt by auto.
      assert (Hin : In (nth i zs 0%nat) zs) by now apply nth_In. destruct (proj1 (Hzs _) Hin) as [H1 H2].
      pose proof (sw_bd _ _ _ Hw _ H1) as Hle. fold bd in Hle.
      assert (0 <= nth (nth i zs 0%nat) (unknowns T w) 0); [|lia].
      apply pick_pos with (ul := unknown_loc (qans T)) (w := w).
      + apply (solw_pos s T); auto. apply (i_rooms _ _ HT).
      + apply nth_In. rewrite pick_length, (i_ul _ _ HT). auto. }
    pose proof (keep_length zs (mcols (qA Q)) Hnd Hcs) as [HK HK2].
    assert (HUL : unknown_loc (qans Q') = delete zs (unknown_loc (qans Q))) by (apply (su_ul s zs _ T Q' HT HS); auto).
    split; [|split].
    - constructor.
      + split; [apply sorted_filter_nat, seq_sorted_nat|]. intros j. rewrite in_keep, Hzs. split.
        * intros [H1 H2]. split; auto. exists (nth j bd 0). split; [now apply z_tight|]. tauto.
        * intros [H1 (z & H2 & H3)]. split; auto. intros [_ H4]. pose proof (tightest_unique _ _ _ _ H2 (z_tight j H1)). lia.
      + unfold Q'. cbn [qA]. f_equal; [lia|]. apply map_ext_in. intros row Hr. rewrite (delete_pick 0). destruct (i_rows _ _ HB row Hr) as [L _]. rewrite L. reflexivity.
      + split; reflexivity.
      + unfold Q'. cbn [qbounds]. rewrite (delete_pick 0), HL. split; [apply pick_length|]. intros i Hi. rewrite nth_pick by auto. apply z_tight.
        assert (Hin : In (nth i (keep zs (mcols (qA Q))) 0%nat) (keep zs (mcols (qA Q)))) by now apply nth_In. now apply in_keep in Hin.
      + split; [reflexivity|]. split; [reflexivity|]. unfold Q'. cbn [qans av]. apply assign_all_length.
      + rewrite !open_unknown, HUL, (delete_pick 0%nat), (i_ul _ _ HB). reflexivity.
      + intros i Hi Hn. rewrite open_unknown, HUL in Hn. unfold Q'. cbn [qans av]. destruct (Z.eqb_spec (nth i (av (qans Q)) 0) (-1)) as [E|E].
        * assert (Hin : In i (unknown_loc (qans Q))) by (apply in_unknown; auto). destruct (In_nth _ _ 0%nat Hin) as (j & Hj & <-).
          assert (Hz : In j zs).
          { destruct (memn j zs) eqn:EM; [now apply memn_spec in EM|]. apply memn_false in EM. exfalso. apply Hn. rewrite (delete_pick 0%nat). apply in_map_iff.
            exists j. split; [reflexivity|]. apply in_keep. split; auto. }
          apply (assign_all_here (unknown_loc (qans Q)) (map (fun j => (j, 0)) zs)); auto.
          -- apply where_NoDup.
          -- now rewrite map_map, map_id.
          -- intros j' x Hx. apply in_map_iff in Hx. destruct Hx as (j0 & Ej & Hj0). injection Ej as <- <-. rewrite (i_ul _ _ HB). now apply Hcs.
          -- intros i' Hi'. now apply in_unknown in Hi'.
          -- apply in_map_iff. now exists j.
        * apply assign_all_other. intros j x Hx F. apply in_map_iff in Hx. destruct Hx as (j0 & Ej & Hj0). injection Ej as <- <-.
          apply E. apply in_unknown. fold (unknown_loc (qans Q)). rewrite <- F. apply nth_In. rewrite (i_ul _ _ HB). now apply Hcs.
    - apply (su_shell s zs (repeat 0 (length zs)) T Q' HT HS); auto.
      + intros x Hx. now apply (i_b _ _ HB) in Hx.
      + apply (i_quota _ _ HB).
    - intros w. rewrite z_sol. split; intros Hw.
      + apply (su_sol s zs (repeat 0 (length zs)) T Q' HT HS); auto.
      + apply (su_sol_inv s zs (repeat 0 (length zs)) T Q' HT HS) in Hw; auto; [apply Hw|]. intros i Hi. rewrite nth_repeat_lt by auto.
        assert (Hin : In (nth i zs 0%nat) zs) by now apply nth_In. apply Hzs in Hin. fold bd. lia.
  Qed.
End zero.
Lemma zero_proof Q : question_ok Q -> exists Q' cols, zeros_removed Q Q' cols /\ question_ok Q' /\ (forall w, solution Q w <-> solution Q' w)
  /\ (refused Q' -> zero_in_b Q = NoSolution) /\ (~ refused Q' -> zero_in_b Q = Ok Q').
Proof.
  intros HQ. pose proof (ok_shell Q HQ) as HB. destruct (z_body _ Q HB) as (Q' & cols & E & HZ & HS & Hw). exists Q', cols.
  pose proof (shell_ok _ _ HS) as HQ'. split; [exact HZ|]. split; [exact HQ'|]. split.
  - intros w. rewrite (solution_solw _ Q w HB), (solution_solw _ Q' w HS). apply Hw.
  - unfold zero_in_b. rewrite E. cbn [bind]. now apply refused_proof.
Qed.

(** ** only_1_element_in_row *)
Lemma zr_substituted s cs xs Q Q' : shell s Q -> substituted cs xs Q Q' -> NoDup cs ->
  (forall j, In j cs -> (j < qcols Q)%nat) -> length xs = length cs -> (forall x, In x xs -> 0 <= x) ->
  filled_in Q Q' (map2 pair cs xs) (keep cs (mcols (qA Q))).
Proof.
  intros HB HS Hnd Hcs HL Hx. pose proof (keep_length cs (mcols (qA Q)) Hnd Hcs) as [HK HK2].
  assert (HF : map fst (map2 pair cs xs) = cs) by (apply map_fst_map2_pair; lia).
  assert (HSnd : map snd (map2 pair cs xs) = xs).
  { clear - HL. revert xs HL. induction cs as [|c cs IH]; intros [|x xs] HL; try discriminate; [reflexivity|]. simpl. f_equal. apply IH. now injection HL. }
  assert (HD : forall row, zsum (map (fun cx => nth (fst cx) row 0 * snd cx) (map2 pair cs xs)) = dot (pick 0 cs row) xs).
  { intros row. clear - HL. revert xs HL. induction cs as [|c cs IH]; intros [|x xs] HL; try discriminate; [reflexivity|]. cbn [map2 map pick fst snd]. rewrite zsum_cons, IH by (now injection HL). reflexivity. }
  assert (HUL : unknown_loc (qans Q') = delete cs (unknown_loc (qans Q))) by (apply (su_ul s cs xs Q Q' HB HS); auto).
  assert (HJ : forall j x, In (j, x) (map2 pair cs xs) -> (j < length (unknown_loc (qans Q)))%nat).
  { intros j x Hin. rewrite (i_ul _ _ HB). apply Hcs. rewrite <- HF. apply in_map_iff. now exists (j, x). }
  constructor.
  - split; [apply sorted_filter_nat, seq_sorted_nat|]. intros j. rewrite in_keep, HF. reflexivity.
  - pose proof (su_cols _ _ _ _ HS) as HC. unfold qcols in HC. pose proof (su_rows _ _ _ _ HS) as HR. destruct (qA Q') as [n rows]. simpl in HC, HR. subst n rows. f_equal; [lia|].
    apply map_ext_in. intros row Hr. rewrite (delete_pick 0). destruct (i_rows _ _ HB row Hr) as [L _]. rewrite L. reflexivity.
  - split; [apply (su_blen _ _ _ _ HS)|]. intros i Hi. rewrite (su_b _ _ _ _ HS) by auto. unfold contribution, cell. now rewrite HD.
  - rewrite HSnd. apply (su_quota _ _ _ _ HS).
  - rewrite (su_bounds _ _ _ _ HS), (delete_pick 0), (i_bdlen _ _ HB). reflexivity.
  - split; [apply (su_loc _ _ _ _ HS)|]. split; [apply (su_alen _ _ _ _ HS)|]. rewrite (su_av _ _ _ _ HS). apply assign_all_length.
  - rewrite !open_unknown, HUL, (delete_pick 0%nat), (i_ul _ _ HB). reflexivity.
  - intros c x Hin. rewrite open_unknown, (su_av _ _ _ _ HS). apply assign_all_here; auto.
    + apply where_NoDup.
    + now rewrite HF.
    + intros i Hi. now apply in_unknown in Hi.
  - intros i Hi E. rewrite (su_av _ _ _ _ HS). apply assign_all_other. intros j x Hin F. apply E. apply in_unknown.
    fold (unknown_loc (qans Q)). rewrite <- F. apply nth_In. eapply HJ; eauto.
Qed.
Lemma only_1_with_exact s Q rcs : shell s Q -> rcs_ok (mrows (qA Q)) rcs ->
  let fixed := map (fun rc => (snd rc, nth (fst rc) (qb Q) 0)) rcs in
  (exceeded Q fixed -> only_1_with rcs Q = NoSolution)
  /\ (~ exceeded Q fixed -> exists Q' cols, only_1_with rcs Q = Ok Q' /\ filled_in Q Q' fixed cols).
Proof.
  intros HB HR fixed. pose proof HR as [Hnd Hrc].
  assert (HFx : fixed = map2 pair (map snd rcs) (pick 0 (map fst rcs) (qb Q))).
  { unfold fixed. clear. induction rcs as [|[r c] l IH]; [reflexivity|]. cbn [map map2 pick fst snd]. now rewrite IH. }
  destruct (Nat.eq_dec (length rcs) 0) as [E0|E0].
  { apply length_zero_iff_nil in E0. subst rcs. assert (HE : only_1_with [] Q = Ok Q) by (unfold only_1_with; rewrite (i_ul _ _ HB), (i_bdlen _ _ HB), Nat.eqb_refl; reflexivity).
    split.
    - intros [(c & x & [] & _)|[H|(i & Hi & H)]].
      + exfalso. change (zsum (map snd fixed)) with 0 in H. pose proof (i_quota _ _ HB). lia.
      + exfalso. change (contribution Q fixed i) with 0 in H. assert (Hin : In (nth i (qb Q) 0) (qb Q)) by now apply nth_In. apply (i_b _ _ HB) in Hin. lia.
    - intros _. exists Q, (keep [] (mcols (qA Q))). split; [exact HE|]. rewrite HFx.
      apply (zr_substituted s); auto; try easy.
      assert (HD : forall A (l : list A), delete [] l = l).
      { intros A l. unfold delete. generalize 0%nat. induction l as [|a l IH]; intros n; [reflexivity|]. simpl. now rewrite IH. }
      constructor; try reflexivity.
      + simpl. lia.
      + rewrite <- (map_id (mrows (qA Q))) at 1. apply map_ext. intros row. now rewrite HD.
      + intros i Hi. simpl. lia.
      + change (zsum (pick 0 (map fst []) (qb Q))) with 0. lia.
      + cbn [map]. now rewrite HD. }
  assert (Hne : rcs <> []) by (intros ->; now apply E0). clear E0.
  assert (HU : forall A (x y : A), match rcs with [] => x | _ => y end = y) by (intros; destruct rcs; [easy|reflexivity]).
  unfold only_1_with. rewrite (i_ul _ _ HB), (i_bdlen _ _ HB), Nat.eqb_refl. cbn [assert_ bind]. rewrite HU. cbv zeta. clear HU.
  set (rs := map fst rcs) in *. set (cs := map snd rcs) in *. set (subx := pick 0 rs (qb Q)) in *.
  pose proof (i_blen _ _ HB) as HbL. unfold mnrows in HbL.
  assert (HLrs : length rs = length rcs) by apply map_length.
  assert (HLcs : length cs = length rcs) by apply map_length.
  assert (HLx : length subx = length cs) by (unfold subx; rewrite pick_length; lia).
  assert (Hcs : forall j, In j cs -> (j < qcols Q)%nat).
  { intros j Hj. apply in_map_iff in Hj. destruct Hj as ([r c] & <- & Hin). destruct (Hrc r c Hin) as [H1 H2]. apply single_iff in H2. destruct H2 as [H2 _].
    destruct (i_rows _ _ HB (nth r (mrows (qA Q)) [])) as [L _]; [now apply nth_In|]. cbn [snd]. lia. }
  assert (Hx : forall x, In x subx -> 0 <= x).
  { intros x Hin. apply in_map_iff in Hin. destruct Hin as (r & <- & Hr).
    destruct (Nat.lt_ge_cases r (length (qb Q))) as [L|L]; [|rewrite nth_overflow by auto; lia].
    assert (Hin : In (nth r (qb Q) 0) (qb Q)) by now apply nth_In. apply (i_b _ _ HB) in Hin. lia. }
  assert (HSnd : map snd fixed = subx).
  { unfold fixed, subx, rs, pick. rewrite !map_map. reflexivity. }
  assert (HD : forall i, contribution Q fixed i = dot (pick 0 cs (nth i (mrows (qA Q)) [])) subx).
  { intros i. unfold contribution, cell. rewrite HFx. generalize (nth i (mrows (qA Q)) []) as row. intros row. clear - HLx. revert HLx. generalize cs subx.
    induction cs0 as [|c l IH]; intros [|x xs] HL; try discriminate; [reflexivity|]. cbn [map2 map pick fst snd]. rewrite zsum_cons, IH by (now injection HL). reflexivity. }
  pose proof (i_quota _ _ HB) as HQ.
  set (upd := matvec (map (pick 0 cs) (mrows (qA Q))) subx).
  assert (HLu : length upd = length (qb Q)) by (unfold upd, matvec; rewrite !map_length; lia).
  assert (Hupd : forall i, (i < length (qb Q))%nat -> nth i upd 0 = contribution Q fixed i).
  { intros i Hi. unfold upd, matvec. rewrite map_map, (nth_map_in _ _ _ []) by lia. symmetry. apply HD. }
  assert (Hupdr : forall i, (i < length (qb Q))%nat -> 0 <= nth i upd 0 <= zsum subx).
  { intros i Hi. rewrite Hupd, HD by auto.
    destruct (i_rows _ _ HB (nth i (mrows (qA Q)) [])) as [_ Bt]; [apply nth_In; lia|].
    split; [apply dot_nonneg|apply dot_le_sum]; auto using pick_bits. }
  destruct (existsb _ rcs) eqn:Ex1.
  { split; [auto|]. intros NE. exfalso. apply NE. left. apply existsb_exists in Ex1. destruct Ex1 as ([r c] & Hin & Hlt).
    exists c, (nth r (qb Q) 0). cbn [fst snd] in Hlt. split; [|lia]. apply in_map_iff. now exists (r, c). }
  destruct (Z.ltb_spec (qquota Q) (zsum subx)) as [Hq|Hq].
  { split; [auto|]. intros NE. exfalso. apply NE. right. left. now rewrite HSnd. }
  assert (Ei8 : map i8 upd = upd).
  { apply map_i8_id. intros x Hin. apply (In_nth _ _ 0) in Hin. destruct Hin as (i & Hi & <-).
    specialize (Hupdr i ltac:(lia)). lia. }
  rewrite Ei8.
  destruct (any2 Z.gtb upd (qb Q)) eqn:Ex2.
  { split; [auto|]. intros NE. exfalso.
    assert (any2 Z.gtb upd (qb Q) = false); [|congruence]. apply any2_gtb_false; auto.
    intros i Hi. destruct (Z.lt_ge_cases (nth i (qb Q) 0) (nth i upd 0)) as [L|L]; [|lia]. exfalso. apply NE. right. right. exists i. rewrite <- Hupd by lia. split; [lia|auto]. }
  rewrite any2_gtb_false in Ex2 by auto.
  split.
  { intros HE. exfalso. destruct HE as [(c & x & Hin & Hlt)|[H|(i & Hi & H)]].
    - apply in_map_iff in Hin. destruct Hin as ([r c0] & Ep & Hin). cbn [fst snd] in Ep. injection Ep as Ep1 Ep2. subst c0 x.
      rewrite existsb_none in Ex1. specialize (Ex1 _ Hin). cbn [fst snd] in Ex1. lia.
    - rewrite HSnd in H. lia.
    - rewrite <- Hupd in H by auto. specialize (Ex2 i ltac:(lia)). lia. }
  intros _.
  rewrite (spend_ok subx) by auto. cbn [bind].
  set (b' := map2 (fun x y => i8 (x - y)) (qb Q) upd).
  assert (HLb' : length b' = length (qb Q)) by (unfold b'; rewrite map2_length; lia).
  assert (Hb' : forall i, (i < length (qb Q))%nat -> nth i b' 0 = nth i (qb Q) 0 - nth i upd 0 /\ 0 <= nth i b' 0).
  { intros i Hi. unfold b'. rewrite (nth_map2 _ _ _ _ 0 0) by lia.
    assert (Hin : In (nth i (qb Q) 0) (qb Q)) by now apply nth_In. apply (i_b _ _ HB) in Hin.
    specialize (Ex2 i ltac:(lia)). specialize (Hupdr i Hi). rewrite i8_id by lia. lia. }
  assert (Hb'n : forall x, In x b' -> 0 <= x).
  { intros x Hin. apply (In_nth _ _ 0) in Hin. destruct Hin as (i & Hi & <-). apply Hb'. lia. }
  rewrite (nonneg_true b') by auto. cbn [assert_ bind].
  rewrite nonneg_true by (intros x Hin; apply in_delete in Hin; now apply (i_bd _ _ HB) in Hin). cbn [assert_ bind].
  eexists _, (keep cs (mcols (qA Q))). split; [reflexivity|]. rewrite HFx. set (Q' := Qst _ _ _ _ _).
  apply (zr_substituted s); auto.
  constructor; try reflexivity; auto.
  intros i Hi. cbn [qb Q']. destruct (Hb' i Hi) as [-> _]. now rewrite Hupd, HD by auto.
Qed.
Lemma only_exact_proof Q : question_ok Q -> exists fixed, NoDup (map fst fixed) /\ (forall c x, In (c, x) fixed <-> alone Q c x)
  /\ (exceeded Q fixed -> only_1_element_in_row Q = NoSolution)
  /\ (~ exceeded Q fixed -> exists Q' cols, filled_in Q Q' fixed cols /\ question_ok Q' /\ (forall w, solution Q w <-> solution Q' w)
      /\ (refused Q' -> only_1_element_in_row Q = NoSolution) /\ (~ refused Q' -> only_1_element_in_row Q = Ok Q')).
Proof.
  intros HQ. pose proof (ok_shell Q HQ) as HB. destruct (row_locs_proof (mrows (qA Q))) as [Hnd Hin].
  set (rcs := one_element_row_locs (mrows (qA Q))) in *. exists (map (fun rc => (snd rc, nth (fst rc) (qb Q) 0)) rcs).
  assert (HR : rcs_ok (mrows (qA Q)) rcs).
  { split; auto. intros r c H. apply Hin in H. split; [tauto|]. apply only_entry_single. tauto. }
  split; [rewrite map_map; exact Hnd|]. split.
  { intros c x. rewrite in_map_iff. unfold alone. split.
    - intros ([r c0] & E & H). cbn [fst snd] in E. injection E as <- <-. apply Hin in H. exists r. tauto.
    - intros (r & H1 & H2 & -> & H3). exists (r, c). split; [reflexivity|]. apply Hin. tauto. }
  destruct (only_1_with_exact _ Q rcs HB HR) as [H1 H2]. unfold only_1_element_in_row, only_1_body. fold rcs. split.
  - intros H. now rewrite H1.
  - intros H. destruct (H2 H) as (Q' & cols & E & HF). exists Q', cols. rewrite E. cbn [bind].
    destruct (only_1_with_shell _ Q rcs HB HR) as [[F _]|(Q2 & E2 & HS & Hw & _)]; [congruence|].
    assert (Q2 = Q') by congruence. subst Q2. pose proof (shell_ok _ _ HS) as HQ'. split; [exact HF|]. split; [exact HQ'|]. split.
    + intros w. rewrite (solution_solw _ Q w HB), (solution_solw _ Q' w HS). apply Hw.
    + now apply refused_proof.
Qed.
