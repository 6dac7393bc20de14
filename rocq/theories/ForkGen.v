(** [fork_enum] value by value: which questions come out, and when it raises. *)
From Verif Require Import Np ModelGauss Model Spec QSpec Lib BitFacts Cone ElimFacts QFacts StepFacts ForkFacts QuestionProps QWitness StepSpec StepProps ModelGen GenProps.
From Coq Require Import ZifyBool ZifyNat Sorting.Sorted.

Section fork.
  Variables (s : list Z) (Q : question) (m : nat).
  Hypothesis HB : shell s Q.
  Hypothesis Hm : (m < qcols Q)%nat.
  Let vals := fork_enum_values (qquota Q) (qbounds Q) m.
  Let child := fun q => Qst (Mat (mcols (qA Q) - 1) (map (delete [m]) (mrows (qA Q))))
                  (map2 (fun bv row => i8 (bv - i8 (nth m row 0 * q))) (qb Q) (mrows (qA Q)))
                  (qquota Q - q) (delete [m] (qbounds Q))
                  (Ans (set_nth (nth m (unknown_loc (qans Q)) 0%nat) q (av (qans Q))) (aloc (qans Q)) (alen (qans Q))).
  Let keepq := fun q => negb (existsb (fun x => x <? 0) (qb (child q))).

  Lemma fg_shell q : In q vals -> keepq q = true -> q <= qquota Q -> shell s (child q).
  Proof.
    intros Hv Hk Hle. apply (su_shell s [m] [q] Q (child q)); auto.
    - exact (fk_sub s Q m HB Hm q Hv).
    - repeat constructor; easy.
    - intros j [<-|[]]; auto.
    - intros x [<-|[]]. apply (fk_vals s Q m HB Hm) in Hv. lia.
    - exact (proj1 (fk_keep Q m Hm q) Hk).
    - cbn. lia.
  Qed.
  Lemma fg_skip q : keepq q = false -> fork_one Q m q = Ok None.
  Proof.
    intros Hk. unfold fork_one.
    change (map2 (fun bv row => i8 (bv - i8 (nth m row 0 * q))) (qb Q) (mrows (qA Q))) with (qb (child q)).
    unfold keepq in Hk. apply negb_false_iff in Hk. now rewrite Hk.
  Qed.
  Lemma fg_one q : In q vals -> keepq q = true -> q <= qquota Q -> fork_one Q m q = Ok (Some (child q)).
  Proof.
    intros Hv Hk Hle. unfold fork_one.
    change (map2 (fun bv row => i8 (bv - i8 (nth m row 0 * q))) (qb Q) (mrows (qA Q))) with (qb (child q)).
    assert (E : existsb (fun x => x <? 0) (qb (child q)) = false) by now apply negb_true_iff.
    rewrite E. rewrite (rooms_copy s) by apply (i_rooms _ _ HB). cbn [bind].
    pose proof (fg_shell q Hv Hk Hle) as HB'. unfold mk_question.
    change (delete [m] (qbounds Q)) with (qbounds (child q)).
    change (Mat (mcols (qA Q) - 1) (map (delete [m]) (mrows (qA Q)))) with (qA (child q)).
    change (qquota Q - q) with (qquota (child q)).
    fold (qcols (child q)). rewrite (i_blen _ _ HB'), (i_bdlen _ _ HB'), !Nat.eqb_refl. cbn [assert_ bind].
    rewrite (nonneg_true (qb (child q))) by exact (proj1 (fk_keep Q m Hm q) Hk).
    rewrite (nonneg_true (qbounds (child q))) by (intros x Hx; now apply (i_bd _ _ HB') in Hx). cbn [assert_ bind].
    pose proof (i_quota _ _ HB') as HQ'. destruct (Z.leb_spec 0 (qquota (child q))); [|lia]. reflexivity.
  Qed.
  Lemma assert_cases b : (b = true /\ assert_ b = Ok tt) \/ (b = false /\ assert_ b = Raise AssertionError).
  Proof. destruct b; auto. Qed.
  Lemma fg_raise q : keepq q = true -> qquota Q < q -> fork_one Q m q = Raise AssertionError.
  Proof.
    intros Hk Hlt. unfold fork_one.
    change (map2 (fun bv row => i8 (bv - i8 (nth m row 0 * q))) (qb Q) (mrows (qA Q))) with (qb (child q)).
    assert (E : existsb (fun x => x <? 0) (qb (child q)) = false) by now apply negb_true_iff.
    rewrite E. rewrite (rooms_copy s) by apply (i_rooms _ _ HB). cbn [bind]. unfold mk_question.
    destruct (assert_cases (mnrows (Mat (mcols (qA Q) - 1) (map (delete [m]) (mrows (qA Q)))) =? length (qb (child q)))%nat) as [(_ & ->)|(_ & ->)]; cbn [bind]; auto.
    destruct (assert_cases (mcols (Mat (mcols (qA Q) - 1) (map (delete [m]) (mrows (qA Q)))) =? length (delete [m] (qbounds Q)))%nat) as [(_ & ->)|(_ & ->)]; cbn [bind]; auto.
    destruct (assert_cases (nonneg (qb (child q)))) as [(_ & ->)|(_ & ->)]; cbn [bind]; auto.
    destruct (Z.leb_spec 0 (qquota Q - q)); [lia|]. reflexivity.
  Qed.
  Lemma fg_all w : solw s Q w -> In (nth m (unknowns Q w) 0) (filter keepq vals) /\ nth m (unknowns Q w) 0 <= qquota Q.
  Proof.
    intros Hw.
    assert (LU : length (unknowns Q w) = qcols Q) by (rewrite unknowns_length; apply (i_ul _ _ HB)).
    assert (Hpos : forall x, In x (unknowns Q w) -> 0 <= x).
    { apply pick_pos. apply (solw_pos s Q); auto. apply (i_rooms _ _ HB). }
    set (q := nth m (unknowns Q w) 0).
    assert (HK : length (keep [m] (qcols Q)) = (qcols Q - 1)%nat) by (apply (keep_length [m]); [repeat constructor; easy|intros j [<-|[]]; auto]).
    assert (Hsplit : zsum (unknowns Q w) = q + zsum (delete [m] (unknowns Q w))).
    { rewrite (zsum_split [m] (unknowns Q w)); [|repeat constructor; easy|intros j [<-|[]]; lia].
      unfold pick. cbn [map]. fold q. change (zsum [q]) with (q + 0). lia. }
    assert (Hv : In q vals).
    { apply (fk_vals s Q m HB Hm). split; [split; [apply Hpos, nth_In; lia|now apply (sw_bd _ _ _ Hw)]|].
      rewrite <- (sw_quota _ _ _ Hw), Hsplit.
      rewrite (zsum_split [m] (qbounds Q)); [|repeat constructor; easy|intros j [<-|[]]; rewrite (i_bdlen _ _ HB); lia].
      assert (zsum (delete [m] (unknowns Q w)) <= zsum (delete [m] (qbounds Q))).
      { rewrite !(delete_pick 0), LU, (i_bdlen _ _ HB).
        apply zsum_le_nth; [now rewrite !pick_length|]. rewrite pick_length. intros i Hi. rewrite !nth_pick by auto.
        apply (sw_bd _ _ _ Hw). assert (In (nth i (keep [m] (qcols Q)) 0%nat) (keep [m] (qcols Q))) as Hin by (apply nth_In; lia).
        apply in_keep in Hin. tauto. }
      unfold pick. cbn [map]. change (zsum [nth m (qbounds Q) 0]) with (nth m (qbounds Q) 0 + 0). lia. }
    split.
    - apply filter_In. split; auto. apply (fk_keep Q m Hm q). intros x Hx. apply (In_nth _ _ 0) in Hx. destruct Hx as (i & Hi & <-).
      pose proof (fk_blen s Q m HB Hm q) as HLb. cbn [qb] in HLb. change (length (qb (child q)) = length (qb Q)) in HLb.
      change (i < length (qb (child q)))%nat in Hi. rewrite HLb in Hi.
      pose proof (fk_b s Q m HB Hm q i Hv Hi) as Eb. rewrite Eb.
      pose proof (i_blen _ _ HB) as HL. unfold mnrows in HL.
      assert (Hin : In (nth i (mrows (qA Q)) [], nth i (qb Q) 0) (qsys Q)) by (apply nth_in_combine; auto; lia).
      pose proof (sw_sys _ _ _ Hw _ _ Hin) as E. destruct (qsys_good _ _ _ _ HB Hin) as (L & Bt & _).
      pose proof (dot_nonneg (nth i (mrows (qA Q)) []) (unknowns Q w) Bt Hpos) as Hd.
      unfold cell. destruct (Bt (nth m (nth i (mrows (qA Q)) []) 0)) as [E1|E1]; [apply nth_In; lia| |]; rewrite E1; [lia|].
      pose proof (dot_ge (nth i (mrows (qA Q)) []) (unknowns Q w) m Bt Hpos ltac:(lia) E1). fold q in H. lia.
    - rewrite <- (sw_quota _ _ _ Hw), Hsplit.
      assert (0 <= zsum (delete [m] (unknowns Q w))); [|lia].
      apply zsum_nonneg. intros x Hx. apply Hpos. rewrite (delete_pick 0) in Hx. apply in_map_iff in Hx as (i & <- & Hi).
      apply in_keep in Hi. apply nth_In. tauto.
  Qed.

  (** the events of the loop *)
  Let good q := keepq q && (q <=? qquota Q).
  Let bad q := keepq q && negb (q <=? qquota Q).
  Lemma fg_events l : (forall q, In q l -> In q vals) -> StronglySorted Z.lt l -> forall n,
    nexts fork_next n (ForkAmong Q m l) = stream_of (map child (filter good l)) (if existsb bad l then [Raised AssertionError] else []) n.
  Proof.
    intros Hin HS n. revert n. induction HS as [|q l HS IH HF]; intros n.
    - destruct n as [|n]; [reflexivity|]. cbn [nexts fork_next fork_loop filter map existsb].
      rewrite (nexts_stopped fork_next ForkEnded eq_refl). symmetry. exact (stream_nil (S n)).
    - specialize (IH (fun x Hx => Hin x (or_intror Hx))).
      destruct n as [|n]; [reflexivity|]. cbn [nexts fork_next fork_loop filter existsb].
      destruct (keepq q) eqn:Ek.
      + destruct (Z.leb_spec q (qquota Q)) as [Hle|Hlt].
        * assert (Eg : good q = true) by (unfold good; rewrite Ek; cbn; now apply Z.leb_le).
          assert (Eb : bad q = false) by (unfold bad; rewrite Ek; cbn; apply negb_false_iff; now apply Z.leb_le).
          rewrite Eg, Eb. rewrite (fg_one q (Hin q (or_introl eq_refl)) Ek Hle). cbn [map orb]. rewrite IH. now rewrite stream_cons.
        * assert (Eg : good q = false) by (unfold good; rewrite Ek; cbn; now apply Z.leb_gt).
          assert (Eb : bad q = true) by (unfold bad; rewrite Ek; cbn; apply negb_true_iff; now apply Z.leb_gt).
          rewrite Eg, Eb. rewrite (fg_raise q Ek Hlt). cbn [orb].
          assert (EN : filter good l = []).
          { clear - HF Hlt. induction HF as [|y l Hy HF IH]; cbn; auto. rewrite IH.
            replace (good y) with false; [reflexivity|]. unfold good. symmetry. apply andb_false_iff. right. apply Z.leb_gt. lia. }
          rewrite EN. cbn [map]. rewrite (nexts_stopped fork_next ForkEnded eq_refl). now rewrite stream_end.
      + assert (Eg : good q = false) by (unfold good; now rewrite Ek).
        assert (Eb : bad q = false) by (unfold bad; now rewrite Ek).
        rewrite Eg, Eb, (fg_skip q Ek). cbn [orb]. exact (IH (S n)).
  Qed.
  Lemma fg_bad : existsb bad vals = true <->
    qquota Q < nth m (qbounds Q) 0 /\ forall i, (i < length (qb Q))%nat -> cell (mrows (qA Q)) i m = 1 -> qquota Q < nth i (qb Q) 0.
  Proof.
    assert (HKb : forall q, In q vals -> (keepq q = true <-> forall i, (i < length (qb Q))%nat -> 0 <= nth i (qb Q) 0 - cell (mrows (qA Q)) i m * q)).
    { intros q Hv. pose proof (fk_blen s Q m HB Hm q) as HLb. change (length (qb (child q)) = length (qb Q)) in HLb.
      pose proof (fk_keep Q m Hm q) as HK. change (keepq q = true <-> (forall x, In x (qb (child q)) -> 0 <= x)) in HK. rewrite HK. split.
      - intros H i Hi. pose proof (fk_b s Q m HB Hm q i Hv Hi) as Eb. rewrite <- Eb. apply H.
        change (In (nth i (qb (child q)) 0) (qb (child q))). apply nth_In. now rewrite HLb.
      - intros H x Hx. apply (In_nth _ _ 0) in Hx. destruct Hx as (i & Hi & <-). rewrite HLb in Hi.
        pose proof (fk_b s Q m HB Hm q i Hv Hi) as Eb. change (nth i (qb (child q)) 0 = nth i (qb Q) 0 - cell (mrows (qA Q)) i m * q) in Eb.
        rewrite Eb. now apply H. }
    pose proof (i_quota _ _ HB) as HQ.
    split.
    - intros H. apply existsb_exists in H as (q & Hv & Hb). unfold bad in Hb. apply andb_true_iff in Hb as (Hk & Hq).
      apply negb_true_iff, Z.leb_gt in Hq. rewrite (HKb q Hv) in Hk. apply (fk_vals s Q m HB Hm) in Hv. split; [lia|].
      intros i Hi Hc. specialize (Hk i Hi). rewrite Hc in Hk. lia.
    - intros (H1 & H2). apply existsb_exists. exists (qquota Q + 1).
      assert (Hv : In (qquota Q + 1) vals).
      { apply (fk_vals s Q m HB Hm). split; [lia|].
        rewrite (zsum_split [m] (qbounds Q)); [|repeat constructor; easy|intros j [<-|[]]; rewrite (i_bdlen _ _ HB); lia].
        unfold pick. cbn [map]. change (zsum [nth m (qbounds Q) 0]) with (nth m (qbounds Q) 0 + 0).
        assert (0 <= zsum (delete [m] (qbounds Q))); [|lia].
        apply zsum_nonneg. intros x Hx. rewrite (delete_pick 0) in Hx. apply in_map_iff in Hx as (i & <- & Hi).
        apply in_keep in Hi. apply (i_bd _ _ HB). apply nth_In. tauto. }
      split; [exact Hv|]. unfold bad. apply andb_true_iff. split; [|apply negb_true_iff, Z.leb_gt; lia].
      apply (HKb _ Hv). intros i Hi. pose proof (i_blen _ _ HB) as HL. unfold mnrows in HL.
      assert (Hin : In (nth i (mrows (qA Q)) [], nth i (qb Q) 0) (qsys Q)) by (apply nth_in_combine; auto; lia).
      destruct (qsys_good _ _ _ _ HB Hin) as (L & Bt & Hr). unfold cell in *.
      destruct (Bt (nth m (nth i (mrows (qA Q)) []) 0)) as [E1|E1]; [apply nth_In; lia| |].
      + rewrite E1. lia.
      + specialize (H2 i Hi E1). rewrite E1. lia.
  Qed.
  Lemma fork_generated : argmin (qbounds Q) = Ok m -> exists qs e,
    (forall n, nexts fork_next n (ForkBegin Q) = stream_of qs e n)
    /\ Forall2 (fun q Q' => shell s Q' /\ nth (nth m (unknown_loc (qans Q)) 0%nat) (av (qans Q')) 0 = q
                 /\ forall w, solw s Q' w <-> solw s Q w /\ nth m (unknowns Q w) 0 = q) (filter good vals) qs
    /\ (forall w, solw s Q w -> In (nth m (unknowns Q w) 0) (filter good vals))
    /\ StronglySorted Z.lt (filter good vals)
    /\ ((e = [Raised AssertionError] /\ existsb bad vals = true) \/ (e = [] /\ existsb bad vals = false)).
  Proof.
    intros Em. exists (map child (filter good vals)), (if existsb bad vals then [Raised AssertionError] else []).
    assert (HS : StronglySorted Z.lt vals) by (apply fork_values_proof; now rewrite (i_bdlen _ _ HB)).
    split; [|split; [|split; [|split]]].
    - intros [|n]; [reflexivity|]. rewrite <- (fg_events vals (fun q H => H) HS). cbn [nexts]. unfold fork_next at 1 3.
      rewrite (i_ul _ _ HB). destruct (Nat.ltb_spec 0 (qcols Q)); [|lia]. cbn [assert_ bind]. rewrite Em. reflexivity.
    - assert (Hl : (nth m (unknown_loc (qans Q)) 0 < length (av (qans Q)))%nat).
      { assert (In (nth m (unknown_loc (qans Q)) 0%nat) (unknown_loc (qans Q))) as Hin by (apply nth_In; now rewrite (i_ul _ _ HB)).
        apply in_unknown in Hin. tauto. }
      assert (G : forall l, (forall q, In q l -> In q vals /\ good q = true) ->
        Forall2 (fun q Q' => shell s Q' /\ nth (nth m (unknown_loc (qans Q)) 0%nat) (av (qans Q')) 0 = q
                 /\ forall w, solw s Q' w <-> solw s Q w /\ nth m (unknowns Q w) 0 = q) l (map child l)).
      { induction l as [|q l IH]; intros Hl'; simpl; constructor.
        - destruct (Hl' q ltac:(now left)) as [Hv Hg]. unfold good in Hg. apply andb_true_iff in Hg as (Hk & Hle). apply Z.leb_le in Hle.
          split; [now apply fg_shell|]. split; [exact (fk_value Q m q Hl)|]. intros w. exact (fk_sol s Q m HB Hm q w Hv Hk).
        - apply IH. intros; apply Hl'; now right. }
      apply G. intros q Hin. now apply filter_In in Hin.
    - intros w Hw. destruct (fg_all w Hw) as (H1 & H2). apply filter_In in H1 as (H1 & H3). apply filter_In. split; [exact H1|].
      unfold good. rewrite H3. cbn. now apply Z.leb_le.
    - now apply sorted_filter_Z.
    - destruct (existsb bad vals); auto.
  Qed.
End fork.

Theorem fork_generator_proof Q : question_ok Q -> (1 <= mcols (qA Q))%nat ->
  (fork_call Q = NoSolution /\ forall w, ~ solution Q w)
  \/ exists g qs m vals e, fork_call Q = Ok g /\ first_minimum (qbounds Q) m
     /\ (forall n, nexts fork_next n g = firstn n (map Yielded qs ++ e ++ repeat Stopped n))
     /\ StronglySorted Z.lt vals
     /\ Forall2 (fun q Q' => question_ok Q'
          /\ nth (nth m (open (qans Q)) 0%nat) (av (qans Q')) 0 = q
          /\ forall w, solution Q' w <-> solution Q w /\ nth (nth m (open (qans Q)) 0%nat) w 0 = q) vals qs
     /\ (forall w, solution Q w -> In (nth (nth m (open (qans Q)) 0%nat) w 0) vals)
     /\ (e = [] \/ e = [Raised AssertionError])
     /\ (e = [Raised AssertionError] <-> qquota Q < nth m (qbounds Q) 0
          /\ forall i, (i < length (qb Q))%nat -> cell (mrows (qA Q)) i m = 1 -> qquota Q < nth i (qb Q) 0).
Proof.
  intros HQ HC. pose proof (ok_shell Q HQ) as HB.
  destruct (post_check_proof Q HQ) as [HP|[HP F]].
  2:{ left. split; auto. unfold fork_call. now rewrite HP. }
  right. destruct (argmin_spec (qbounds Q)) as (m & Em & Hm).
  { intros E. pose proof (i_bdlen _ _ HB) as HL. rewrite E in HL. unfold qcols in HL. simpl in HL. lia. }
  assert (Hml : (m < qcols Q)%nat) by (rewrite <- (i_bdlen _ _ HB); apply Hm).
  destruct (fork_generated _ Q m HB Hml Em) as (qs & e & H1 & H2 & H3 & H4 & H5).
  pose proof (fg_bad _ Q m HB Hml) as HBad.
  assert (Hn : forall w, nth m (unknowns Q w) 0 = nth (nth m (open (qans Q)) 0%nat) w 0).
  { intros w. unfold unknowns. rewrite nth_pick by now rewrite (i_ul _ _ HB). now rewrite open_unknown. }
  eexists (ForkBegin Q), qs, m, _, e. split; [unfold fork_call; now rewrite HP|]. split; [exact Hm|]. split; [exact H1|]. split; [exact H4|].
  split; [|split; [|split]].
  - eapply Forall2_mono; [|exact H2]. cbv beta. intros q Q' (A1 & A2 & A3). rewrite open_unknown. split; [eapply shell_ok; eauto|]. split; [exact A2|].
    intros w. rewrite (solution_solw _ Q' w A1), (solution_solw _ Q w HB), A3, Hn, open_unknown. reflexivity.
  - intros w Hw. rewrite <- Hn. apply H3. now apply (solution_solw _ Q).
  - destruct H5 as [(-> & _)|(-> & _)]; auto.
  - rewrite <- HBad. destruct H5 as [(-> & E)|(-> & E)]; rewrite E; split; congruence.
Qed.

(** the list of [Model] *)
Definition some_of {A} (o : option A) : list A := match o with Some q => [q] | None => [] end.
Lemma fork_loop_list Q m l qs : mapM (fork_one Q m) l = Ok qs ->
  forall n, nexts fork_next n (ForkAmong Q m l) = stream_of (flat_map some_of qs) [] n.
Proof.
  revert qs. induction l as [|q l IH]; intros qs E n.
  - injection E as <-. destruct n as [|n]; [reflexivity|]. cbn [nexts fork_next fork_loop].
    rewrite (nexts_stopped fork_next ForkEnded eq_refl). symmetry. exact (stream_nil (S n)).
  - cbn [mapM] in E. destruct (fork_one Q m q) as [y| |] eqn:E1; try discriminate. cbn [bind] in E.
    destruct (mapM (fork_one Q m) l) as [ys| |] eqn:E2; try discriminate. cbn [bind] in E. injection E as <-.
    destruct n as [|n]; [reflexivity|]. destruct y as [Q'|]; cbn [flat_map some_of app].
    + cbn [nexts fork_next fork_loop]. rewrite E1, (IH ys eq_refl). now rewrite stream_cons.
    + cbn [nexts fork_next fork_loop]. rewrite E1. exact (IH ys eq_refl (S n)).
Qed.
Lemma fork_loop_raise Q m l e : mapM (fork_one Q m) l = Raise e ->
  exists qs, forall n, nexts fork_next n (ForkAmong Q m l) = stream_of qs [Raised e] n.
Proof.
  induction l as [|q l IH]; intros E; [discriminate|].
  cbn [mapM] in E. destruct (fork_one Q m q) as [y| |e'] eqn:E1; try discriminate; cbn [bind] in E.
  - destruct (mapM (fork_one Q m) l) as [ys| |e2] eqn:E2; try discriminate. cbn [bind] in E. injection E as ->.
    destruct (IH eq_refl) as (qs & H). destruct y as [Q'|].
    + exists (Q' :: qs). intros [|n]; [reflexivity|]. cbn [nexts fork_next fork_loop]. rewrite E1, H. now rewrite stream_cons.
    + exists qs. intros [|n]; [reflexivity|]. cbn [nexts fork_next fork_loop]. rewrite E1. exact (H (S n)).
  - injection E as ->. exists []. intros [|n]; [reflexivity|]. cbn [nexts fork_next fork_loop]. rewrite E1.
    rewrite (nexts_stopped fork_next ForkEnded eq_refl). now rewrite stream_end.
Qed.
Theorem fork_list_proof Q qs : fork_enum Q = Ok qs -> exists g, fork_call Q = Ok g
  /\ forall n, nexts fork_next n g = firstn n (map Yielded qs ++ repeat Stopped n).
Proof.
  unfold fork_enum, fork_call. destruct (post_check Q) as [P| |]; try discriminate. cbn [bind]. intros E.
  exists (ForkBegin Q). split; [reflexivity|]. intros [|n]; [reflexivity|].
  cbn [nexts]. unfold fork_next at 1. destruct (assert_ _) as [u| |]; try discriminate. cbn [bind] in *.
  destruct (argmin (qbounds Q)) as [m| |]; try discriminate. cbn [bind] in *.
  destruct (mapM _ _) as [os| |] eqn:EM; try discriminate. cbn [bind] in E. injection E as <-.
  exact (fork_loop_list Q m _ os EM (S n)).
Qed.
Theorem fork_list_raise_proof Q e : fork_enum Q = Raise e -> fork_call Q = Raise e \/ exists g qs, fork_call Q = Ok g
  /\ forall n, nexts fork_next n g = firstn n (map Yielded qs ++ [Raised e] ++ repeat Stopped n).
Proof.
  unfold fork_enum, fork_call. destruct (post_check Q) as [P| |e']; try discriminate; cbn [bind]; intros E; [|left; congruence]. right.
  destruct (assert_ (0 <? length (unknown_loc (qans Q)))%nat) as [u| |e'] eqn:E0; try discriminate; cbn [bind] in E.
  - destruct (argmin (qbounds Q)) as [m| |e'] eqn:E1; try discriminate; cbn [bind] in E.
    + destruct (mapM _ _) as [os| |e'] eqn:EM; try discriminate. cbn [bind] in E. injection E as ->.
      destruct (fork_loop_raise Q m _ e EM) as (qs & H). exists (ForkBegin Q), qs. split; [reflexivity|]. intros [|n]; [reflexivity|].
      cbn [nexts]. unfold fork_next at 1. rewrite E0, E1. cbn [bind]. exact (H (S n)).
    + injection E as ->. exists (ForkBegin Q), []. split; [reflexivity|]. intros [|n]; [reflexivity|].
      cbn [nexts]. unfold fork_next at 1. rewrite E0, E1. cbn [bind].
      rewrite (nexts_stopped fork_next ForkEnded eq_refl). symmetry. exact (stream_end (Raised e) n).
  - injection E as ->. exists (ForkBegin Q), []. split; [reflexivity|]. intros [|n]; [reflexivity|].
    cbn [nexts]. unfold fork_next at 1. rewrite E0. cbn [bind].
    rewrite (nexts_stopped fork_next ForkEnded eq_refl). symmetry. exact (stream_end (Raised e) n).
Qed.

Lemma loose_question_ok : question_ok loose_question.
Proof.
  constructor; try (now small).
  - split; [reflexivity|]. small.
  - intros row Hr a Ha. unfold bit. small.
  - split; [reflexivity|]. small.
  - now apply answer_ok_intro.
Qed.

Theorem fork_refused_proof Q : question_ok Q ->
  (refused Q -> fork_call Q = NoSolution /\ fork_enum Q = NoSolution) /\ (~ refused Q -> exists g, fork_call Q = Ok g).
Proof.
  intros H. destruct (refused_proof Q H) as (H1 & H2). unfold fork_call, fork_enum. split; intros HR.
  - rewrite (H1 HR). now split.
  - rewrite (H2 HR). cbn. eauto.
Qed.
