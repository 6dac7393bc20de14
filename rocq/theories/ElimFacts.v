(** Gaussian elimination: [elim] never loses a solution, keeps the cone,
    terminates in a normal form. *)
From Verif Require Import Np ModelGauss Spec Lib BitFacts Cone.
From Coq Require Import ZifyBool ZifyNat Sorting.Sorted.

(** ** The order on entries *)
Definition ele (x y : entry) : Prop := entry_leb x y = true.

Lemma ele_iff x y : ele x y <->
  ekey x < ekey y \/ (ekey x = ekey y /\ (eidx x < eidx y \/ (eidx x = eidx y /\ eval_ x <= eval_ y))).
Proof. unfold ele, entry_leb. lia. Qed.

Lemma ele_total x y : ele x y \/ ele y x.
Proof. rewrite !ele_iff. lia. Qed.
Lemma ele_trans x y z : ele x y -> ele y z -> ele x z.
Proof. rewrite !ele_iff. lia. Qed.
Lemma ele_refl x : ele x x.
Proof. rewrite ele_iff. lia. Qed.
Lemma leb_false x y : entry_leb x y = false -> ele y x.
Proof. intros H. destruct (ele_total x y) as [E|E]; auto. unfold ele in E. congruence. Qed.

Notation ssorted := (StronglySorted ele).

Lemma insert_e_perm e l : Permutation (e :: l) (insert_e e l).
Proof.
  induction l as [|x l IH]; simpl; auto.
  destruct (entry_leb e x); auto. rewrite perm_swap. now constructor.
Qed.
Lemma sort_e_perm l : Permutation l (sort_e l).
Proof.
  induction l as [|x l IH]; simpl; auto. rewrite <- insert_e_perm. now constructor.
Qed.
Lemma insert_e_sorted e l : ssorted l -> ssorted (insert_e e l).
Proof.
  induction l as [|x l IH]; simpl; intros H; [repeat constructor|].
  destruct (entry_leb e x) eqn:E.
  - constructor; auto. constructor; auto.
    inversion H; subst. eapply Forall_impl; [|eassumption]. intros y Hy. eapply ele_trans; eauto.
  - inversion H; subst. constructor; auto.
    eapply Permutation_Forall; [apply insert_e_perm|]. constructor; auto. now apply leb_false.
Qed.
Lemma sort_e_sorted l : ssorted (sort_e l).
Proof. induction l as [|x l IH]; simpl; [constructor|]. now apply insert_e_sorted. Qed.

Lemma insert_e_id e l : ssorted (e :: l) -> insert_e e l = e :: l.
Proof.
  intros H. destruct l as [|x l]; auto. simpl.
  inversion H as [|? ? H1 H2]; subst. inversion H2 as [|? ? H3 H4]; subst. unfold ele in H3. now rewrite H3.
Qed.
Lemma sort_e_id l : ssorted l -> sort_e l = l.
Proof.
  induction l as [|x l IH]; intros H; auto. simpl. inversion H; subst. rewrite IH by auto.
  now apply insert_e_id.
Qed.

Lemma merge_e_nil_r a : merge_e a [] = a.
Proof. destruct a; reflexivity. Qed.
Lemma merge_e_cons x a y b :
  merge_e (x :: a) (y :: b) =
  if entry_leb x y then x :: merge_e a (y :: b) else y :: merge_e (x :: a) b.
Proof. reflexivity. Qed.

Lemma merge_e_perm a : forall b, Permutation (a ++ b) (merge_e a b).
Proof.
  induction a as [|x a IHa]; intros b; [destruct b; reflexivity|].
  induction b as [|y b IHb].
  - rewrite merge_e_nil_r, app_nil_r. reflexivity.
  - rewrite merge_e_cons. destruct (entry_leb x y).
    + simpl. constructor. apply IHa.
    + rewrite <- IHb. simpl. rewrite <- Permutation_middle. apply perm_swap.
Qed.

Lemma merge_e_sorted a : forall b, ssorted a -> ssorted b -> ssorted (merge_e a b).
Proof.
  induction a as [|x a IHa]; intros b Ha Hb; [destruct b; auto|].
  induction b as [|y b IHb]; [now rewrite merge_e_nil_r|].
  rewrite merge_e_cons. destruct (entry_leb x y) eqn:E.
  - inversion Ha; subst. constructor; auto.
    eapply Permutation_Forall; [apply merge_e_perm|]. apply Forall_app. split; auto.
    inversion Hb; subst. constructor; [exact E|].
    eapply Forall_impl; [|eassumption]. intros z Hz. eapply ele_trans; eauto.
  - inversion Hb; subst. constructor; auto.
    eapply Permutation_Forall; [apply (merge_e_perm (x :: a))|].
    apply leb_false in E. apply Forall_app. split; auto.
    inversion Ha; subst. constructor; auto.
    eapply Forall_impl; [|eassumption]. intros z Hz. eapply ele_trans; eauto.
Qed.

Lemma merge_e_single m l : ssorted (m :: l) -> merge_e [m] l = m :: l.
Proof.
  intros H. destruct l as [|x l]; auto. rewrite merge_e_cons.
  inversion H as [|? ? H1 H2]; subst. inversion H2 as [|? ? H3 H4]; subst. unfold ele in H3. now rewrite H3.
Qed.

Lemma ssorted_filter p l : ssorted l -> ssorted (filter p l).
Proof.
  induction 1 as [|x l H IH HF]; simpl; [constructor|].
  destruct (p x); auto. constructor; auto.
  apply Forall_forall. intros y Hy. apply filter_In in Hy. rewrite Forall_forall in HF. apply HF. tauto.
Qed.
Lemma ssorted_map f l : (forall x y, ele x y -> ele (f x) (f y)) -> ssorted l -> ssorted (map f l).
Proof.
  intros Hf. induction 1 as [|x l H IH HF]; simpl; [constructor|]. constructor; auto.
  apply Forall_map. eapply Forall_impl; [|eassumption]. auto.
Qed.
Lemma ssorted_app_l a b : ssorted (a ++ b) -> ssorted a.
Proof.
  induction a as [|x a IH]; simpl; intros H; [constructor|].
  inversion H; subst. constructor; auto. apply Forall_app in H3. tauto.
Qed.
Lemma ssorted_app_r a b : ssorted (a ++ b) -> ssorted b.
Proof. induction a as [|x a IH]; simpl; intros H; auto. inversion H; subst. auto. Qed.

Lemma sub_entry_mono m x y : ele x y -> ele (sub_entry m x) (sub_entry m y).
Proof. rewrite !ele_iff. unfold sub_entry, ekey, eidx, eval_; simpl. lia. Qed.

(** ** Systems given by entries *)
Definition esys (C : nat) (E : list entry) : sys :=
  map (fun e => (row_of C (ekey e), eval_ e)) E.

Definition good (C : nat) (B : Z) (e : entry) : Prop :=
  0 <= ekey e < 2 ^ Z.of_nat C /\ 0 <= eval_ e <= B.

Lemma esys_wide C E : wide C (esys C E).
Proof.
  intros row b H. apply in_map_iff in H. destruct H as (e & He & _).
  injection He as <- <-. apply row_of_length.
Qed.
Lemma in_esys C E e : In e E -> In (row_of C (ekey e), eval_ e) (esys C E).
Proof. intros H. apply in_map_iff. eauto. Qed.

(** [E'] is obtained from [E] by elimination steps *)
Record reduced (C : nat) (B : Z) (E E' : list entry) : Prop := {
  red_good : Forall (good C B) E';
  red_cone : forall e, In e E -> cone C (esys C E') (row_of C (ekey e)) (eval_ e);
  red_sol : forall y, holds (esys C E) y -> holds (esys C E') y;
  red_len : (length E' <= length E)%nat }.

Lemma reduced_refl C B E : Forall (good C B) E -> reduced C B E E.
Proof.
  intros H. constructor; auto. intros e He. apply cone_in; [apply esys_wide|now apply in_esys].
Qed.
Lemma reduced_trans C B E1 E2 E3 : reduced C B E1 E2 -> reduced C B E2 E3 -> reduced C B E1 E3.
Proof.
  intros [G1 C1 S1 L1] [G2 C2 S2 L2]. constructor; auto; [|lia].
  intros e He. apply (cone_trans C (esys C E2)); auto using esys_wide.
  intros row b Hin. apply in_map_iff in Hin. destruct Hin as (e' & E & He').
  injection E as <- <-. auto.
Qed.
Lemma reduced_perm C B E1 E2 E3 : Permutation E2 E3 -> reduced C B E1 E2 -> reduced C B E1 E3.
Proof.
  intros HP [G1 C1 S1 L1]. constructor.
  - eapply Permutation_Forall; eauto.
  - intros e He. apply (cone_trans C (esys C E2)); auto using esys_wide.
    intros row b Hin. apply cone_in; [apply esys_wide|].
    eapply Permutation_in; [|exact Hin]. now apply Permutation_map.
  - intros y Hy row b Hin. apply (S1 y Hy row b).
    eapply Permutation_in; [|exact Hin]. symmetry. now apply Permutation_map.
  - apply Permutation_length in HP. lia.
Qed.

Lemma reduced_remove_zerokeys C B E : Forall (good C B) E -> reduced C B E (remove_zerokeys E).
Proof.
  intros HG. rewrite Forall_forall in HG. constructor.
  - apply Forall_forall. intros e He. apply filter_In in He. apply HG. tauto.
  - intros e He. destruct (Z.ltb_spec 0 (ekey e)) as [H|H].
    + apply cone_in; [apply esys_wide|]. apply in_esys, filter_In. split; auto. lia.
    + assert (E0 : ekey e = 0) by (specialize (HG _ He); unfold good in HG; lia).
      rewrite E0, row_of_0. constructor. specialize (HG _ He). unfold good in HG. lia.
  - intros y Hy row b Hin. apply in_map_iff in Hin. destruct Hin as (e & E1 & He).
    injection E1 as <- <-. apply filter_In in He. apply Hy. apply in_esys. tauto.
  - unfold remove_zerokeys.
    induction E as [|e E IH]; simpl; auto. destruct (0 <? ekey e); simpl;
    assert (length (filter (fun e => (0 <? ekey e)%Z) E) <= length E)%nat
      by (apply IH; intros; apply HG; now right); lia.
Qed.

Definition keysum (E : list entry) : Z := zsum (map ekey E).

(** one elimination round: subtracting [m] where it is contained *)
Lemma reduced_sub C B m rest :
  Forall (good C B) (m :: rest) ->
  reduced C B (m :: rest)
    (m :: map (sub_entry m) (filter (reduces m) rest) ++ filter (fun e => negb (reduces m e)) rest).
Proof.
  intros HG. inversion HG as [|? ? Gm Gr]; subst. rewrite Forall_forall in Gr.
  assert (Gsub : forall e, In e rest -> reduces m e = true ->
            good C B (sub_entry m e)
            /\ row_of C (ekey e) = vadd (row_of C (ekey m)) (row_of C (ekey (sub_entry m e)))
            /\ eval_ e = eval_ m + eval_ (sub_entry m e)).
  { intros e He Hr. unfold reduces in Hr. apply andb_true_iff in Hr. destruct Hr as [H1 H2].
    apply Z.eqb_eq in H1. specialize (Gr _ He). unfold good in *.
    pose proof (land_le (ekey m) (ekey e) ltac:(lia) ltac:(lia) H1).
    unfold sub_entry, ekey, eval_ in *; cbn [fst snd] in *.
    split; [lia|]. split; [now apply row_of_sub|]. lia. }
  set (N := m :: _ ++ _).
  assert (Hm : In m N) by now left.
  constructor.
  - subst N. constructor; auto. apply Forall_app. split; apply Forall_forall.
    + intros e He. apply in_map_iff in He. destruct He as (e' & <- & He').
      apply filter_In in He'. apply Gsub; tauto.
    + intros e He. apply filter_In in He. apply Gr. tauto.
  - intros e [<-|He].
    + apply cone_in; [apply esys_wide|now apply in_esys].
    + destruct (reduces m e) eqn:Hr.
      * destruct (Gsub e He Hr) as (_ & -> & ->).
        apply cone_sum; [apply esys_wide| |]; (apply cone_in; [apply esys_wide|]); apply in_esys; auto.
        subst N. right. apply in_app_iff. left. apply in_map, filter_In. auto.
      * apply cone_in; [apply esys_wide|]. apply in_esys. subst N. right. apply in_app_iff. right.
        apply filter_In. now rewrite Hr.
  - intros y Hy row b Hin. apply in_map_iff in Hin. destruct Hin as (e & E1 & He).
    injection E1 as <- <-. subst N. destruct He as [<-|He]; [apply Hy; now apply in_esys; left|].
    apply in_app_iff in He. destruct He as [He|He].
    + apply in_map_iff in He. destruct He as (e' & <- & He'). apply filter_In in He'. destruct He' as [He' Hr].
      destruct (Gsub e' He' Hr) as (_ & Er & Ev).
      pose proof (Hy _ _ (in_esys C (m :: rest) e' (or_intror He'))) as H1.
      pose proof (Hy _ _ (in_esys C (m :: rest) m (or_introl eq_refl))) as H2.
      rewrite Er, dot_vadd in H1 by now rewrite !row_of_length. lia.
    + apply filter_In in He. apply Hy. apply in_esys. right. tauto.
  - subst N. simpl. rewrite app_length, map_length.
    assert (Hl : forall l, (length (filter (reduces m) l) + length (filter (fun e => negb (reduces m e)) l) = length l)%nat).
    { induction l as [|x l IH]; simpl; auto. destruct (reduces m x); simpl; lia. }
    rewrite Hl. lia.
Qed.

Lemma keysum_app a b : keysum (a ++ b) = keysum a + keysum b.
Proof. unfold keysum. now rewrite map_app, zsum_app. Qed.
Lemma keysum_perm a b : Permutation a b -> keysum a = keysum b.
Proof. intros H. apply zsum_perm. now apply Permutation_map. Qed.
Lemma keysum_remove_zerokeys E : (forall e, In e E -> 0 <= ekey e) -> keysum (remove_zerokeys E) = keysum E.
Proof.
  induction E as [|e E IH]; intros H; auto. unfold keysum in *. simpl.
  assert (He := H e (or_introl eq_refl)).
  destruct (Z.ltb_spec 0 (ekey e)); simpl; rewrite !zsum_cons, IH by (intros; apply H; now right); lia.
Qed.
Lemma keysum_sub m rest :
  keysum (map (sub_entry m) (filter (reduces m) rest) ++ filter (fun e => negb (reduces m e)) rest)
  = keysum rest - ekey m * Z.of_nat (length (filter (reduces m) rest)).
Proof.
  rewrite keysum_app. induction rest as [|e rest IH]; [unfold keysum; simpl; unfold zsum; simpl; lia|].
  unfold keysum in *. simpl. destruct (reduces m e); simpl; rewrite ?zsum_cons.
  - unfold sub_entry at 1, ekey at 1; simpl. fold (ekey e) (ekey m). lia.
  - lia.
Qed.

Definition positive_keys (E : list entry) : Prop := forall e, In e E -> 0 < ekey e.

Lemma remove_zerokeys_app a b : remove_zerokeys (a ++ b) = remove_zerokeys a ++ remove_zerokeys b.
Proof. apply filter_app. Qed.
Lemma remove_zerokeys_id E : positive_keys E -> remove_zerokeys E = E.
Proof.
  intros HP. unfold remove_zerokeys. induction E as [|e E IH]; simpl; auto.
  assert (H := HP e (or_introl eq_refl)). destruct (Z.ltb_spec 0 (ekey e)); [|lia].
  f_equal. apply IH. intros x Hx; apply HP; now right.
Qed.

(** what one call of [gauss_elim] does *)
Lemma gauss_elim_spec C B m rest :
  ssorted (m :: rest) -> Forall (good C B) (m :: rest) -> positive_keys (m :: rest) ->
  (gauss_elim (m :: rest) = Ok (false, m :: rest)
   /\ forall e, In e rest -> reduces m e = false)
  \/ exists hd', gauss_elim (m :: rest) = Ok (true, hd')
     /\ ssorted hd' /\ positive_keys hd' /\ reduced C B (m :: rest) hd'
     /\ keysum hd' < keysum (m :: rest).
Proof.
  intros HS HG HP. unfold gauss_elim.
  assert (Hm : 0 < ekey m) by (apply HP; now left).
  destruct (Z.ltb_spec 0 (ekey m)) as [_|]; [|lia]. simpl assert_. cbn [bind].
  inversion HS as [|? ? HSr HF]; subst.
  destruct (map (sub_entry m) (filter (reduces m) rest)) as [|r0 rs] eqn:Er.
  - left. assert (Hn : forall e, In e rest -> reduces m e = false).
    { intros e He. destruct (reduces m e) eqn:E; auto.
      assert (Hin : In (sub_entry m e) (map (sub_entry m) (filter (reduces m) rest)))
        by (apply in_map, filter_In; auto). rewrite Er in Hin. easy. }
    split; auto.
    assert (Ef : filter (fun e => negb (reduces m e)) rest = rest).
    { clear - Hn. induction rest as [|x l IH]; simpl; auto.
      rewrite Hn by now left. simpl. f_equal. apply IH. intros; apply Hn; now right. }
    rewrite Ef, merge_e_single; auto.
  - right. set (red := r0 :: rs) in *.
    set (same := filter (fun e => negb (reduces m e)) rest).
    eexists. split; [reflexivity|].
    assert (P1 : Permutation (merge_e [m] (merge_e (remove_zerokeys red) same)) (m :: remove_zerokeys red ++ same)).
    { rewrite <- (merge_e_perm [m]). simpl. constructor. symmetry. apply merge_e_perm. }
    pose proof (reduced_sub C B m rest HG) as HR. rewrite Er in HR. fold red same in HR.
    assert (HR2 : reduced C B (m :: red ++ same) (m :: remove_zerokeys red ++ same)).
    { pose proof (red_good _ _ _ _ HR) as G.
      pose proof (reduced_remove_zerokeys C B (m :: red ++ same) G) as H.
      assert (E : remove_zerokeys (m :: red ++ same) = m :: remove_zerokeys red ++ same).
      { change (m :: red ++ same) with ([m] ++ (red ++ same)).
        rewrite !remove_zerokeys_app, (remove_zerokeys_id [m]), (remove_zerokeys_id same); [reflexivity| |].
        - intros e He. apply filter_In in He. apply HP. right. tauto.
        - intros e [<-|[]]. exact Hm. }
      rewrite E in H. exact H. }
    split; [|split; [|split]].
    + apply merge_e_sorted; [repeat constructor|]. apply merge_e_sorted.
      * unfold remove_zerokeys. apply ssorted_filter. rewrite <- Er.
        apply ssorted_map; [apply sub_entry_mono|]. now apply ssorted_filter.
      * now apply ssorted_filter.
    + intros e He. apply (Permutation_in _ P1) in He. destruct He as [<-|He]; auto.
      apply in_app_iff in He. destruct He as [He|He]; apply filter_In in He; [lia|].
      apply HP. right. tauto.
    + eapply reduced_perm; [symmetry; exact P1|]. eapply reduced_trans; eauto.
    + rewrite (keysum_perm _ _ P1).
      change (m :: remove_zerokeys red ++ same) with ([m] ++ remove_zerokeys red ++ same).
      change (m :: rest) with ([m] ++ rest). rewrite !(keysum_app [m]).
      rewrite keysum_app, keysum_remove_zerokeys.
      * rewrite <- keysum_app. rewrite <- Er; unfold same; rewrite keysum_sub.
        assert (0 < Z.of_nat (length (filter (reduces m) rest))).
        { apply (f_equal (@length _)) in Er. rewrite map_length in Er. simpl in Er. lia. }
        nia.
      * intros e He. pose proof (red_good _ _ _ _ HR) as G. rewrite Forall_forall in G.
        specialize (G e). unfold good in G. apply G. right. apply in_app_iff. now left.
Qed.

(** no entry can be subtracted from a later one *)
Definition irreducible (E : list entry) : Prop :=
  forall l1 m l2, E = l1 ++ m :: l2 -> forall e, In e l2 -> reduces m e = false.

(** loop invariant of [elim_core] *)
Record elim_inv (C : nat) (B : Z) (E0 : list entry) (s : list entry * list entry) : Prop := {
  ei_sorted : ssorted (fst s ++ snd s);
  ei_pos : positive_keys (fst s ++ snd s);
  ei_red : reduced C B E0 (fst s ++ snd s);
  ei_irr : forall l1 m l2, fst s = l1 ++ m :: l2 ->
           forall e, In e (l2 ++ snd s) -> reduces m e = false }.

Definition elim_mu (N : nat) (s : list entry * list entry) : Z :=
  keysum (fst s ++ snd s) * (Z.of_nat N + 1) + Z.of_nat (length (snd s)).

Lemma snoc_split {A} (hs : list A) m l1 x l2 :
  hs ++ [m] = l1 ++ x :: l2 ->
  (l2 = [] /\ l1 = hs /\ x = m) \/ exists l2', l2 = l2' ++ [m] /\ hs = l1 ++ x :: l2'.
Proof.
  intros E. destruct l2 as [|y l2 _] using rev_ind.
  - left. apply app_inj_tail in E. intuition.
  - right. change (l1 ++ x :: l2 ++ [y]) with (l1 ++ (x :: l2) ++ [y]) in E.
    rewrite app_assoc in E. apply app_inj_tail in E. destruct E as [-> ->]. eauto.
Qed.

Lemma elim_step_spec C B E0 s :
  elim_inv C B E0 s ->
  match elim_step s with
  | inl s' => elim_inv C B E0 s' /\ elim_mu (length E0) s' < elim_mu (length E0) s
  | inr r => exists E, r = Ok E /\ ssorted E /\ positive_keys E /\ reduced C B E0 E /\ irreducible E
  end.
Proof.
  destruct s as [hs hd]. intros [HS HP HR HI]. simpl fst in *; simpl snd in *.
  destruct hd as [|m rest].
  - simpl. rewrite app_nil_r in *. exists hs. repeat split; auto.
    all: try apply HR. intros l1 x l2 E e He. eapply HI; eauto. now rewrite app_nil_r.
  - assert (HSr : ssorted (m :: rest)) by (eapply ssorted_app_r; eauto).
    pose proof (red_good _ _ _ _ HR) as HG.
    assert (HGr : Forall (good C B) (m :: rest)) by (apply Forall_app in HG; tauto).
    assert (HPr : positive_keys (m :: rest)) by (intros e He; apply HP, in_app_iff; now right).
    unfold elim_step. cbv beta iota.
    destruct (gauss_elim_spec C B m rest HSr HGr HPr) as [[-> Hn]|(hd' & -> & HS' & HP' & HR' & HK')].
    + cbv beta iota. split.
      * constructor; simpl; rewrite <- ?app_assoc; simpl; auto.
        intros l1 x l2 E e He. apply snoc_split in E.
        destruct E as [(-> & -> & ->)|(l2' & -> & ->)].
        -- apply Hn. exact He.
        -- eapply HI; eauto. rewrite <- app_assoc in He. exact He.
      * unfold elim_mu. simpl. rewrite <- app_assoc. simpl. lia.
    + cbv beta iota.
      assert (HRm : reduced C B (hs ++ m :: rest) (hs ++ hd')).
      { destruct HR' as [G1 C1 S1 L1]. apply Forall_app in HG. constructor.
        - apply Forall_app. tauto.
        - assert (Hsub : forall E r v, incl E (hs ++ hd') -> cone C (esys C E) r v -> cone C (esys C (hs ++ hd')) r v).
          { intros E r v Hi. apply cone_trans; [apply esys_wide|]. intros row b Hin.
            apply cone_in; [apply esys_wide|]. apply in_map_iff in Hin. destruct Hin as (e & <- & He).
            apply in_map_iff. exists e. auto. }
          intros e He. apply in_app_iff in He. destruct He as [He|He].
          + apply cone_in; [apply esys_wide|]. apply in_esys, in_app_iff. now left.
          + apply Hsub with hd'; [|auto]. intros x Hx. apply in_app_iff. now right.
        - intros y Hy row b Hin. unfold esys in Hin. rewrite map_app in Hin. apply in_app_iff in Hin.
          destruct Hin as [Hin|Hin].
          + apply Hy. unfold esys. rewrite map_app. apply in_app_iff. now left.
          + apply (S1 y); auto. intros row' b' Hin'. apply Hy. unfold esys. rewrite map_app. apply in_app_iff. now right.
        - rewrite !app_length. lia. }
      assert (HPm : Permutation (hs ++ hd') (merge_e hs hd')) by apply merge_e_perm.
      split.
      * constructor; simpl.
        -- apply merge_e_sorted; auto. eapply ssorted_app_l; eauto.
        -- intros e He. apply (Permutation_in _ (Permutation_sym HPm)) in He.
           apply in_app_iff in He. destruct He as [He|He]; auto. apply HP, in_app_iff. now left.
        -- eapply reduced_perm; [exact HPm|]. eapply reduced_trans; eauto.
        -- intros l1 x l2 E. destruct l1; discriminate.
      * unfold elim_mu. simpl fst; simpl snd. simpl app at 1.
        rewrite <- (keysum_perm _ _ HPm), !keysum_app.
        pose proof (red_len _ _ _ _ HR). pose proof (red_len _ _ _ _ HRm).
        rewrite <- (Permutation_length HPm). nia.
Qed.

Lemma keysum_bound C B E : Forall (good C B) E -> 0 <= keysum E <= Z.of_nat (length E) * 2 ^ Z.of_nat C.
Proof.
  induction 1 as [|e E He HE IH]; [unfold keysum, zsum; simpl; lia|].
  unfold keysum in *. simpl map. rewrite zsum_cons. unfold good in He. simpl length.
  nia.
Qed.

Lemma pow2_gt n : Z.of_nat n < 2 ^ Z.of_nat n.
Proof. apply Z.pow_gt_lin_r; lia. Qed.

Lemma elim_fuel_bound N C k n : (n <= N)%nat -> 0 <= k <= Z.of_nat n * 2 ^ Z.of_nat C ->
  k * (Z.of_nat n + 1) + Z.of_nat n < 2 ^ Z.of_nat (2 * N + C + 1).
Proof.
  intros Hn Hk.
  replace (Z.of_nat (2 * N + C + 1)) with (Z.of_nat N + Z.of_nat N + Z.of_nat C + 1) by lia.
  rewrite !Z.pow_add_r by lia. change (2 ^ 1) with 2.
  pose proof (pow2_gt N). assert (1 <= 2 ^ Z.of_nat C) by (pose proof (pow2_gt C); lia).
  set (P := 2 ^ Z.of_nat N) in *. set (Q := 2 ^ Z.of_nat C) in *.
  assert (k * (Z.of_nat n + 1) <= (Z.of_nat N * Q) * P).
  { apply Z.mul_le_mono_nonneg; try lia. assert (Z.of_nat n * Q <= Z.of_nat N * Q) by nia. lia. }
  assert (Z.of_nat N * Q * P <= (P - 1) * Q * P) by nia.
  assert (Z.of_nat n < P * P * Q) by nia. nia.
Qed.

Theorem elim_core_spec C B N E0 :
  Forall (good C B) E0 -> (length E0 <= N)%nat ->
  exists E, elim_core (2 * N + C + 1) E0 = Ok E
    /\ ssorted E /\ positive_keys E /\ reduced C B E0 E /\ irreducible E.
Proof.
  intros HG HN. unfold elim_core.
  pose proof (reduced_remove_zerokeys C B E0 HG) as HR.
  assert (HP : positive_keys (remove_zerokeys E0)).
  { intros e He. apply filter_In in He. lia. }
  set (E1 := remove_zerokeys E0) in *.
  destruct (Nat.leb_spec (length E1) 1) as [Hl|Hl].
  - exists E1. split; [reflexivity|]. split; [|split; [exact HP|split; [exact HR|]]].
    + destruct E1 as [|e [|e' t]]; simpl in Hl; try lia; [constructor|].
      constructor; constructor.
    + intros l1 m l2 E x Hx. rewrite E, app_length in Hl. simpl in Hl.
      destruct l2; [easy|simpl in Hl; lia].
  - assert (HR2 : reduced C B E0 (sort_e E1)) by (eapply reduced_perm; [apply sort_e_perm|auto]).
    apply (while_spec elim_step (elim_inv C B E0) (elim_mu (length E0))
            (fun r => exists E, r = Ok E /\ ssorted E /\ positive_keys E /\ reduced C B E0 E /\ irreducible E)).
    + intros s Hs. unfold elim_mu.
      pose proof (keysum_bound C B _ (red_good _ _ _ _ (ei_red _ _ _ _ Hs))). nia.
    + intros s Hs. apply elim_step_spec, Hs.
    + constructor; simpl; auto using sort_e_sorted.
      * intros e He. apply HP. eapply Permutation_in; [symmetry; apply sort_e_perm|auto].
      * intros l1 m l2 E. destruct l1; discriminate.
    + unfold elim_mu. simpl fst; simpl snd; simpl app.
      pose proof (keysum_bound C B _ (red_good _ _ _ _ HR2)) as HK.
      pose proof (red_len _ _ _ _ HR2) as HL.
      assert (HL' : (length (sort_e E1) <= length E0)%nat) by auto.
      pose proof (elim_fuel_bound N C (keysum (sort_e E1)) (length E0) HN) as HF.
      assert (0 <= 2 ^ Z.of_nat C) by (apply Z.pow_nonneg; lia).
      specialize (HF ltac:(nia)). lia.
Qed.

(** on an irreducible sorted list, elimination changes nothing *)
Lemma elim_core_fixed C B N E :
  Forall (good C B) E -> (length E <= N)%nat ->
  ssorted E -> positive_keys E -> irreducible E -> elim_core (2 * N + C + 1) E = Ok E.
Proof.
  intros HG HN HS HP HI. unfold elim_core.
  assert (E1 : remove_zerokeys E = E) by now apply remove_zerokeys_id.
  rewrite E1, sort_e_id by auto. destruct (Nat.leb_spec (length E) 1) as [Hl|Hl]; auto.
  apply (while_spec elim_step (fun s => fst s ++ snd s = E) (elim_mu (length E)) (fun r => r = Ok E)).
  - intros s Hs. unfold elim_mu. rewrite Hs. pose proof (keysum_bound C B _ HG). nia.
  - intros [hs hd] Hs. simpl in Hs. destruct hd as [|m rest].
    + simpl. now rewrite <- Hs, app_nil_r.
    + unfold elim_step.
      assert (HSr : ssorted (m :: rest)) by (eapply ssorted_app_r; rewrite Hs; auto).
      assert (HGr : Forall (good C B) (m :: rest)) by (rewrite <- Hs in HG; apply Forall_app in HG; tauto).
      assert (HPr : positive_keys (m :: rest)) by (intros e He; apply HP; rewrite <- Hs; apply in_app_iff; now right).
      assert (Hn : forall e, In e rest -> reduces m e = false) by (intros e He; eapply HI; eauto).
      unfold gauss_elim. assert (Hm : 0 < ekey m) by (apply HPr; now left).
      destruct (Z.ltb_spec 0 (ekey m)) as [_|]; [|lia]. cbn [assert_ bind].
      assert (Ef : filter (reduces m) rest = []).
      { clear - Hn. induction rest as [|x l IH]; simpl; auto.
        rewrite Hn by now left. apply IH. intros; apply Hn; now right. }
      assert (Ef2 : filter (fun e => negb (reduces m e)) rest = rest).
      { clear - Hn. induction rest as [|x l IH]; simpl; auto.
        rewrite Hn by now left. simpl. f_equal. apply IH. intros; apply Hn; now right. }
      rewrite Ef, Ef2. simpl map. cbv beta iota. rewrite merge_e_single by auto. split.
      * simpl. rewrite <- app_assoc. exact Hs.
      * unfold elim_mu. simpl. rewrite <- app_assoc. simpl. lia.
  - reflexivity.
  - unfold elim_mu. cbn [fst snd app]. pose proof (keysum_bound C B _ HG).
    pose proof (elim_fuel_bound N C (keysum E) (length E) HN ltac:(auto)). lia.
Qed.

(** ** Matrix level *)
Definition msys (A : list (list Z)) (b : list Z) : sys := combine A b.

Lemma encode_ok A b C :
  mcols A = C -> (1 <= C <= 63)%nat -> length b = mnrows A ->
  (forall row, In row (mrows A) -> length row = C /\ bits row) ->
  exists E, encode A b = Ok E /\ esys C E = msys (mrows A) b
    /\ map ekey E = map pack (mrows A) /\ map eval_ E = b
    /\ map eidx E = map Z.of_nat (seq 0 (mnrows A)) /\ length E = mnrows A.
Proof.
  intros HC H63 Hb Hrows. unfold encode. rewrite Hb, Nat.eqb_refl. simpl assert_. cbn [bind].
  destruct (Nat.eqb_spec (mcols A) 0) as [E|_]; [lia|].
  eexists. split; [reflexivity|].
  unfold mnrows in *. set (rows := mrows A) in *. clearbody rows.
  assert (Hgen : forall i, 
    let E := map2 (fun ki v => (fst ki, snd ki, v)) (map2 pair (map pack rows) (map Z.of_nat (seq i (length rows)))) b in
    esys C E = msys rows b /\ map ekey E = map pack rows /\ map eval_ E = b
    /\ map eidx E = map Z.of_nat (seq i (length rows)) /\ length E = length rows).
  { clear - Hb Hrows H63. revert b Hb. induction rows as [|r rows IH]; intros [|x b] Hb i; simpl in Hb; try lia.
    - repeat split.
    - specialize (IH ltac:(intros; apply Hrows; now right) b ltac:(lia) (S i)).
      cbv zeta in IH. destruct IH as (I1 & I2 & I3 & I4 & I5).
      destruct (Hrows r (or_introl eq_refl)) as [Hl Hbits].
      cbn [map map2 seq length fst snd]. cbv zeta.
      unfold esys in *. cbn [map]. rewrite I1, I2, I3, I4. cbn [length]. rewrite I5. unfold msys. simpl combine.
      unfold ekey, eval_, eidx; simpl. repeat split. f_equal. f_equal.
      rewrite <- Hl. apply row_of_pack; auto. lia. }
  apply (Hgen 0%nat).
Qed.

Lemma max_len_ge l x : In x l -> (length x <= max_len l)%nat.
Proof.
  unfold max_len. induction l as [|y l IH]; simpl; [easy|]. intros [->|H]; [lia|]. specialize (IH H). lia.
Qed.
Lemma max_len_le l n : (forall x, In x l -> (length x <= n)%nat) -> (max_len l <= n)%nat.
Proof.
  unfold max_len. induction l as [|y l IH]; simpl; intros H; [lia|].
  assert (length y <= n)%nat by (apply H; now left). specialize (IH ltac:(intros; apply H; now right)). lia.
Qed.

Lemma decode_ok C E :
  (1 <= C)%nat -> Forall (good C 127) E -> positive_keys E ->
  (exists e, In e E /\ nth 0 (row_of C (ekey e)) 0 = 1) ->
  decode E = Ok (Mat C (map (fun e => row_of C (ekey e)) E), map eval_ E).
Proof.
  intros HC HG HP (e0 & He0 & Hbit). rewrite Forall_forall in HG. unfold decode.
  assert (HM : max_len (map (fun e => dec2bin (ekey e)) E) = C).
  { apply Nat.le_antisymm.
    - apply max_len_le. intros x Hx. apply in_map_iff in Hx. destruct Hx as (e & <- & He).
      apply dec2bin_length. specialize (HP _ He). specialize (HG _ He). unfold good in HG. lia.
    - rewrite <- (dec2bin_length_high C (ekey e0)).
      + apply max_len_ge. apply in_map_iff. eauto.
      + specialize (HG _ He0). unfold good in HG. split; [|lia]. apply row_of_first; auto; lia.
      + auto. }
  destruct E as [|e E]; [easy|]. cbv zeta. rewrite HM. f_equal. f_equal.
  - f_equal. rewrite map_map. apply map_ext_in. intros x Hx. apply pad_left_dec2bin.
    specialize (HP _ Hx). specialize (HG _ Hx). unfold good in HG. lia.
  - apply map_ext_in. intros x Hx. apply i8_id. specialize (HG _ Hx). unfold good in HG. lia.
Qed.

(** elimination normal form of a system *)
Definition normal_sys (S : sys) : Prop :=
  forall S1 m S2, S = S1 ++ m :: S2 -> forall e, In e S2 ->
    (pack (fst m) <= pack (fst e))
    /\ ~ ((forall j, nth j (fst m) 0 <= nth j (fst e) 0) /\ snd m <= snd e).

Record elim_result (C : nat) (A : list (list Z)) (b : list Z) (A' : mat) (b' : list Z) : Prop := {
  er_cols : mcols A' = C;
  er_rows : forall row, In row (mrows A') -> length row = C /\ bits row /\ exists j, (j < C)%nat /\ nth j row 0 = 1;
  er_len : length b' = mnrows A';
  er_le : (length b' <= length b)%nat;
  er_b : forall B, 0 <= B <= 127 -> (forall x, In x b -> x <= B) -> forall x, In x b' -> 0 <= x <= B;
  er_cone : forall row x, In (row, x) (msys A b) -> cone C (msys (mrows A') b') row x;
  er_sol : forall y, holds (msys A b) y -> holds (msys (mrows A') b') y;
  er_fix : elim A' b' = Ok (A', b');
  er_sorted : StronglySorted Z.le (map pack (mrows A'));
  er_irr : forall i j, (i < j < mnrows A')%nat ->
     ~ ((forall c, nth c (nth i (mrows A') []) 0 <= nth c (nth j (mrows A') []) 0)
        /\ nth i b' 0 <= nth j b' 0) }.

Lemma esys_combine C E : esys C E = msys (map (fun e => row_of C (ekey e)) E) (map eval_ E).
Proof. unfold esys, msys. induction E as [|e E IH]; simpl; auto. now rewrite IH. Qed.

Lemma reduces_rows C m e : 0 <= ekey m < 2 ^ Z.of_nat C -> 0 <= ekey e < 2 ^ Z.of_nat C ->
  (forall c, nth c (row_of C (ekey m)) 0 <= nth c (row_of C (ekey e)) 0) -> eval_ m <= eval_ e ->
  reduces m e = true.
Proof.
  intros Hm He Hc Hv. unfold reduces. apply andb_true_iff. split; [|lia]. apply Z.eqb_eq.
  assert (Hbits : forall n, (n < C)%nat ->
            Z.testbit (ekey m) (Z.of_nat n) = true -> Z.testbit (ekey e) (Z.of_nat n) = true).
  { clear Hv Hm He. induction C as [|C IH]; intros n Hn Ht; [lia|].
    destruct (Nat.eq_dec n C) as [->|Hne].
    - specialize (Hc 0%nat). cbn [row_of nth] in Hc. rewrite Ht in Hc. destruct (Z.testbit (ekey e) (Z.of_nat C)); auto; simpl in Hc; lia.
    - apply IH; auto; [|lia]. intros c. apply (Hc (S c)). }
  apply Z.bits_inj'. intros n Hn. rewrite Z.land_spec.
  destruct (Z.testbit (ekey m) n) eqn:Em; auto. simpl.
  destruct (Z.lt_ge_cases n (Z.of_nat C)) as [L|L].
  - rewrite <- (Z2Nat.id n) by lia. apply Hbits; [lia|]. now rewrite Z2Nat.id by lia.
  - rewrite Z.testbit_eqb in Em by lia.
    assert (2 ^ Z.of_nat C <= 2 ^ n) by (apply Z.pow_le_mono_r; lia).
    rewrite Z.div_small in Em by lia. discriminate.
Qed.

Lemma ssorted_reindex E E' :
  ssorted E -> map ekey E' = map ekey E -> StronglySorted Z.lt (map eidx E') -> ssorted E'.
Proof.
  revert E'. induction E as [|e E IH]; intros [|e' E'] HS Hk Hi; simpl in *; try discriminate; [constructor|].
  injection Hk as Hk Hk'. inversion HS; subst. inversion Hi; subst. constructor; auto.
  apply Forall_forall. intros x Hx. rewrite ele_iff.
  assert (Hidx : eidx e' < eidx x).
  { rewrite Forall_forall in H4. apply H4. now apply in_map. }
  assert (Hkey : ekey e' <= ekey x).
  { assert (In (ekey x) (map ekey E)) by (rewrite <- Hk'; now apply in_map).
    apply in_map_iff in H. destruct H as (y & Ey & Hy). rewrite Forall_forall in H2.
    specialize (H2 _ Hy). rewrite ele_iff in H2. lia. }
  lia.
Qed.

Lemma seq_sorted n : forall i, StronglySorted Z.lt (map Z.of_nat (seq i n)).
Proof.
  induction n as [|n IH]; intros i; simpl; constructor; auto.
  apply Forall_forall. intros x Hx. apply in_map_iff in Hx. destruct Hx as (j & <- & Hj).
  apply in_seq in Hj. lia.
Qed.

Theorem elim_spec C A b :
  mcols A = C -> (1 <= C <= 63)%nat -> length b = mnrows A ->
  (forall row, In row (mrows A) -> length row = C /\ bits row) ->
  (forall x, In x b -> 0 <= x <= 127) ->
  (exists row, In row (mrows A) /\ nth 0 row 0 = 1) ->
  exists A' b', elim A b = Ok (A', b') /\ elim_result C (mrows A) b A' b'.
Proof.
  intros HC H63 Hb Hrows Hbr (row0 & Hrow0 & Hfirst).
  destruct (encode_ok A b C HC H63 Hb Hrows) as (E0 & HE0 & Hsys & Hkeys & Hvals & _ & Hlen).
  assert (HGB : forall B, 0 <= B <= 127 -> (forall x, In x b -> x <= B) -> Forall (good C B) E0).
  { intros B HB Hx. apply Forall_forall. intros e He. split.
    - assert (Hk : In (ekey e) (map pack (mrows A))) by (rewrite <- Hkeys; now apply in_map).
      apply in_map_iff in Hk. destruct Hk as (row & <- & Hr). destruct (Hrows _ Hr) as [Hl Hbits].
      rewrite <- Hl. apply pack_range; auto. lia.
    - assert (Hv : In (eval_ e) b) by (rewrite <- Hvals; now apply in_map).
      specialize (Hx _ Hv). specialize (Hbr _ Hv). lia. }
  assert (HG : Forall (good C 127) E0) by (apply HGB; [lia|intros x Hx; specialize (Hbr _ Hx); lia]).
  destruct (elim_core_spec C 127 (mnrows A) E0 HG ltac:(lia)) as (E & HE & HS & HP & HR & HI).
  unfold elim. rewrite HE0. cbn [bind]. rewrite HC, HE. cbn [bind].
  assert (Hcone : forall row x, In (row, x) (msys (mrows A) b) -> cone C (esys C E) row x).
  { rewrite <- Hsys. intros row x Hin. apply in_map_iff in Hin. destruct Hin as (e & Ee & He).
    injection Ee as <- <-. now apply (red_cone _ _ _ _ HR). }
  pose proof (red_good _ _ _ _ HR) as HGE.
  assert (Hfst : exists e, In e E /\ nth 0 (row_of C (ekey e)) 0 = 1).
  { assert (Hx : exists x, In (row0, x) (msys (mrows A) b)).
    { apply (In_nth _ _ []) in Hrow0. destruct Hrow0 as (i & Hi & <-). exists (nth i b 0).
      apply nth_in_combine; auto. unfold mnrows in Hb. lia. }
    destruct Hx as (x & Hx). specialize (Hcone _ _ Hx).
    destruct (cone_column_one C (esys C E) row0 x 0 (esys_wide C E)) as (row & bb & Hin & H1 & _); auto; try lia.
    - intros row bb Hin. apply in_map_iff in Hin. destruct Hin as (e & Ee & He). injection Ee as <- <-.
      split; [apply row_of_bits|]. rewrite Forall_forall in HGE. specialize (HGE _ He). unfold good in HGE. lia.
    - apply in_map_iff in Hin. destruct Hin as (e & Ee & He). injection Ee as <- <-. eauto. }
  rewrite (decode_ok C E) by (auto; lia).
  do 2 eexists. split; [reflexivity|].
  rewrite Forall_forall in HGE.
  assert (Hrow' : forall row, In row (map (fun e => row_of C (ekey e)) E) -> length row = C /\ bits row).
  { intros row Hr. apply in_map_iff in Hr. destruct Hr as (e & <- & He).
    split; [apply row_of_length|apply row_of_bits]. }
  assert (Hmk : map pack (map (fun e => row_of C (ekey e)) E) = map ekey E).
  { rewrite map_map. apply map_ext_in. intros e He. apply pack_row_of; [lia|].
    specialize (HGE _ He). unfold good in HGE. lia. }
  constructor; cbn [mcols mrows mnrows]; unfold mnrows; cbn [mrows].
  - reflexivity.
  - intros row Hr. destruct (Hrow' _ Hr) as [H1 H2]. repeat split; auto.
    apply in_map_iff in Hr. destruct Hr as (e & <- & He). apply row_of_nonzero.
    specialize (HGE _ He). specialize (HP _ He). unfold good in HGE. lia.
  - now rewrite !map_length.
  - rewrite map_length. pose proof (red_len _ _ _ _ HR). unfold mnrows in *. lia.
  - intros B HB Hx. 
    destruct (elim_core_spec C B (mnrows A) E0 (HGB B HB Hx) ltac:(lia)) as (E' & HE' & _ & _ & HR' & _).
    rewrite HE in HE'. injection HE' as <-.
    intros x Hx'. apply in_map_iff in Hx'. destruct Hx' as (e & <- & He).
    pose proof (red_good _ _ _ _ HR') as G. rewrite Forall_forall in G. specialize (G _ He). unfold good in G. lia.
  - intros row x Hin. rewrite <- esys_combine. auto.
  - intros y Hy. rewrite <- esys_combine. apply (red_sol _ _ _ _ HR). now rewrite Hsys.
  - (* idempotence *)
    set (A' := Mat C (map (fun e => row_of C (ekey e)) E)).
    destruct (encode_ok A' (map eval_ E) C eq_refl H63) as (E1 & HE1 & Hsys1 & Hkeys1 & Hvals1 & Hidx1 & Hlen1).
    { unfold A', mnrows; simpl. now rewrite !map_length. }
    { exact Hrow'. }
    unfold elim. rewrite HE1. cbn [bind]. unfold A' in Hkeys1. cbn [mrows] in Hkeys1. rewrite Hmk in Hkeys1.
    assert (Hcore : elim_core (2 * mnrows A' + mcols A' + 1) E1 = Ok E1).
    { change (mcols A') with C. apply (elim_core_fixed C 127).
      - apply Forall_forall. intros e He.
        assert (Hk : In (ekey e) (map ekey E)) by (rewrite <- Hkeys1; now apply in_map).
        assert (Hv : In (eval_ e) (map eval_ E)) by (rewrite <- Hvals1; now apply in_map).
        apply in_map_iff in Hk, Hv. destruct Hk as (e1 & Ek1 & He1). destruct Hv as (e2 & Ev2 & He2).
        apply HGE in He1, He2. unfold good in *. lia.
      - lia.
      - apply (ssorted_reindex E); auto. rewrite Hidx1. apply seq_sorted.
      - intros e He. assert (Hk : In (ekey e) (map ekey E)) by (rewrite <- Hkeys1; now apply in_map).
        apply in_map_iff in Hk. destruct Hk as (e1 & <- & He1). auto.
      - intros l1 m l2 EE e He.
        assert (Hred : forall a b a' b', ekey a = ekey a' -> eval_ a = eval_ a' -> ekey b = ekey b' -> eval_ b = eval_ b' ->
                        reduces a b = reduces a' b') by (intros; unfold reduces; congruence).
        assert (LE : length E1 = length E) by (rewrite Hlen1; unfold A', mnrows; simpl; now rewrite map_length).
        clear - HI EE He Hkeys1 Hvals1 Hred.
        revert E HI Hkeys1 Hvals1. rewrite EE. clear EE. induction l1 as [|a l1 IH]; intros E HI Hk Hv.
        + destruct E as [|m' E]; [discriminate|]. simpl in Hk, Hv. injection Hk as Hk1 Hk2. injection Hv as Hv1 Hv2.
          assert (Hx : exists e', In e' E /\ ekey e = ekey e' /\ eval_ e = eval_ e').
          { clear HI Hk1 Hv1. revert E Hk2 Hv2. induction l2 as [|x l2 IH]; [easy|].
            intros [|y E] Hk Hv; [discriminate|]. simpl in *. injection Hk as ? ?. injection Hv as ? ?.
            destruct He as [->|He]; [exists y; auto|].
            destruct (IH He E) as (e' & ? & ?); auto. exists e'; auto. }
          destruct Hx as (e' & He' & ? & ?).
          rewrite (Hred m e m' e') by auto. apply (HI [] m' E eq_refl). auto.
        + destruct E as [|a' E]; [discriminate|]. simpl in Hk, Hv. injection Hk as Hk1 Hk2. injection Hv as Hv1 Hv2.
          apply (IH E); auto. intros x1 x x2 Ex y Hy. apply (HI (a' :: x1) x x2); auto. simpl. now rewrite Ex. }
    rewrite Hcore. cbn [bind].
    rewrite (decode_ok C E1); try lia.
    + unfold A'. f_equal. rewrite Hvals1. f_equal. f_equal.
      rewrite <- (map_map ekey (row_of C) E), <- Hkeys1, map_map. reflexivity.
    + apply Forall_forall. intros e He.
      assert (Hk : In (ekey e) (map ekey E)) by (rewrite <- Hkeys1; now apply in_map).
      assert (Hv : In (eval_ e) (map eval_ E)) by (rewrite <- Hvals1; now apply in_map).
      apply in_map_iff in Hk, Hv. destruct Hk as (e1 & Ek1 & He1). destruct Hv as (e2 & Ev2 & He2).
      apply HGE in He1, He2. unfold good in *. lia.
    + intros e He. assert (Hk : In (ekey e) (map ekey E)) by (rewrite <- Hkeys1; now apply in_map).
      apply in_map_iff in Hk. destruct Hk as (e1 & <- & He1). auto.
    + destruct Hfst as (e & He & Hn).
      assert (Hk : In (ekey e) (map ekey E1)) by (rewrite Hkeys1; now apply in_map).
      apply in_map_iff in Hk. destruct Hk as (e1 & Ek & He1). exists e1. rewrite Ek. auto.
  - rewrite Hmk. clear - HS. induction HS as [|e E H IH HF]; simpl; constructor; auto.
    apply Forall_map. eapply Forall_impl; [|eassumption]. intros x Hx. rewrite ele_iff in Hx. lia.
  - rewrite map_length. intros i j Hij [Hc Hv].
    set (d := (0, 0, 0) : entry).
    rewrite (nth_map_in _ _ _ d) in Hv by lia. rewrite (nth_map_in eval_ _ _ d) in Hv by lia.
    assert (Hr : reduces (nth i E d) (nth j E d) = false).
    { destruct (nth_split E d (n := i)) as (l1 & l2 & EE & Hl1); [lia|].
      apply (HI l1 _ l2 EE). rewrite EE. 
      rewrite app_nth2 by lia. replace (j - length l1)%nat with (S (j - length l1 - 1)) by lia.
      simpl. apply nth_In. apply (f_equal (@length _)) in EE. rewrite app_length in EE. simpl in EE. lia. }
    rewrite reduces_rows with (C := C) in Hr; try discriminate; auto.
    + assert (Hin : In (nth i E d) E) by (apply nth_In; lia). apply HGE in Hin. unfold good in Hin. lia.
    + assert (Hin : In (nth j E d) E) by (apply nth_In; lia). apply HGE in Hin. unfold good in Hin. lia.
    + intros c. specialize (Hc c).
      rewrite (nth_map_in _ _ _ d) in Hc by lia. rewrite (nth_map_in _ _ j d) in Hc by lia. exact Hc.
Qed.
