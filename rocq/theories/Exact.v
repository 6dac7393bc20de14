(** C79: the search computes what it would in unbounded integers. *)
From Verif Require Import Np ModelGauss Model ModelWidth ModelExact Spec Lib BitFacts Cone ElimFacts QFacts StepFacts ForkFacts GroupFacts LevelFacts SolveFacts AnyFacts WidthFacts WidthProps DbProps Sharp.
From Coq Require Import ZifyBool ZifyNat.

(** ** where the checked copy does not raise, it agrees with the exact one *)
Definition agree {A} (a b : res A) : Prop := a = Raise Overflow \/ a = b.
Lemma agree_refl {A} (a : res A) : agree a a.
Proof. now right. Qed.
Lemma agree_bind {A B} (a b : res A) (f g : A -> res B) : agree a b -> (forall x, agree (f x) (g x)) -> agree (bind a f) (bind b g).
Proof. intros [->| ->] H; [now left|]. destruct b; cbn [bind]; [apply H|now right|now right]. Qed.
(** a checked operation with a pure counterpart *)
Lemma agree_pure {A B} (a : res A) (x : A) (f : A -> res B) (r : res B) : agree a (Ok x) -> agree (f x) r -> agree (bind a f) r.
Proof. intros [->| ->] H; [now left|]. exact H. Qed.
Lemma agree_mapM {A B} (f g : A -> res B) l : (forall x, agree (f x) (g x)) -> agree (mapM f l) (mapM g l).
Proof.
  intros H. induction l as [|a l IH]; [now right|]. cbn [mapM]. apply agree_bind; auto. intros y. apply agree_bind; auto. intros. now right.
Qed.
Lemma agree_map {A B} (f : A -> res B) (g : A -> B) l : (forall x, agree (f x) (Ok (g x))) -> agree (mapM f l) (Ok (map g l)).
Proof.
  intros H. induction l as [|a l IH]; [now right|]. cbn [mapM map]. apply (agree_pure _ (g a)); auto.
  apply (agree_pure _ (map g l)); auto. now right.
Qed.
Lemma agree_w8 z : agree (w8 z) (Ok z).
Proof. unfold w8. destruct (_ && _); [now right|now left]. Qed.
Lemma agree_w64 z : agree (w64 z) (Ok z).
Proof. unfold w64. destruct (_ && _); [now right|now left]. Qed.
Lemma agree_while {S A} (f g : S -> S + res A) n s :
  (forall s, f s = inr (Raise Overflow) \/ f s = g s) -> agree (while_ n f s) (while_ n g s).
Proof.
  intros H. unfold while_, agree.
  assert (G : forall n s, iter2 n f s = inr (Raise Overflow) \/ iter2 n f s = iter2 n g s).
  { clear n s. induction n as [|n IH]; intros s; [apply H|]. cbn [iter2].
    destruct (IH s) as [->|E]; [now left|]. rewrite E. destruct (iter2 n g s) as [s'|r]; [apply IH|now right]. }
  destruct (G n s) as [->|E]; [now left|]. rewrite E. now right.
Qed.
Ltac ag := first [apply agree_refl|apply agree_w8|apply agree_w64].

Lemma agree_sum l : agree (sum_w l) (Ok (zsum l)).
Proof. induction l as [|a l IH]; [ag|]. cbn [sum_w]. apply (agree_pure _ (zsum l)); auto. change (zsum (a :: l)) with (a + zsum l). ag. Qed.
Lemma agree_diff l : agree (diff_w l) (Ok (diff l)).
Proof. unfold diff_w. pose proof (agree_map w64 (fun z => z) (diff l) agree_w64) as H. now rewrite map_id in H. Qed.
Lemma agree_dot x : forall y, agree (dot_w x y) (Ok (dot x y)).
Proof.
  induction x as [|a x IH]; intros [|b y]; try ag. cbn [dot_w dot]. apply (agree_pure _ (a * b)); [ag|].
  apply (agree_pure _ (dot x y)); auto. ag.
Qed.
Lemma agree_pack x : agree (pack_w x) (Ok (pack_x x)).
Proof.
  induction x as [|a x IH]; [ag|]. cbn [pack_w pack_x]. apply (agree_pure _ (pack_x x)); auto.
  apply (agree_pure _ (Z.shiftl a (Z.of_nat (length x)))); ag.
Qed.
Lemma agree_gauss hd : agree (gauss_elim_w hd) (gauss_elim hd).
Proof.
  destruct hd as [|m rest]; [ag|]. unfold gauss_elim_w, gauss_elim. apply agree_bind; [ag|]. intros _.
  apply (agree_pure _ (map (sub_entry m) (filter (reduces m) rest))); [|ag].
  apply agree_map. intros e. unfold sub_entry_w, sub_entry. apply (agree_pure _ (ekey e - ekey m)); [ag|].
  apply (agree_pure _ (eval_ e - eval_ m)); ag.
Qed.
Lemma agree_core n hd : agree (elim_core_w n hd) (elim_core n hd).
Proof.
  unfold elim_core_w, elim_core. destruct (_ <=? _)%nat; [ag|]. apply agree_while. intros [hs h].
  unfold elim_step_w, elim_step. destruct h as [|m t]; [now right|]. destruct (agree_gauss (m :: t)) as [->| ->]; [now left|now right].
Qed.
Lemma agree_elim A b : agree (elim_w A b) (elim_x A b).
Proof.
  unfold elim_w, elim_x. apply agree_bind.
  - unfold encode_w, encode_x. apply agree_bind; [ag|]. intros _. destruct (Nat.eqb _ _); [ag|].
    apply (agree_pure _ (map pack_x (mrows A))); [|ag]. apply agree_map, agree_pack.
  - intros hd. apply agree_bind; [apply agree_core|]. intros h. unfold decode_w, decode_x. destruct h as [|e h]; [ag|].
    apply (agree_pure _ (map eval_ (e :: h))); [|ag]. apply agree_map. intros. ag.
Qed.
Lemma agree_unique A : agree (unique_encode_w A) (unique_encode_x A).
Proof. unfold unique_encode_w, unique_encode_x. destruct (Nat.eqb _ _); [ag|]. apply agree_map. intros. apply agree_pack. Qed.
Lemma agree_lub : forall A b bd, agree (lower_upper_bound_w A b bd) (Ok (lower_upper_bound A b bd)).
Proof.
  induction A as [|row A IH]; intros [|bv b] bd; try ag. cbn [lower_upper_bound_w lower_upper_bound].
  apply (agree_pure _ (tighten_row row bv bd)); auto. unfold tighten_row_w, tighten_row.
  assert (E : forall x y, map2 (fun a bd0 : Z => if a =? 0 then bd0 else Z.min bd0 bv) x y
              = map (fun ab => if fst ab =? 0 then snd ab else Z.min (snd ab) bv) (map2 pair x y)).
  { induction x as [|a x IHx]; intros [|c y]; auto. simpl. now rewrite IHx. }
  rewrite E. apply agree_map. intros [a c]. cbn [fst snd]. destruct (a =? 0); ag.
Qed.
Lemma agree_answer v loc len : agree (mk_answer_w v loc len) (mk_answer v loc len).
Proof.
  unfold mk_answer_w, mk_answer. apply agree_bind; [ag|]. intros _. apply agree_bind; [|intros; ag].
  destruct loc as [|l0 t]; [ag|]. apply agree_bind; [ag|]. intros _. apply (agree_pure _ (diff (l0 :: t))); [apply agree_diff|ag].
Qed.
Lemma agree_quota a : agree (answer_quota_w a) (answer_quota a).
Proof.
  unfold answer_quota_w, answer_quota, quota_of. apply (agree_pure _ (diff (aloc a ++ [alen a]))); [apply agree_diff|].
  apply (agree_pure _ (zsum (diff (aloc a ++ [alen a])))); [apply agree_sum|ag].
Qed.
Lemma agree_binarize a : agree (binarize_w a) (binarize a).
Proof.
  unfold binarize_w, binarize. apply agree_bind; [ag|]. intros _. apply agree_bind; [apply agree_quota|]. intros q.
  apply agree_bind; [ag|]. intros _. 
  assert (H : forall l q ptr ans, agree (binarize_loop_w l q ptr ans) (Ok (binarize_loop l q ptr ans))); [|apply H].
  clear. induction l as [|c l IH]; intros [|b q] ptr ans; try ag. cbn [binarize_loop_w binarize_loop].
  apply (agree_pure _ (ptr + c)); [ag|]. apply (agree_pure _ (ptr + b)); [ag|]. apply IH.
Qed.
Lemma agree_question A b q bd o : agree (mk_question_w A b q bd o) (mk_question A b q bd o).
Proof.
  unfold mk_question_w, mk_question. do 5 (apply agree_bind; [ag|]; intros _). apply agree_bind; [|intros; ag].
  destruct o; [ag|apply agree_answer].
Qed.
Lemma agree_vklu m : agree (vklu_w m) (vklu_x m).
Proof.
  unfold vklu_w, vklu_x. destruct (mrows m) as [|r0 [|r1 t]]; try ag. apply (agree_pure _ (zsum r0)); [apply agree_sum|].
  apply (agree_pure _ (dot r0 r1)); [apply agree_dot|]. do 6 (eapply agree_pure; [ag|]). ag.
Qed.
Lemma map2_map {A B C} (f : A -> B -> C) x : forall y, map2 f x y = map (fun p => f (fst p) (snd p)) (map2 pair x y).
Proof. induction x as [|a x IH]; intros [|b y]; auto. simpl. now rewrite IH. Qed.
Lemma agree_from_matrix m : agree (from_matrix_w m) (from_matrix_x m).
Proof.
  unfold from_matrix_w, from_matrix_x. apply agree_bind; [apply agree_vklu|]. intros [[[v k] l] u].
  destruct (_ <=? _)%nat; [ag|]. set (known := column _ _ ++ [0]).
  eapply agree_pure; [apply (agree_map _ (fun row => dot (firstn (mnrows m + 1) row) known)); intros; apply agree_dot|].
  eapply agree_pure; [apply (agree_map _ (fun e => if e =? 0 then u else l)); intros; ag|].
  rewrite (map2_map Z.sub).
  eapply agree_pure; [apply (agree_map _ (fun xy => fst xy - snd xy)); intros; ag|].
  eapply agree_pure; [apply agree_sum|]. eapply agree_pure; [ag|].
  destruct (existsb _ _); [ag|]. apply agree_question.
Qed.
Lemma agree_post Q : agree (post_check_w Q) (post_check Q).
Proof.
  unfold post_check_w, post_check. destruct (_ && _); [ag|]. apply agree_bind; [ag|]. intros _.
  eapply agree_pure; [apply agree_sum|]. destruct (_ && _); [ag|]. apply agree_bind; [apply agree_quota|]. intros; ag.
Qed.
Lemma agree_reduce Q : agree (reduce_col_w Q) (reduce_col_x Q).
Proof.
  unfold reduce_col_w, reduce_col_x. apply agree_bind; [|apply agree_post]. unfold reduce_col_body_w, reduce_col_body_x.
  destruct (_ <? _)%nat; [ag|]. apply agree_bind; [apply agree_unique|]. intros enc. destruct (_ <? _)%nat; [ag|].
  eapply agree_pure; [apply (agree_map _ (fun ls => zsum (pick 0 ls (qbounds Q)))); intros; apply agree_sum|].
  destruct (existsb _ _); [ag|].
  eapply agree_pure; [apply (agree_map _ (fun z => z)); intros; ag|]. rewrite map_id.
  apply agree_bind; [ag|]. intros _. apply agree_bind; [apply agree_answer|]. intros; ag.
Qed.
Lemma agree_eliminate Q : agree (eliminate_w Q) (eliminate_x Q).
Proof.
  unfold eliminate_w, eliminate_x. apply agree_bind; [|apply agree_post]. unfold eliminate_body_w, eliminate_body_x.
  destruct (Nat.eqb _ _); [ag|]. apply agree_bind; [apply agree_elim|]. intros [A b]. ag.
Qed.
Lemma agree_zero Q : agree (zero_in_b_w Q) (zero_in_b Q).
Proof.
  unfold zero_in_b_w, zero_in_b. apply agree_bind; [|apply agree_post]. unfold zero_in_b_body_w, zero_in_b_body.
  eapply agree_pure; [apply agree_lub|]. ag.
Qed.
Lemma agree_spend xs : forall q, agree (spend_w xs q) (spend xs q).
Proof.
  induction xs as [|x xs IH]; intros q; [ag|]. cbn [spend_w spend]. eapply agree_pure; [ag|]. apply agree_bind; [ag|]. intros _. apply IH.
Qed.
Lemma agree_only1 Q : agree (only_1_element_in_row_w Q) (only_1_element_in_row_x Q).
Proof.
  unfold only_1_element_in_row_w, only_1_element_in_row_x. apply agree_bind; [|apply agree_post].
  unfold only_1_body_w, only_1_body_x. apply agree_bind; [ag|]. intros _. destruct (one_element_row_locs _) as [|rc rcs]; [ag|].
  destruct (existsb _ _); [ag|]. eapply agree_pure; [apply agree_sum|]. destruct (_ <? _); [ag|].
  eapply agree_pure; [apply (agree_map _ (fun row => dot row (pick 0 (map fst (rc :: rcs)) (qb Q)))); intros; apply agree_dot|].
  unfold matvec. destruct (any2 _ _ _); [ag|].
  eapply agree_pure; [apply (agree_map _ (fun z => z)); intros; ag|]. rewrite map_id.
  apply agree_bind; [apply agree_spend|]. intros q'. rewrite (map2_map Z.sub).
  eapply agree_pure; [apply (agree_map _ (fun xy => fst xy - snd xy)); intros; ag|]. ag.
Qed.
Lemma agree_fork Q : agree (fork_enum_w Q) (fork_enum_x Q).
Proof.
  unfold fork_enum_w, fork_enum_x. apply agree_bind; [apply agree_post|]. intros _. apply agree_bind; [ag|]. intros _.
  apply agree_bind; [ag|]. intros ml. eapply agree_pure.
  - unfold fork_enum_values_w. eapply agree_pure; [apply agree_sum|]. do 2 (eapply agree_pure; [ag|]). ag.
  - apply agree_bind; [|intros; ag]. apply agree_mapM. intros x. unfold fork_one_w, fork_one_x.
    eapply agree_pure; [ag|]. eapply agree_pure; [ag|]. rewrite (map2_map (fun bv row => bv - nth ml row 0 * x)).
    eapply agree_pure; [apply (agree_map _ (fun br => fst br - nth ml (snd br) 0 * x)); intros; eapply agree_pure; [ag|]; ag|].
    destruct (existsb _ _); [ag|]. apply agree_bind; [apply agree_answer|]. intros a.
    apply agree_bind; [apply agree_question|]. intros; ag.
Qed.
Lemma agree_refine Q : agree (refine_w Q) (refine_x Q).
Proof.
  unfold refine_w, refine_x. apply agree_while. clear Q. intros Q. unfold refine_step_w, refine_step_x.
  match goal with |- match ?a with _ => _ end = _ \/ match ?a with _ => _ end = match ?b with _ => _ end => assert (H : agree a b) end.
  { apply agree_bind.
    - unfold question_copy_w, question_copy. apply agree_bind; [apply agree_answer|]. intros. apply agree_question.
    - intros Qd. apply agree_bind; [apply agree_reduce|]. intros. apply agree_bind; [apply agree_eliminate|]. intros.
      apply agree_bind; [apply agree_zero|]. intros. apply agree_bind; [apply agree_only1|]. intros; ag. }
  destruct H as [->| ->]; [now left|now right].
Qed.
Lemma agree_solve_question Q : agree (solve_question_w Q) (solve_question_x Q).
Proof.
  unfold solve_question_w, solve_question_x. apply agree_while. clear Q. intros [st out]. unfold question_step_w, question_step_x.
  destruct st as [|Q rest]; [now right|]. destruct (agree_refine Q) as [->| ->]; [now left|].
  destruct (refine_x Q) as [Q'| |]; auto. destruct (answer_unknown (qans Q')).
  - destruct (agree_fork Q') as [->| ->]; [now left|now right].
  - destruct (agree_binarize (qans Q')) as [->| ->]; [now left|now right].
Qed.
Lemma agree_advance m : agree (advance_w m) (advance_x m).
Proof.
  unfold advance_w, advance_x. apply agree_bind; [ag|]. intros _. destruct (agree_from_matrix m) as [->| ->]; [now left|].
  destruct (from_matrix_x m); try ag. apply agree_bind; [apply agree_solve_question|]. intros; ag.
Qed.
Lemma agree_advance_all l : agree (advance_all_w l) (advance_all_x l).
Proof. unfold advance_all_w, advance_all_x. apply agree_bind; [apply agree_mapM, agree_advance|]. intros; ag. Qed.
Lemma agree_loop fuel : forall lst ys, agree (solve_loop_w fuel lst ys) (solve_loop_x fuel lst ys).
Proof.
  induction fuel as [|fuel IH]; intros lst ys; [destruct lst; ag|]. destruct lst as [|m lst]; [ag|].
  cbn [solve_loop_w solve_loop_x]. apply agree_bind; [apply agree_advance_all|]. intros. apply IH.
Qed.
Lemma agree_solve m : agree (solve_w m) (solve_x m).
Proof.
  unfold solve_w, solve_x. apply agree_bind; [apply agree_advance|]. intros lst. apply agree_bind; [apply agree_advance_all|].
  intros. apply agree_loop.
Qed.
Theorem agree_main v k l u : run_main_w v k l u = Raise Overflow \/ run_main_w v k l u = run_main_x v k l u.
Proof. unfold run_main_w, run_main_x. apply agree_bind; [ag|]. intros _. apply agree_bind; [ag|]. intros m. apply agree_solve. Qed.

(** ** the search up to 66 vertices *)
Definition same_run (v k l u : Z) : bool :=
  match run_main_x v k l u, run_main v k l u with
  | Ok a, Ok b => list_eqb mat_eqb a b
  | _, _ => false
  end.
Lemma mats_eqb x : forall y, list_eqb mat_eqb x y = true -> x = y.
Proof.
  induction x as [|a x IH]; intros [|b y]; simpl; try discriminate; auto. intros H. apply andb_true_iff in H. destruct H as [H1 H2].
  apply mat_eqb_iff in H1. subst. f_equal. now apply IH.
Qed.
Lemma same_run_ok v k l u : same_run v k l u = true -> run_main_x v k l u = run_main v k l u.
Proof.
  unfold same_run. destruct (run_main_x v k l u) as [a| |]; try discriminate. destruct (run_main v k l u) as [b| |]; try discriminate.
  intros H. f_equal. now apply mats_eqb.
Qed.
Lemma same_66 : same_run 66 64 62 64 && same_run 66 64 63 0 && same_run 66 65 64 0 = true.
Proof. vm_cast_no_check (eq_refl true). Qed.
(** [u] is used in the parameter check only *)
Lemma run_x_u v k l u u' : assert_srg v k l u = assert_srg v k l u' -> run_main_x v k l u = run_main_x v k l u'.
Proof. intros H. unfold run_main_x. rewrite H. reflexivity. Qed.
Lemma run_u v k l u u' : assert_srg v k l u = assert_srg v k l u' -> run_main v k l u = run_main v k l u'.
Proof. intros H. unfold run_main. rewrite H. reflexivity. Qed.
Lemma same_66_all k l u : admissible 66 k l u -> u <= 127 -> 64 <= k -> run_main_x 66 k l u = run_main 66 k l u.
Proof.
  intros (_ & Hk & Hl & Hu0 & He) Hu Hk64.
  pose proof same_66 as S. apply andb_true_iff in S. destruct S as [S S3]. apply andb_true_iff in S. destruct S as [S1 S2].
  assert (Ek : k = 64 \/ k = 65) by lia.
  assert (D : (k = 64 /\ (l = 62 /\ u = 64 \/ l = 63 /\ u = 0)) \/ (k = 65 /\ l = 64)) by (destruct Ek as [-> | ->]; lia).
  destruct D as [[-> [[-> ->]|[-> ->]]]|[-> ->]].
  - exact (same_run_ok _ _ _ _ S1).
  - exact (same_run_ok _ _ _ _ S2).
  - rewrite (run_x_u 66 65 64 u 0), (run_u 66 65 64 u 0) by reflexivity. exact (same_run_ok _ _ _ _ S3).
Qed.
Theorem exact_proof v k l u : admissible v k l u -> (v <= 66)%nat -> u <= 127 ->
  exists ms, run_main_x (Z.of_nat v) k l u = Ok ms /\ run_main (Z.of_nat v) k l u = Ok ms.
Proof.
  intros HA Hv Hu. pose proof HA as (Hv3 & Hk & Hl & Hu0 & He).
  assert (D : ((v <= 65)%nat \/ k <= 63) \/ (v = 66%nat /\ 64 <= k)) by lia.
  destruct D as [D|[E66 D]].
  - destruct (no_wrap_proof v k l u HA Hv Hu D) as (ms & EW & E). exists ms. split; [|exact E].
    destruct (agree_main (Z.of_nat v) k l u) as [E'|E']; rewrite EW in E'; [discriminate|now rewrite <- E'].
  - destruct (solve_well_formed v k l u HA ltac:(lia)) as (ms & E & _). exists ms. split; [|exact E]. rewrite <- E.
    assert (EZ : Z.of_nat v = 66) by lia. rewrite EZ. rewrite E66 in HA. exact (same_66_all k l u HA Hu D).
Qed.

(** beyond, it makes a difference: the graph that C73 misses *)
Lemma exact_68 : (match run_main_x 68 66 64 66 with Ok [m] => mat_eqb m (Mat 68 cocktail68) | _ => false end) = true.
Proof. vm_cast_no_check (eq_refl true). Qed.
Theorem exact_sharp_proof : exists v k l u m, (v = 68)%nat /\ admissible v k l u /\ u <= 127
  /\ run_main (Z.of_nat v) k l u = Ok [] /\ run_main_x (Z.of_nat v) k l u = Ok [m] /\ srg v k l u (mrows m).
Proof.
  exists 68%nat, 66, 64, 66, (Mat 68 cocktail68). split; auto. split; [unfold admissible; lia|]. split; [lia|].
  change (Z.of_nat 68) with 68. split; [exact cocktail68_missed|]. split; [|exact cocktail68_srg].
  pose proof exact_68 as H. destruct (run_main_x 68 66 64 66) as [[|m [|]]| |]; try discriminate. apply mat_eqb_iff in H. now subst.
Qed.
