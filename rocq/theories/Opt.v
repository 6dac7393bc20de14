(** C80: the search under [python -O]. *)
From Coq Require Import String.
From Verif Require Import Np ModelGauss Model ModelSort ModelUtil ModelPrint ModelOpt Spec Check Lib AnyFacts SolveFacts.
From Coq Require Import ZifyBool ZifyNat.
Local Open Scope list_scope.
Local Open Scope Z_scope.

(** ** where no assertion fails, leaving them out changes nothing *)
Definition same {A} (a b : res A) : Prop := a = Raise AssertionError \/ a = b.
Lemma same_refl {A} (a : res A) : same a a.
Proof. now right. Qed.
Lemma same_bind {A B} (a b : res A) (f g : A -> res B) : same a b -> (forall x, same (f x) (g x)) -> same (bind a f) (bind b g).
Proof. intros [->| ->] H; [now left|]. destruct b; cbn [bind]; [apply H|now right|now right]. Qed.
Lemma same_assert {B} c (f : unit -> res B) (r : res B) : same (f tt) r -> same (bind (assert_ c) f) r.
Proof. intros H. unfold assert_. destruct c; [exact H|now left]. Qed.
Lemma same_mapM {A B} (f g : A -> res B) l : (forall x, same (f x) (g x)) -> same (mapM f l) (mapM g l).
Proof.
  intros H. induction l as [|a l IH]; [now right|]. cbn [mapM]. apply same_bind; auto. intros y. apply same_bind; auto. intros. now right.
Qed.
Lemma same_while {S A} (f g : S -> S + res A) n s :
  (forall s, f s = inr (Raise AssertionError) \/ f s = g s) -> same (while_ n f s) (while_ n g s).
Proof.
  intros H. unfold while_, same.
  assert (G : forall n s, iter2 n f s = inr (Raise AssertionError) \/ iter2 n f s = iter2 n g s).
  { clear n s. induction n as [|n IH]; intros s; [apply H|]. cbn [iter2].
    destruct (IH s) as [->|E]; [now left|]. rewrite E. destruct (iter2 n g s) as [s'|r]; [apply IH|now right]. }
  destruct (G n s) as [->|E]; [now left|]. rewrite E. now right.
Qed.
Ltac sg := first [apply same_refl|apply same_assert].

Lemma same_gauss hd : same (gauss_elim hd) (gauss_elim_o hd).
Proof. destruct hd as [|m rest]; [sg|]. unfold gauss_elim, gauss_elim_o. sg. sg. Qed.
Lemma same_core n hd : same (elim_core n hd) (elim_core_o n hd).
Proof.
  unfold elim_core, elim_core_o. destruct (_ <=? _)%nat; [sg|]. apply same_while. intros [hs h].
  unfold elim_step, elim_step_o. destruct h as [|m t]; [now right|]. destruct (same_gauss (m :: t)) as [->| ->]; [now left|now right].
Qed.
Lemma same_elim A b : same (elim A b) (elim_o A b).
Proof.
  unfold elim, elim_o. apply same_bind; [unfold encode, encode_o; sg; sg|]. intros hd.
  apply same_bind; [apply same_core|]. intros; sg.
Qed.
Lemma same_answer v loc len : same (mk_answer v loc len) (mk_answer_o v loc len).
Proof.
  unfold mk_answer, mk_answer_o. sg. destruct loc as [|l0 t]; [sg|].
  unfold assert_. destruct (l0 =? 0); [|now left]. cbn [bind]. destruct (forallb _ _); [|now left]. cbn [bind].
  destruct (_ <? _); [now right|now left].
Qed.
Lemma same_quota a : same (answer_quota a) (answer_quota_o a).
Proof. unfold answer_quota, answer_quota_o. sg. sg. Qed.
Lemma same_binarize a : same (binarize a) (binarize_o a).
Proof. unfold binarize, binarize_o. sg. apply same_bind; [apply same_quota|]. intros q. sg. sg. Qed.
Lemma same_question A b q bd o : same (mk_question A b q bd o) (mk_question_o A b q bd o).
Proof. unfold mk_question, mk_question_o. do 5 sg. apply same_bind; [|intros; sg]. destruct o; [sg|apply same_answer]. Qed.
Lemma same_from_matrix m : same (from_matrix m) (from_matrix_o m).
Proof.
  unfold from_matrix, from_matrix_o. apply same_bind; [sg|]. intros [[[v k] l] u].
  destruct (_ <=? _)%nat; [sg|]. destruct (existsb _ _); [sg|]. apply same_question.
Qed.
Lemma same_copy Q : same (question_copy Q) (question_copy_o Q).
Proof. unfold question_copy, question_copy_o. apply same_bind; [apply same_answer|]. intros. apply same_question. Qed.
Lemma same_append m x : same (append_row m x) (append_row_o m x).
Proof. unfold append_row, append_row_o. destruct (_ <=? _)%nat; [sg|]. sg. sg. Qed.
Lemma same_post Q : same (post_check Q) (post_check_o Q).
Proof.
  unfold post_check, post_check_o. destruct (_ && _); [sg|]. sg. destruct (_ && _); [sg|].
  apply same_bind; [apply same_quota|]. intros; sg.
Qed.
Lemma same_reduce Q : same (reduce_col Q) (reduce_col_o Q).
Proof.
  unfold reduce_col, reduce_col_o. apply same_bind; [|apply same_post]. unfold reduce_col_body, reduce_col_body_o.
  destruct (_ <? _)%nat; [sg|]. apply same_bind; [sg|]. intros enc. destruct (_ <? _)%nat; [sg|].
  destruct (existsb _ _); [sg|]. sg. apply same_bind; [apply same_answer|]. intros. sg. sg.
Qed.
Lemma same_eliminate Q : same (eliminate Q) (eliminate_o Q).
Proof.
  unfold eliminate, eliminate_o. apply same_bind; [|apply same_post]. unfold eliminate_body, eliminate_body_o.
  destruct (Nat.eqb _ _); [sg|]. apply same_bind; [apply same_elim|]. intros [A b]. sg. sg.
Qed.
Lemma same_zero Q : same (zero_in_b Q) (zero_in_b_o Q).
Proof.
  unfold zero_in_b, zero_in_b_o. apply same_bind; [|apply same_post]. unfold zero_in_b_body, zero_in_b_body_o. sg. sg. sg.
Qed.
Lemma same_spend xs : forall q, same (spend xs q) (Ok (fold_left Z.sub xs q)).
Proof. induction xs as [|x xs IH]; intros q; [sg|]. cbn [spend fold_left]. sg. apply IH. Qed.
Lemma same_only1 Q : same (only_1_element_in_row Q) (only_1_element_in_row_o Q).
Proof.
  unfold only_1_element_in_row, only_1_element_in_row_o. apply same_bind; [|apply same_post].
  unfold only_1_body, only_1_body_o, only_1_with, only_1_with_o. sg.
  destruct (one_element_row_locs _) as [|rc rcs]; [sg|].
  destruct (existsb _ _); [sg|]. destruct (_ <? _); [sg|]. destruct (any2 _ _ _); [sg|].
  destruct (same_spend (pick 0 (map fst (rc :: rcs)) (qb Q)) (qquota Q)) as [->| ->]; [now left|]. cbn [bind]. sg. sg. sg.
Qed.
Lemma same_fork Q : same (fork_enum Q) (fork_enum_o Q).
Proof.
  unfold fork_enum, fork_enum_o. apply same_bind; [apply same_post|]. intros _. sg.
  apply same_bind; [sg|]. intros ml. apply same_bind; [|intros; sg]. apply same_mapM. intros x. unfold fork_one, fork_one_o.
  destruct (existsb _ _); [sg|]. apply same_bind; [apply same_answer|]. intros a.
  apply same_bind; [apply same_question|]. intros; sg.
Qed.
Lemma same_refine Q : same (refine Q) (refine_o Q).
Proof.
  unfold refine, refine_o. apply same_while. clear Q. intros Q. unfold refine_step, refine_step_o.
  match goal with |- match ?a with _ => _ end = _ \/ match ?a with _ => _ end = match ?b with _ => _ end => assert (H : same a b) end.
  { apply same_bind; [apply same_copy|].
    intros Qd. apply same_bind; [apply same_reduce|]. intros. apply same_bind; [apply same_eliminate|]. intros.
    apply same_bind; [apply same_zero|]. intros. apply same_bind; [apply same_only1|]. intros; sg. }
  destruct H as [->| ->]; [now left|now right].
Qed.
Lemma same_solve_question Q : same (solve_question Q) (solve_question_o Q).
Proof.
  unfold solve_question, solve_question_o. apply same_while. clear Q. intros [st out]. unfold question_step, question_step_o.
  destruct st as [|Q rest]; [now right|]. destruct (same_refine Q) as [->| ->]; [now left|].
  destruct (refine_o Q) as [Q'| |]; auto. destruct (answer_unknown (qans Q')).
  - destruct (same_fork Q') as [->| ->]; [now left|now right].
  - destruct (same_binarize (qans Q')) as [->| ->]; [now left|now right].
Qed.
Lemma same_advance m : same (advance m) (advance_o m).
Proof.
  unfold advance, advance_o. sg. destruct (same_from_matrix m) as [->| ->]; [now left|].
  destruct (from_matrix_o m); try sg. apply same_bind; [apply same_solve_question|]. intros. apply same_mapM. intros. apply same_append.
Qed.
Lemma same_advance_all l : same (advance_all l) (advance_all_o l).
Proof. unfold advance_all, advance_all_o. apply same_bind; [apply same_mapM, same_advance|]. intros; sg. Qed.
Lemma same_loop fuel : forall lst ys, same (solve_loop fuel lst ys) (solve_loop_o fuel lst ys).
Proof.
  induction fuel as [|fuel IH]; intros lst ys; [destruct lst; sg|]. destruct lst as [|m lst]; [sg|].
  cbn [solve_loop solve_loop_o]. apply same_bind; [apply same_advance_all|]. intros. apply IH.
Qed.
Lemma same_solve m : same (solve m) (solve_o m).
Proof.
  unfold solve, solve_o. apply same_bind; [apply same_advance|]. intros lst. apply same_bind; [apply same_advance_all|].
  intros. apply same_loop.
Qed.
Theorem same_main v k l u : run_main v k l u = Raise AssertionError \/ run_main v k l u = run_main_o v k l u.
Proof. unfold run_main, run_main_o, assert_srg. apply same_assert. apply same_bind; [sg|]. intros m. apply same_solve. Qed.

(** ** the program *)
Theorem opt_u_proof v k l u u' : run_main_o v k l u = run_main_o v k l u'.
Proof. reflexivity. Qed.
Theorem opt_proof v k l u u' : admissible v k l u' -> (v <= 67)%nat -> run_main_o (Z.of_nat v) k l u = run_main (Z.of_nat v) k l u'.
Proof.
  intros HA Hv. rewrite (opt_u_proof _ k l u u'). destruct (solve_well_formed v k l u' HA Hv) as (ms & E & _).
  destruct (same_main (Z.of_nat v) k l u') as [E'|E']; [rewrite E in E'; discriminate|now symmetry].
Qed.
Theorem opt_text_proof v k l u : same (main_text v k l u) (main_text_o v k l u).
Proof.
  unfold main_text, main_text_o, main_output. destruct (same_main v k l u) as [->| ->]; [now left|].
  destruct (run_main_o v k l u); now right.
Qed.
Theorem opt_program_proof argv : main_program argv = Raise AssertionError \/ main_program argv = main_program_o argv.
Proof.
  unfold main_program, main_program_o. destruct (mapM int_of argv) as [[|v [|k [|l [|u [|]]]]]| |]; try (now right). apply opt_text_proof.
Qed.

Lemma opt_run : match run_main_o 5 2 0 7 with Ok [m] => srg 5 2 0 1 (mrows m) | _ => False end.
Proof.
  assert (E : run_main_o 5 2 0 7 = Ok [Mat 5 [[0;1;1;0;0];[1;0;0;1;0];[1;0;0;0;1];[0;1;0;0;1];[0;0;1;1;0]]]) by (vm_compute; reflexivity).
  rewrite E. apply srgb_ok. vm_compute. reflexivity.
Qed.
