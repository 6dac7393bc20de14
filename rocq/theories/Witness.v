(** Witnesses: the counterexamples behind the [_refuted] theorems and the
    concrete instances used by the examples. *)
From Verif Require Import Np ModelGauss Model Spec Lib Check SolveFacts SolverProps ElimProps.

(** one of the matrices the program prints for (22,9,4,3); its row 17 has only
    seven ones *)
Definition bad_22_9_4_3 : mat := Mat 22
  [[0;1;1;1;1;1;1;1;1;1;0;0;0;0;0;0;0;0;0;0;0;0];
   [1;0;1;1;1;1;0;0;0;0;1;1;1;1;0;0;0;0;0;0;0;0];
   [1;1;0;1;1;1;0;0;0;0;0;0;0;0;1;1;1;1;0;0;0;0];
   [1;1;1;0;1;0;1;0;0;0;1;0;0;0;1;0;0;0;1;1;0;0];
   [1;1;1;1;0;0;0;1;0;0;0;1;0;0;1;0;0;0;0;0;1;1];
   [1;1;1;0;0;0;0;0;1;1;0;0;1;1;0;1;1;0;0;0;0;0];
   [1;0;0;1;0;0;0;1;1;1;1;0;0;0;0;0;0;1;1;1;0;0];
   [1;0;0;0;1;0;1;0;1;1;0;1;0;0;0;0;0;1;0;0;1;1];
   [1;0;0;0;0;1;1;1;0;1;0;0;1;0;0;1;0;0;1;0;1;0];
   [1;0;0;0;0;1;1;1;1;0;0;0;0;1;0;0;1;0;0;1;0;1];
   [0;1;0;1;0;0;1;0;0;0;0;1;1;1;0;0;0;1;1;1;0;0];
   [0;1;0;0;1;0;0;1;0;0;1;0;1;1;0;0;0;1;0;0;1;1];
   [0;1;0;0;0;1;0;0;1;0;1;1;0;1;0;1;0;0;1;0;1;0];
   [0;1;0;0;0;1;0;0;0;1;1;1;1;0;0;0;1;0;0;1;0;1];
   [0;0;1;1;1;0;0;0;0;0;0;0;0;0;0;1;1;0;1;1;1;1];
   [0;0;1;0;0;1;0;0;1;0;0;0;1;0;1;0;1;1;1;0;1;0];
   [0;0;1;0;0;1;0;0;0;1;0;0;0;1;1;1;0;1;0;1;0;1];
   [0;0;1;0;0;0;1;1;0;0;1;1;0;0;0;1;1;0;0;0;0;0];
   [0;0;0;1;0;0;1;0;1;0;1;0;1;0;1;1;0;0;0;1;1;0];
   [0;0;0;1;0;0;1;0;0;1;1;0;0;1;1;0;1;0;1;0;0;1];
   [0;0;0;0;1;0;0;1;1;0;0;1;1;0;1;1;0;0;1;0;0;1];
   [0;0;0;0;1;0;0;1;0;1;0;1;0;1;1;0;1;0;0;1;1;0]].

Lemma bad_22_found : forallb (step_ok bad_22_9_4_3) (seq 2 20) = true.
Proof. vm_compute. reflexivity. Qed.
Lemma solve_unsound_proof :
  exists v k l u, admissible v k l u
    /\ exists ms m, run_main (Z.of_nat v) k l u = Ok ms /\ In m ms /\ ~ srg v k l u (mrows m).
Proof.
  exists 22%nat, 9, 4, 3.
  assert (Ha : admissible 22 9 4 3) by (unfold admissible; lia). split; [exact Ha|].
  destruct (solve_well_formed 22 9 4 3 Ha ltac:(lia)) as (ms & E & _).
  exists ms, bad_22_9_4_3. split; [exact E|]. split.
  - apply (run_main_found 22 9 4 3 bad_22_9_4_3 ms E); [lia|reflexivity|reflexivity|vm_compute; reflexivity|exact bad_22_found].
  - intros (_ & H & _). specialize (H 17%nat ltac:(lia)). vm_compute in H. discriminate.
Qed.

(** (5,3,1,3): a bound tightened to zero hides an unmet equation *)
Lemma solve_question_unsound_proof :
  exists v k l u m Q xs x, admissible v k l u
    /\ seed (Z.of_nat v) k l u = Ok m /\ from_matrix m = Ok Q
    /\ solve_question Q = Ok xs /\ In x xs /\ ~ solves (mrows (qA Q)) (qb Q) x.
Proof.
  exists 5%nat, 3, 1, 3. eexists. eexists. eexists. exists [0;0].
  split; [unfold admissible; lia|]. split; [vm_compute; reflexivity|]. split; [vm_compute; reflexivity|].
  split; [vm_compute; reflexivity|]. split; [now left|].
  intros [_ H]. specialize (H 2%nat ltac:(simpl; lia)). vm_compute in H. discriminate.
Qed.

(** int8 wrap in [from_matrix]: u = 288 is stored as 32 *)
Definition wrap_35 : list (list Z) :=
  [[0;1;0] ++ repeat 1 31 ++ [0];
   [1;0;1] ++ repeat 1 13 ++ repeat 0 19].
Lemma from_matrix_wrap_proof :
  exists v R M k l u Q x, partial_matrix v R M /\ (R < v)%nat
    /\ vklu (Mat v M) = Ok (Z.of_nat v, k, l, u) /\ from_matrix (Mat v M) = Ok Q
    /\ length x = (v - R - 1)%nat /\ bits x
    /\ solves (mrows (qA Q)) (qb Q) x /\ ~ fits_row k l u M x.
Proof.
  exists 35%nat, 2%nat, wrap_35, 32, 13, 288. eexists. exists (repeat 1 31 ++ [0]).
  split; [apply partialb_ok; vm_compute; reflexivity|]. split; [lia|].
  split; [vm_compute; reflexivity|]. split; [vm_compute; reflexivity|]. split; [reflexivity|].
  split; [apply bitsb_ok; reflexivity|]. split.
  - split; [reflexivity|]. intros i Hi. simpl in Hi. destruct i as [|[|[|i]]]; try lia; vm_compute; reflexivity.
  - intros [_ H]. specialize (H 0%nat ltac:(simpl; lia)). vm_compute in H. discriminate.
Qed.

(** row 1 of the seed may have fewer than [k] ones *)
Lemma seed_short_proof :
  exists v k l u m, admissible v k l u /\ seed (Z.of_nat v) k l u = Ok m /\ zsum (nth 1 (mrows m) []) <> k.
Proof.
  exists 6%nat, 4, 0, 12. eexists. split; [unfold admissible; lia|]. split; [vm_compute; reflexivity|]. vm_compute. discriminate.
Qed.

(** an equation reduced to [0 = c] is dropped *)
Lemma elim_adds_solution_proof :
  exists A b, elim_input A b
    /\ exists A' b' x, elim A b = Ok (A', b') /\ bits x
         /\ solves (mrows A') b' x /\ ~ solves (mrows A) b x.
Proof.
  exists (Mat 2 [[1;1]; [1;1]]), [1; 2]. split.
  - apply elim_inputb_ok. reflexivity.
  - exists (Mat 2 [[1;1]]), [1], [1;0]. split; [vm_compute; reflexivity|]. split.
    + apply bitsb_ok. reflexivity.
    + split.
      * split; [reflexivity|]. intros i Hi. simpl in Hi. destruct i; [reflexivity|lia].
      * intros [_ H]. specialize (H 1%nat ltac:(simpl; lia)). vm_compute in H. discriminate.
Qed.

(** the Petersen graph in a labelling that is not the program's *)
Definition petersen : list (list Z) :=
  [[0;1;0;0;1;1;0;0;0;0];
   [1;0;1;0;0;0;1;0;0;0];
   [0;1;0;1;0;0;0;1;0;0];
   [0;0;1;0;1;0;0;0;1;0];
   [1;0;0;1;0;0;0;0;0;1];
   [1;0;0;0;0;0;0;1;1;0];
   [0;1;0;0;0;0;0;0;1;1];
   [0;0;1;0;0;1;0;0;0;1];
   [0;0;0;1;0;1;1;0;0;0];
   [0;0;0;0;1;0;1;1;0;0]].
Lemma petersen_srg : srg 10 3 0 1 petersen.
Proof. apply srgb_ok. vm_compute. reflexivity. Qed.
