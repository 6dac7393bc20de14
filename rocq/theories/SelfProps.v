(** C84: the self tests of the modules and [sort] of srg/gauss_elim.py. *)
From Verif Require Import Np ModelGauss Model ModelSort ModelSelf Spec SortSpec Lib.
From Coq Require Import ZifyBool ZifyNat Sorting.Permutation Sorting.Sorted.

Lemma pick_length {A} (d : A) p l : length (pick d p l) = length p.
Proof. apply map_length. Qed.
Lemma pick_seq {A} (d : A) l : pick d (seq 0 (length l)) l = l.
Proof.
  apply (nth_ext _ _ d d); [now rewrite pick_length, seq_length|]. intros i Hi. rewrite pick_length, seq_length in Hi.
  unfold pick. rewrite (nth_map_in _ _ _ 0%nat) by now rewrite seq_length. now rewrite nth_seq0.
Qed.
Lemma pick_combine {A B} (a : A) (b : B) p : forall x y, combine (pick a p x) (pick b p y) = map (fun i => (nth i x a, nth i y b)) p.
Proof. induction p as [|i p IH]; intros x y; [reflexivity|]. cbn [pick map combine]. f_equal. apply IH. Qed.

Lemma solves_in A b x : solves A b x <-> length A = length b /\ forall row y, In (row, y) (combine A b) -> dot row x = y.
Proof.
  unfold solves. split; intros [HL H]; split; auto.
  - intros row y Hin. apply (In_nth _ _ ([], 0)) in Hin. destruct Hin as (i & Hi & E). rewrite combine_length in Hi.
    rewrite combine_nth in E by auto. injection E as <- <-. apply H. lia.
  - intros i Hi. apply H. rewrite <- combine_nth by auto. apply nth_In. rewrite combine_length. lia.
Qed.

Theorem gauss_sort_proof argsort A b : argsorts argsort -> length b = mnrows A ->
  exists A' b', gauss_sort argsort A b = Ok (A', b') /\ mcols A' = mcols A
    /\ Permutation (combine (mrows A) b) (combine (mrows A') b') /\ StronglySorted Z.le b'
    /\ forall x, solves (mrows A) b x <-> solves (mrows A') b' x.
Proof.
  intros HS Hb. destruct (HS b) as [HP HO]. unfold gauss_sort. rewrite Hb, Nat.ltb_irrefl, Nat.eqb_refl.
  set (p := argsort b) in *. eexists _, _. split; [reflexivity|]. cbn [mcols mrows].
  assert (HL : length p = length b) by (now rewrite (Permutation_length HP), seq_length).
  assert (P : Permutation (combine (mrows A) b) (combine (pick [] p (mrows A)) (pick 0 p b))).
  { rewrite pick_combine. rewrite <- (pick_seq [] (mrows A)) at 1. rewrite <- (pick_seq 0 b) at 1.
    unfold mnrows in Hb. rewrite Hb, pick_combine, <- Hb. apply Permutation_map. now symmetry. }
  split; [reflexivity|]. split; [exact P|]. split.
  - assert (HN : forall i j, (i < j < length (pick 0%Z p b))%nat -> nth i (pick 0 p b) 0 <= nth j (pick 0 p b) 0).
    { intros i j Hij. rewrite pick_length in Hij. unfold pick. rewrite !(nth_map_in _ _ _ 0%nat) by lia. apply HO. lia. }
    revert HN. generalize (pick 0 p b). clear. induction l as [|a l IH]; intros H; constructor.
    + apply IH. intros i j Hij. apply (H (S i) (S j)). simpl. lia.
    + apply Forall_forall. intros y Hy. apply (In_nth _ _ 0) in Hy. destruct Hy as (j & Hj & <-). apply (H 0%nat (S j)). simpl. lia.
  - intros x. rewrite !solves_in. rewrite !pick_length. unfold mnrows in Hb. split; intros [_ H]; (split; [lia|]); intros row y Hin; apply H.
    + now apply (Permutation_in _ (Permutation_sym P)).
    + now apply (Permutation_in _ P).
Qed.

Theorem self_tests_proof : self_gauss_elim = Ok tt /\ self_bounds_test1 = Ok tt /\ self_fork = Ok tt
  /\ self_bounds = ([4; 4], [(1, 1); (4, 0)]%nat)
  /\ self_unique = Ok (Mat 4 [[1;1;0;0]; [1;0;1;0]; [1;1;1;1]], [2; 2; 2; 1], [0; 2; 4; 6]%nat)
  /\ (exists ts, self_partition = Ok ts /\ NoDup ts /\ forall t, In t ts <-> length t = 5%nat /\ bits t /\ zsum t = 3)
  /\ exists q, self_srg = Ok (Mat 10 [[0;1;1;1;1;1;1;0;0;0]; [1;0;1;1;1;0;0;1;1;0]], q)
       /\ mrows (qA q) = [[1;1;1;1;0;0;0]; [1;1;0;0;1;1;0]; [1;1;1;1;1;1;1]] /\ qb q = [2; 2; 4].
Proof.
  split; [vm_compute; reflexivity|]. split; [vm_compute; reflexivity|]. split; [vm_compute; reflexivity|].
  split; [vm_compute; reflexivity|]. split; [vm_compute; reflexivity|]. split.
  - eexists. split; [vm_compute; reflexivity|]. split.
    + repeat constructor; simpl; intuition discriminate.
    + intros t. split.
      * intros H. simpl in H. repeat (destruct H as [<-|H]; [split; [reflexivity|split; [|reflexivity]];
          intros a Ha; simpl in Ha; repeat (destruct Ha as [<-|Ha]; [unfold bit; lia|]); destruct Ha|]). destruct H.
      * intros (HL & HB & HZ). destruct t as [|a [|b [|c [|d [|e [|]]]]]]; try discriminate HL.
        destruct (HB a ltac:(simpl; auto)) as [->| ->]; destruct (HB b ltac:(simpl; auto)) as [->| ->];
        destruct (HB c ltac:(simpl; auto)) as [->| ->]; destruct (HB d ltac:(simpl; auto)) as [->| ->];
        destruct (HB e ltac:(simpl; auto 6)) as [->| ->]; cbn in HZ; try discriminate HZ; simpl; auto 12.
  - eexists. split; [vm_compute; reflexivity|]. split; reflexivity.
Qed.
