(** Concrete argsort functions and graphs for the sorter theorems. *)
From Coq Require Import Sorting.Permutation Sorting.Sorted.
From Verif Require Import Np ModelGauss Model ModelSort Spec QSpec SortSpec Lib PartProps SortFacts MaxFacts.
From Coq Require Import ZifyBool ZifyNat.

(** insertion sort of the positions; [tie] decides on equal entries *)
Fixpoint ins_pos (tie : bool) (l : list Z) (i : nat) (q : list nat) : list nat :=
  match q with
  | [] => [i]
  | j :: t => if (nth i l 0 <? nth j l 0) || (tie && (nth i l 0 =? nth j l 0)) then i :: q else j :: ins_pos tie l i t
  end.
Definition argsort_by (tie : bool) (l : list Z) : list nat := fold_right (ins_pos tie l) [] (seq 0 (length l)).
(** ties in the order of the positions, ties in the opposite order *)
Definition argsort_stable := argsort_by true.
Definition argsort_reversed := argsort_by false.

Lemma ins_pos_perm tie l i q : Permutation (ins_pos tie l i q) (i :: q).
Proof.
  induction q as [|j q IH]; simpl; auto. destruct (_ || _); auto.
  rewrite IH. apply perm_swap.
Qed.
Lemma argsort_by_perm tie l q : Permutation (fold_right (ins_pos tie l) [] q) q.
Proof. induction q as [|i q IH]; simpl; auto. rewrite ins_pos_perm. now constructor. Qed.
Definition key_le (l : list Z) (i j : nat) : Prop := nth i l 0 <= nth j l 0.
Lemma ins_pos_sorted tie l i q : StronglySorted (key_le l) q -> StronglySorted (key_le l) (ins_pos tie l i q).
Proof.
  intros H. induction H as [|j q Hq IH HF]; simpl; [repeat constructor|]. 
  destruct (_ || _) eqn:E.
  - assert (K : key_le l i j) by (unfold key_le; lia). constructor; [now constructor|]. constructor; auto.
    eapply Forall_impl; [|exact HF]. unfold key_le in *. intros; lia.
  - constructor; auto. assert (K : key_le l j i) by (unfold key_le; lia).
    apply Forall_forall. intros x Hx. apply (Permutation_in _ (ins_pos_perm tie l i q)) in Hx. destruct Hx as [<-|Hx]; auto.
    rewrite Forall_forall in HF. auto.
Qed.
Lemma sorted_nth {A} (R : A -> A -> Prop) (d : A) q : StronglySorted R q ->
  forall i j, (i < j < length q)%nat -> R (nth i q d) (nth j q d).
Proof.
  intros H. induction H as [|a q Hq IH HF]; intros i j Hij; simpl in *; [lia|]. destruct j as [|j]; [lia|].
  destruct i as [|i].
  - rewrite Forall_forall in HF. apply HF, nth_In. lia.
  - apply IH. lia.
Qed.
Lemma argsort_by_ok tie : argsorts (argsort_by tie).
Proof.
  intros l. unfold argsort_by. split; [apply argsort_by_perm|]. intros i j Hij.
  apply (sorted_nth (key_le l)).
  - generalize (seq 0 (length l)). intros q. induction q as [|x q IH]; simpl; [constructor|]. now apply ins_pos_sorted.
  - rewrite (Permutation_length (argsort_by_perm tie l _)), seq_length. lia.
Qed.
Definition key_lt (l : list Z) (i j : nat) : Prop := nth i l 0 < nth j l 0 \/ (nth i l 0 = nth j l 0 /\ (i < j)%nat).
Lemma ins_pos_stable l i q : (forall j, In j q -> (i < j)%nat) -> StronglySorted (key_lt l) q ->
  StronglySorted (key_lt l) (ins_pos true l i q).
Proof.
  intros Hi H. induction H as [|j q Hq IH HF]; simpl; [repeat constructor|]. specialize (Hi j (or_introl eq_refl)) as Hj.
  destruct (_ || _) eqn:E.
  - assert (K : key_lt l i j) by (unfold key_lt; lia). constructor; [now constructor|]. constructor; auto.
    eapply Forall_impl; [|exact HF]. unfold key_lt in *. intros; lia.
  - constructor; [apply IH; intros x Hx; apply Hi; now right|]. assert (K : key_lt l j i) by (unfold key_lt; lia).
    apply Forall_forall. intros x Hx. apply (Permutation_in _ (ins_pos_perm true l i q)) in Hx. destruct Hx as [<-|Hx]; auto.
    rewrite Forall_forall in HF. auto.
Qed.
Lemma argsort_stable_ok n : stable_upto n argsort_stable.
Proof.
  intros l i j _ Hij E. unfold argsort_stable, argsort_by in *.
  assert (K : StronglySorted (key_lt l) (fold_right (ins_pos true l) [] (seq 0 (length l)))).
  { generalize (length l) as n', 0%nat as s. induction n' as [|n' IH]; intros s; simpl; [constructor|].
    apply ins_pos_stable; auto. intros x Hx. apply (Permutation_in _ (argsort_by_perm true l _)), in_seq in Hx. lia. }
  apply (sorted_nth (key_lt l) 0%nat) with (i := i) (j := j) in K.
  - destruct K as [K|K]; lia.
  - rewrite (Permutation_length (argsort_by_perm true l _)), seq_length. lia.
Qed.

(** the path 2 - 0 - 1 - 3 *)
Definition path4 : list (list Z) := [[0;1;1;0]; [1;0;0;1]; [1;0;0;0]; [0;1;0;0]].
(** the triangle *)
Definition triangle : list (list Z) := [[0;1;1]; [1;0;1]; [1;1;0]].

Ltac cells := let i := fresh "i" in let j := fresh "j" in let Hi := fresh "Hi" in let Hj := fresh "Hj" in
  intros i j Hi Hj; do 4 (destruct i as [|i]; [do 4 (destruct j as [|j]; [cbv; auto|]); exfalso; lia|]); exfalso; lia.
Lemma path4_adjacency : adjacency 4 path4.
Proof.
  split; [split; [reflexivity|intros row Hr; repeat (destruct Hr as [<-|Hr]; [reflexivity|]); contradiction]|].
  split; [unfold bit; cells|]. split; [cells|].
  intros i Hi. do 4 (destruct i as [|i]; [reflexivity|]). exfalso; lia.
Qed.
Lemma triangle_adjacency : adjacency 3 triangle.
Proof.
  split; [split; [reflexivity|intros row Hr; repeat (destruct Hr as [<-|Hr]; [reflexivity|]); contradiction]|].
  split; [unfold bit; cells|]. split; [cells|].
  intros i Hi. do 3 (destruct i as [|i]; [reflexivity|]). exfalso; lia.
Qed.
Lemma adjacency_symmetric v M : adjacency v M -> symmetric v M.
Proof. intros (H1 & H2 & H3 & H4). now split. Qed.
Lemma maximize_smaller_proof : exists argsort v M N, argsorts argsort /\ adjacency v M
  /\ maximize argsort M = Ok N /\ lex_lt (upper v N) (upper v M).
Proof.
  exists argsort_reversed, 4%nat, path4. eexists. split; [apply argsort_by_ok|]. split; [apply path4_adjacency|].
  split; [vm_compute; reflexivity|]. cbv -[lex_lt]. simpl. lia.
Qed.
Lemma maximize_raises_proof : exists v M, adjacency v M
  /\ forall argsort, argsorts argsort -> maximize argsort M = Raise TypeError.
Proof.
  exists 3%nat, triangle. split; [apply triangle_adjacency|]. intros argsort H.
  destruct (maximize_proof argsort 3 triangle H (adjacency_symmetric _ _ triangle_adjacency)) as [[(j & Hj & E) _]|[_ E]]; auto.
  exfalso. do 3 (destruct j as [|j]; [try lia; discriminate E|]). lia.
Qed.
Lemma maximize_total argsort v M : argsorts argsort -> adjacency v M ->
  ((exists N, maximize argsort M = Ok N) <-> exists j, (1 <= j < v)%nat /\ cell M 0 j = 0).
Proof.
  intros Ha HM. destruct (maximize_proof argsort v M Ha (adjacency_symmetric _ _ HM)) as [[H1 (N & E & _)]|[H1 E]].
  - split; [auto|]. intros _. eauto.
  - split; [intros (N & E'); congruence|]. intros (j & Hj & E0). exfalso. now apply (H1 j).
Qed.
