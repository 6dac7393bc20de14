(** Boolean versions of some specification predicates, used by the examples. *)
From Verif Require Import Np Model Spec Lib.
From Coq Require Import ZifyBool ZifyNat.

Definition allb (n : nat) (p : nat -> bool) : bool := forallb p (seq 0 n).
Lemma allb_ok n p : allb n p = true <-> forall i, (i < n)%nat -> p i = true.
Proof.
  unfold allb. rewrite forallb_forall. split.
  - intros H i Hi. apply H, in_seq. lia.
  - intros H i Hi. apply H. apply in_seq in Hi. lia.
Qed.
Definition shapeb (n c : nat) (M : list (list Z)) : bool :=
  (length M =? n)%nat && forallb (fun row => (length row =? c)%nat) M.
Lemma shapeb_ok n c M : shapeb n c M = true -> shape n c M.
Proof.
  unfold shapeb. rewrite andb_true_iff, forallb_forall. intros [H1 H2]. split; [lia|].
  intros row Hr. specialize (H2 row Hr). lia.
Qed.
Definition bitb (x : Z) : bool := (x =? 0) || (x =? 1).
Lemma bitb_ok x : bitb x = true <-> bit x.
Proof. unfold bitb, bit. lia. Qed.
Definition adjacencyb (v : nat) (M : list (list Z)) : bool :=
  shapeb v v M
  && allb v (fun i => (cell M i i =? 0) && allb v (fun j => bitb (cell M i j) && (cell M i j =? cell M j i))).
Lemma adjacencyb_ok v M : adjacencyb v M = true -> adjacency v M.
Proof.
  unfold adjacencyb. rewrite andb_true_iff, allb_ok. intros [H1 H2]. split; [now apply shapeb_ok|].
  assert (H : forall i, (i < v)%nat -> cell M i i = 0 /\ forall j, (j < v)%nat -> bit (cell M i j) /\ cell M i j = cell M j i).
  { intros i Hi. specialize (H2 i Hi). rewrite andb_true_iff, allb_ok in H2. destruct H2 as [A B]. split; [lia|].
    intros j Hj. specialize (B j Hj). rewrite andb_true_iff, bitb_ok in B. split; [tauto|lia]. }
  split; [|split]; intros; now apply H.
Qed.
Definition srgb (v : nat) (k l u : Z) (M : list (list Z)) : bool :=
  adjacencyb v M
  && allb v (fun i => (degree v M i =? k)
       && allb v (fun j => (i =? j)%nat || (common v M i j =? if cell M i j =? 1 then l else u))).
Lemma srgb_ok v k l u M : srgb v k l u M = true -> srg v k l u M.
Proof.
  unfold srgb. rewrite andb_true_iff, allb_ok. intros [H1 H2]. split; [now apply adjacencyb_ok|].
  assert (H : forall i, (i < v)%nat -> degree v M i = k /\ forall j, (j < v)%nat -> i <> j -> common v M i j = if cell M i j =? 1 then l else u).
  { intros i Hi. specialize (H2 i Hi). rewrite andb_true_iff, allb_ok in H2. destruct H2 as [A B]. split; [lia|].
    intros j Hj Hne. specialize (B j Hj). rewrite orb_true_iff in B. destruct B as [B|B]; lia. }
  split; intros; now apply H.
Qed.
Definition partialb (v R : nat) (M : list (list Z)) : bool :=
  shapeb R v M && (2 <=? R)%nat && (R <=? v)%nat
  && allb R (fun i => (cell M i i =? 0) && allb v (fun j => bitb (cell M i j)) && allb R (fun j => cell M i j =? cell M j i)).
Lemma partialb_ok v R M : partialb v R M = true -> partial_matrix v R M.
Proof.
  unfold partialb. rewrite !andb_true_iff, allb_ok. intros [[[H1 H2] H3] H4].
  assert (H : forall i, (i < R)%nat -> cell M i i = 0 /\ (forall j, (j < v)%nat -> bit (cell M i j)) /\ forall j, (j < R)%nat -> cell M i j = cell M j i).
  { intros i Hi. specialize (H4 i Hi). rewrite !andb_true_iff, !allb_ok in H4. destruct H4 as [[A B] C]. split; [lia|]. split.
    - intros j Hj. apply bitb_ok. auto.
    - intros j Hj. specialize (C j Hj). lia. }
  constructor; [now apply shapeb_ok|lia| | |]; intros; now apply H.
Qed.
Definition levelb (v R : nat) (M : list (list Z)) : bool :=
  partialb v R M
  && allb R (fun r => allb v (fun j => allb v (fun j' =>
       negb ((r <? j)%nat && (j <? j')%nat)
       || negb (allb r (fun i => cell M i j =? cell M i j'))
       || (cell M r j' <=? cell M r j)))).
Lemma levelb_ok v R M : levelb v R M = true -> level v R M.
Proof.
  unfold levelb. rewrite andb_true_iff, allb_ok. intros [H1 H2]. split; [now apply partialb_ok|].
  intros r j j' Hr Hj Hj' Heq. specialize (H2 r Hr). rewrite allb_ok in H2. specialize (H2 j ltac:(lia)).
  rewrite allb_ok in H2. specialize (H2 j' Hj'). rewrite !orb_true_iff, !negb_true_iff in H2.
  destruct H2 as [[H2|H2]|H2]; [lia| |lia].
  enough (allb r (fun i => cell M i j =? cell M i j') = true) by congruence.
  apply allb_ok. intros i Hi. specialize (Heq i Hi). lia.
Qed.
Definition sameb (A : list (list Z)) (i j : nat) : bool := forallb (fun row => nth i row 0 =? nth j row 0) A.
Lemma sameb_ok A i j : sameb A i j = true <-> forall row, In row A -> nth i row 0 = nth j row 0.
Proof. unfold sameb. rewrite forallb_forall. split; intros H row Hr; specialize (H row Hr); lia. Qed.
Definition adjacentb (C : nat) (A : list (list Z)) : bool :=
  allb C (fun i => allb C (fun j => allb C (fun k =>
    negb ((i <? j)%nat && (j <? k)%nat) || negb (sameb A i k) || sameb A i j))).
Lemma adjacentb_ok C A : adjacentb C A = true -> equal_columns_adjacent C A.
Proof.
  unfold adjacentb. rewrite allb_ok. intros H i j k Hij Hk Hs.
  specialize (H i ltac:(lia)). rewrite allb_ok in H. specialize (H j ltac:(lia)). rewrite allb_ok in H. specialize (H k Hk).
  rewrite !orb_true_iff, !negb_true_iff in H. apply sameb_ok in Hs. destruct H as [[H|H]|H]; [lia|congruence|].
  now apply sameb_ok.
Qed.
Definition fits_rowb (k l u : Z) (M : list (list Z)) (x : list Z) : bool :=
  (zsum (next_row M x) =? k)
  && allb (length M) (fun i => dot (nth i M []) (next_row M x) =? if cell M i (length M) =? 1 then l else u).
Lemma fits_rowb_ok k l u M x : fits_rowb k l u M x = true -> fits_row k l u M x.
Proof.
  unfold fits_rowb. rewrite andb_true_iff, allb_ok. intros [H1 H2]. split; [lia|]. intros i Hi. specialize (H2 i Hi). lia.
Qed.
