(** Facts about sorter.maximize. *)
From Verif Require Import Np ModelGauss Model ModelSort Spec QSpec SortSpec Lib Graph AnyFacts PartProps SortFacts.
From Coq Require Import ZifyBool ZifyNat Sorting.Sorted Sorting.Permutation.

(** ** reindexing *)
Lemma reindex_cell ii M i j : (i < length ii)%nat -> (j < length ii)%nat -> (forall k, In k ii -> (k < length M)%nat) ->
  cell (reindex ii M) i j = cell M (nth i ii 0%nat) (nth j ii 0%nat).
Proof.
  intros Hi Hj Hii. unfold cell, reindex.
  assert (Hk : (nth i ii 0 < length M)%nat) by (apply Hii; now apply nth_In).
  unfold pick at 1. rewrite (nth_map_in _ _ _ 0%nat) by auto.
  rewrite (nth_map_in _ _ _ (@nil Z)) by auto. now rewrite nth_pick.
Qed.
Lemma reindex_shape ii M : (forall k, In k ii -> (k < length M)%nat) -> shape (length ii) (length ii) (reindex ii M).
Proof.
  intros Hii. unfold reindex. split; [now rewrite pick_length|]. intros row Hr. unfold pick in Hr at 1.
  apply in_map_iff in Hr. destruct Hr as (k & <- & Hk). rewrite (nth_map_in _ _ _ (@nil Z)) by auto. apply pick_length.
Qed.
Lemma symmetricb_true v M : symmetric v M -> symmetricb M = true.
Proof.
  intros [[HL HR] HS]. unfold symmetricb.
  assert (E : M = map (fun j => column j M) (seq 0 (length M))).
  { apply (matrix_ext v v).
    - now split.
    - split; [now rewrite map_length, seq_length|]. intros row Hr. apply in_map_iff in Hr. destruct Hr as (j & <- & _).
      unfold column. now rewrite map_length.
    - intros i j Hi Hj. rewrite HS by auto. unfold cell at 2. rewrite (nth_map_in _ _ _ 0%nat) by (rewrite seq_length; lia).
      rewrite seq_nth by lia. unfold column. rewrite (nth_map_in _ _ _ (@nil Z)) by lia. reflexivity. }
  rewrite <- E. clear. induction M as [|r M IH]; simpl; auto. rewrite IH, andb_true_r. apply (proj2 (vec_eqb_iff 0 r r)). reflexivity.
Qed.
Lemma perm_relabelling v ii : Permutation ii (seq 0 v) -> relabelling v (fun i => nth i ii 0%nat).
Proof.
  intros HP. assert (HL : length ii = v) by (apply Permutation_length in HP; now rewrite seq_length in HP).
  split.
  - intros i Hi. assert (In (nth i ii 0%nat) (seq 0 v)) as H by (eapply Permutation_in; [exact HP|apply nth_In; lia]).
    apply in_seq in H. lia.
  - intros i j Hi Hj E. assert (HN : NoDup ii) by (eapply Permutation_NoDup; [apply Permutation_sym; exact HP|apply seq_NoDup]).
    rewrite (NoDup_nth ii 0%nat) in HN. apply HN; auto; lia.
Qed.
Lemma relabelling_onto v f j : relabelling v f -> (j < v)%nat -> exists i, (i < v)%nat /\ f i = j.
Proof.
  intros Hf Hj. pose proof (relabelling_perm v f Hf) as HP.
  assert (In j (map f (seq 0 v))) as H by (eapply Permutation_in; [apply Permutation_sym; exact HP|apply in_seq; lia]).
  apply in_map_iff in H. destruct H as (i & E & Hi). apply in_seq in Hi. exists i. split; [lia|auto].
Qed.
Lemma segment_length c0 c1 row : (c0 <= c1 <= length row)%nat -> length (segment c0 c1 row) = (c1 - c0)%nat.
Proof. intros H. unfold segment. rewrite firstn_length, skipn_length. lia. Qed.
Lemma nth_skipn_add {A} (d : A) n l : forall i, nth i (skipn n l) d = nth (n + i) l d.
Proof.
  revert l. induction n as [|n IH]; intros l i; [reflexivity|]. destruct l as [|a l]; [now destruct i|]. simpl. apply IH.
Qed.
Lemma nth_firstn_lt {A} (d : A) n : forall l i, (i < n)%nat -> nth i (firstn n l) d = nth i l d.
Proof.
  induction n as [|n IH]; intros l i Hi; [lia|]. destruct l as [|a l]; [now destruct i|]. destruct i as [|i]; simpl; auto.
  apply IH. lia.
Qed.
Lemma segment_nth c0 c1 row i : (i < c1 - c0)%nat -> nth i (segment c0 c1 row) 0 = nth (c0 + i) row 0.
Proof. intros H. unfold segment. now rewrite nth_firstn_lt, nth_skipn_add. Qed.

(** first zero *)
Lemma first_zero l : 
  match hd_error (where_ (fun x => x =? 0) l) with
  | Some d => (d < length l)%nat /\ nth d l 0 = 0 /\ forall i, (i < d)%nat -> nth i l 0 <> 0
  | None => forall i, (i < length l)%nat -> nth i l 0 <> 0
  end.
Proof.
  unfold where_.
  assert (G : forall l i, match hd_error (where_from i (fun x => x =? 0) l) with
    | Some d => (i <= d < i + length l)%nat /\ nth (d - i) l 0 = 0 /\ forall j, (j < d - i)%nat -> nth j l 0 <> 0
    | None => forall j, (j < length l)%nat -> nth j l 0 <> 0 end).
  { clear. induction l as [|x l IH]; intros i; simpl; [lia|]. destruct (Z.eqb_spec x 0) as [->|Hx]; simpl.
    - rewrite Nat.sub_diag. split; [lia|]. split; auto. lia.
    - specialize (IH (S i)). destruct (hd_error (where_from (S i) (fun x => x =? 0) l)) as [d|].
      + destruct IH as (H1 & H2 & H3). replace (d - i)%nat with (S (d - S i)) by lia. split; [lia|]. split; auto.
        intros [|j] Hj; auto. apply H3. lia.
      + intros [|j] Hj; auto. apply IH. lia. }
  specialize (G l 0%nat). destruct (hd_error _) as [d|]; auto. rewrite Nat.sub_0_r in G. destruct G as (H1 & H2). split; [lia|auto].
Qed.

Definition inside (a b i : nat) : Prop := (a <= i < b)%nat.

(** ** one call of _sort *)
Section range.
  Variables (argsort : list Z -> list nat) (v : nat) (M : list (list Z)) (row c0 c1 : nat).
  Hypothesis Harg : argsorts argsort.
  Hypothesis HM : symmetric v M.
  Hypothesis Hr : (row < c0 < c1)%nat.
  Hypothesis Hc1 : (c1 <= v)%nat.

  Let a := map Z.opp (segment c0 c1 (nth row M [])).
  Let ii := seq 0 c0 ++ map (Nat.add c0) (argsort a) ++ seq c1 (length M - c1).
  Let f := fun i => nth i ii 0%nat.

  Lemma rg_len : length M = v. Proof. apply HM. Qed.
  Lemma rg_rowlen i : (i < v)%nat -> length (nth i M []) = v.
  Proof. intros Hi. apply HM, nth_In. now rewrite rg_len. Qed.
  Lemma rg_alen : length a = (c1 - c0)%nat.
  Proof. unfold a. rewrite map_length, segment_length; [lia|]. rewrite rg_rowlen; lia. Qed.
  Lemma rg_a i : (i < c1 - c0)%nat -> nth i a 0 = - cell M row (c0 + i).
  Proof.
    intros Hi. unfold a. change 0 with (- 0) at 1. rewrite map_nth, segment_nth by auto. reflexivity.
  Qed.
  Lemma rg_perm : Permutation (argsort a) (seq 0 (c1 - c0)).
  Proof. rewrite <- rg_alen. apply Harg. Qed.
  Lemma rg_arglen : length (argsort a) = (c1 - c0)%nat.
  Proof. rewrite (Permutation_length rg_perm). apply seq_length. Qed.
  Lemma rg_iilen : length ii = v.
  Proof. unfold ii. rewrite !app_length, map_length, !seq_length, rg_arglen, rg_len. lia. Qed.
  Lemma rg_iiperm : Permutation ii (seq 0 v).
  Proof.
    replace (seq 0 v) with (seq 0 c0 ++ map (Nat.add c0) (seq 0 (c1 - c0)) ++ seq c1 (length M - c1)).
    - unfold ii. apply Permutation_app_head, Permutation_app_tail, Permutation_map, rg_perm.
    - assert (E : map (Nat.add c0) (seq 0 (c1 - c0)) = seq c0 (c1 - c0)).
      { apply nth_ext with (d := c0) (d' := c0); [now rewrite map_length, !seq_length|]. intros n Hn.
        rewrite map_length, seq_length in Hn. rewrite (nth_map_in _ _ _ 0%nat) by now rewrite seq_length.
        rewrite !seq_nth by auto. lia. }
      rewrite E, rg_len. replace v with (c0 + ((c1 - c0) + (v - c1)))%nat at 2 by lia.
      rewrite !seq_app. rewrite Nat.add_0_l. do 2 f_equal. f_equal. lia.
  Qed.
  Lemma rg_f : relabelling v f. Proof. apply perm_relabelling, rg_iiperm. Qed.
  Lemma rg_out i : (i < v)%nat -> ~ inside c0 c1 i -> f i = i.
  Proof.
    intros Hi Ho. unfold f, ii, inside in *. destruct (Nat.lt_ge_cases i c0) as [L|L].
    - rewrite app_nth1 by (rewrite seq_length; lia). now rewrite seq_nth.
    - rewrite app_nth2 by (rewrite seq_length; lia). rewrite seq_length.
      rewrite app_nth2 by (rewrite map_length, rg_arglen; lia). rewrite map_length, rg_arglen.
      rewrite seq_nth by (rewrite rg_len; lia). lia.
  Qed.
  Lemma rg_in i : inside c0 c1 i -> f i = (c0 + nth (i - c0) (argsort a) 0)%nat /\ (nth (i - c0) (argsort a) 0 < c1 - c0)%nat.
  Proof.
    intros Hi. unfold inside in Hi.
    assert (In (nth (i - c0) (argsort a) 0%nat) (seq 0 (c1 - c0))) as Hin.
    { eapply Permutation_in; [exact rg_perm|]. apply nth_In. rewrite rg_arglen. lia. }
    apply in_seq in Hin. split; [|lia]. unfold f, ii.
    rewrite app_nth2 by (rewrite seq_length; lia). rewrite seq_length.
    rewrite app_nth1 by (rewrite map_length, rg_arglen; lia).
    rewrite (nth_map_in _ _ _ 0%nat) by (rewrite rg_arglen; lia). reflexivity.
  Qed.
  Lemma rg_inside i : inside c0 c1 i -> inside c0 c1 (f i).
  Proof. intros Hi. destruct (rg_in i Hi) as [E H]. unfold inside. rewrite E. lia. Qed.
  Let N := reindex ii M.
  Lemma rg_iilt k : In k ii -> (k < length M)%nat.
  Proof. intros H. apply (Permutation_in _ rg_iiperm), in_seq in H. rewrite rg_len. lia. Qed.
  Lemma rg_cell i j : (i < v)%nat -> (j < v)%nat -> cell N i j = cell M (f i) (f j).
  Proof. intros Hi Hj. apply reindex_cell; rewrite ?rg_iilen; auto. apply rg_iilt. Qed.
  Lemma rg_sym : symmetric v N.
  Proof.
    split.
    - pose proof (reindex_shape ii M rg_iilt) as H. now rewrite rg_iilen in H.
    - intros i j Hi Hj. rewrite !rg_cell by auto. destruct rg_f as [Hf _]. apply HM; auto.
  Qed.
  Lemma rg_fixed i : (i < c0)%nat -> f i = i.
  Proof. intros Hi. apply rg_out; [lia|]. unfold inside. lia. Qed.
  (** entries of the sorting row decrease inside the range *)
  Lemma rg_desc i j : inside c0 c1 i -> inside c0 c1 j -> (i < j)%nat -> cell N row j <= cell N row i.
  Proof.
    intros Hi Hj Hij. rewrite !rg_cell by (unfold inside in *; lia). rewrite rg_fixed by lia.
    destruct (rg_in i Hi) as [-> Bi], (rg_in j Hj) as [-> Bj].
    destruct (Harg a) as [_ H]. specialize (H (i - c0)%nat (j - c0)%nat). rewrite rg_alen in H.
    unfold inside in *. specialize (H ltac:(lia)). rewrite !rg_a in H by auto. lia.
  Qed.
  Lemma rg_stable : stable_upto (v - 1) argsort -> forall i j, inside c0 c1 i -> inside c0 c1 j -> (i < j)%nat ->
    cell N row i = cell N row j -> (f i < f j)%nat.
  Proof.
    intros Hs i j Hi Hj Hij E. rewrite !rg_cell in E by (unfold inside in *; lia). rewrite rg_fixed in E by lia.
    destruct (rg_in i Hi) as [Ei Bi], (rg_in j Hj) as [Ej Bj].
    specialize (Hs a (i - c0)%nat (j - c0)%nat). rewrite rg_alen in Hs. unfold inside in *.
    specialize (Hs ltac:(lia) ltac:(lia)). rewrite !rg_a in Hs by auto. rewrite Ei, Ej in *.
    specialize (Hs ltac:(now f_equal)). lia.
  Qed.

  Lemma sort_range_eq : exists d, sort_range argsort row c0 c1 M = Ok (N, d)
    /\ match d with
       | Some p => inside c0 c1 p /\ cell N row p = 0 /\ forall i, (c0 <= i < p)%nat -> cell N row i <> 0
       | None => forall i, inside c0 c1 i -> cell N row i <> 0
       end.
  Proof.
    unfold sort_range. destruct (Nat.leb_spec c0 row); [lia|]. destruct (Nat.leb_spec c1 c0); [lia|].
    fold a. fold ii. fold N. cbv zeta. rewrite (symmetricb_true v N rg_sym). cbn [assert_ bind].
    eexists. split; [reflexivity|].
    assert (LN : length (nth row N []) = v).
    { destruct rg_sym as [[L H1] _]. apply H1, nth_In. rewrite L. lia. }
    pose proof (first_zero (segment c0 c1 (nth row N []))) as HZ.
    rewrite segment_length in HZ by lia.
    destruct (hd_error _) as [d|]; cbn [option_map].
    - destruct HZ as (H1 & H2 & H3). rewrite segment_nth in H2 by auto. unfold inside. split; [lia|]. split; [exact H2|].
      intros i Hi. specialize (H3 (i - c0)%nat ltac:(lia)). rewrite segment_nth in H3 by lia.
      replace (c0 + (i - c0))%nat with i in H3 by lia. exact H3.
    - intros i Hi. unfold inside in Hi. specialize (HZ (i - c0)%nat ltac:(lia)). rewrite segment_nth in HZ by lia.
      replace (c0 + (i - c0))%nat with i in HZ by lia. exact HZ.
  Qed.

  Lemma sort_range_spec : exists g N' d, sort_range argsort row c0 c1 M = Ok (N', d)
    /\ symmetric v N' /\ relabelling v g
    /\ (forall i j, (i < v)%nat -> (j < v)%nat -> cell N' i j = cell M (g i) (g j))
    /\ (forall i, (i < v)%nat -> ~ inside c0 c1 i -> g i = i)
    /\ (forall i, inside c0 c1 i -> inside c0 c1 (g i))
    /\ (forall i j, inside c0 c1 i -> inside c0 c1 j -> (i < j)%nat -> cell N' row j <= cell N' row i)
    /\ (stable_upto (v - 1) argsort -> forall i j, inside c0 c1 i -> inside c0 c1 j -> (i < j)%nat ->
          cell N' row i = cell N' row j -> (g i < g j)%nat)
    /\ match d with
       | Some p => inside c0 c1 p /\ cell N' row p = 0 /\ forall i, (c0 <= i < p)%nat -> cell N' row i <> 0
       | None => forall i, inside c0 c1 i -> cell N' row i <> 0
       end.
  Proof.
    destruct sort_range_eq as (d & E & Hd). exists f, N, d. split; [exact E|]. split; [apply rg_sym|]. split; [apply rg_f|].
    split; [apply rg_cell|]. split; [apply rg_out|]. split; [apply rg_inside|]. split; [apply rg_desc|]. split; [apply rg_stable|exact Hd].
  Qed.
End range.

Lemma sort_range_skip argsort row c0 c1 M : (c0 <= row \/ c1 <= c0)%nat -> sort_range argsort row c0 c1 M = Ok (M, None).
Proof.
  intros H. unfold sort_range. destruct (Nat.leb_spec c0 row); auto. destruct (Nat.leb_spec c1 c0); auto. lia.
Qed.

Lemma same_graph_refl v M : same_graph_keeping_0 v M M.
Proof. exists (fun i => i). split; [apply relabelling_id|]. auto. Qed.
Lemma same_graph_step v M N P g : same_graph_keeping_0 v M N -> relabelling v g -> g 0%nat = 0%nat ->
  (forall i j, (i < v)%nat -> (j < v)%nat -> cell P i j = cell N (g i) (g j)) -> same_graph_keeping_0 v M P.
Proof.
  intros (f & Hf & F0 & HN) Hg G0 HP. exists (fun i => f (g i)). split; [now apply relabelling_compose|].
  split; [now rewrite G0|]. intros i j Hi Hj. rewrite HP by auto. apply HN; now apply Hg.
Qed.

(** ** termination and isomorphism *)
Section iso.
  Variables (argsort : list Z -> list nat) (v : nat) (M0 : list (list Z)).
  Hypothesis Harg : argsorts argsort.

  Definition instr_ok (si : instr) : Prop :=
    exists d, idiv si = Some d /\ (irow si < ic0 si)%nat /\ (ic0 si <= d < ic1 si)%nat /\ (ic1 si <= v)%nat.
  Definition weight (si : instr) : Z := 2 ^ (Z.of_nat v - Z.of_nat (irow si)) - 1.
  Definition good (M : list (list Z)) : Prop := symmetric v M /\ same_graph_keeping_0 v M0 M.

  (* either outcome of a call of _sort *)
  Lemma sort_any row c0 c1 M : good M -> (c1 <= v)%nat ->
    exists N d, sort_range argsort row c0 c1 M = Ok (N, d) /\ good N
      /\ forall si, In si (queue_if row c0 c1 d) -> irow si = row /\ instr_ok si.
  Proof.
    intros [HM HG] Hc1. destruct (Nat.lt_ge_cases row c0) as [L1|L1]; [destruct (Nat.lt_ge_cases c0 c1) as [L2|L2]|].
    2,3: exists M, None; rewrite sort_range_skip by lia; split; auto; split; [split; auto|]; intros si [].
    destruct (sort_range_spec argsort v M row c0 c1 Harg HM ltac:(lia) Hc1) as (g & N & d & E & HN & Hg & Hc & Hout & _ & _ & _ & Hd).
    exists N, d. split; auto. split; [split; auto|].
    - apply (same_graph_step v M0 M N g); auto. apply Hout; [lia|]. unfold inside. lia.
    - intros si Hsi. destruct d as [[|p]|]; simpl in Hsi; try easy. destruct Hsi as [<-|[]]. simpl. split; auto.
      exists (S p). unfold inside in Hd. simpl. repeat split; lia.
  Qed.
  Lemma queue_if_length row c0 c1 d : (length (queue_if row c0 c1 d) <= 1)%nat.
  Proof. destruct d as [[|d]|]; simpl; lia. Qed.
  Lemma div_sort_ok si M : good M -> instr_ok si ->
    exists N out, div_sort argsort si M = Ok (N, out) /\ good N /\ (length out <= 2)%nat
      /\ forall x, In x out -> irow x = S (irow si) /\ instr_ok x.
  Proof.
    intros HM (d & Ed & H1 & H2 & H3). unfold div_sort. rewrite Ed.
    set (c0 := if (S (irow si) =? ic0 si)%nat then S (ic0 si) else ic0 si).
    destruct (sort_any (S (irow si)) c0 d M HM ltac:(lia)) as (N1 & d1 & E1 & G1 & Q1).
    destruct (sort_any (S (irow si)) d (ic1 si) N1 G1 H3) as (N2 & d2 & E2 & G2 & Q2).
    cbv zeta. rewrite E1. cbn [bind fst snd]. rewrite E2. cbn [bind fst snd].
    eexists _, _. split; [reflexivity|]. split; auto. split.
    - rewrite app_length. pose proof (queue_if_length (S (irow si)) c0 d d1).
      pose proof (queue_if_length (S (irow si)) d (ic1 si) d2). lia.
    - intros x Hx. apply in_app_iff in Hx. destruct Hx; auto.
  Qed.
  Lemma weight_pos si : instr_ok si -> 0 <= weight si.
  Proof. intros (d & _ & H1 & H2 & H3). unfold weight. pose proof (Z.pow_pos_nonneg 2 (Z.of_nat v - Z.of_nat (irow si))). lia. Qed.
  Lemma weights_pos q : (forall si, In si q -> instr_ok si) -> 0 <= zsum (map weight q).
  Proof. intros H. apply zsum_nonneg. intros x Hx. apply in_map_iff in Hx. destruct Hx as (si & <- & Hs). apply weight_pos; auto. Qed.

  Lemma run_ok n M q : good M -> (forall si, In si q -> instr_ok si) -> zsum (map weight q) < 2 ^ Z.of_nat n ->
    exists N, while_ n (sort_step argsort) (M, q) = Ok N /\ good N.
  Proof.
    intros HM Hq Hn.
    apply (while_spec (sort_step argsort)
      (fun st => good (fst st) /\ forall si, In si (snd st) -> instr_ok si)
      (fun st => zsum (map weight (snd st))) (fun r => exists N, r = Ok N /\ good N)); auto.
    - intros [M' q'] [_ H]. apply weights_pos. exact H.
    - intros [M' [|si q']] [H1 H2]; simpl in H1, H2; cbn [sort_step].
      { exists M'. auto. }
      destruct (div_sort_ok si M' H1 ltac:(auto)) as (N & out & E & HN & Hl & Ho). rewrite E. cbn [fst snd].
      split; [split; auto|].
      + intros x Hx. apply in_app_iff in Hx. destruct Hx as [Hx|Hx]; [auto|now apply Ho].
      + rewrite map_app. cbn [map]. rewrite zsum_app, zsum_cons.
        assert (Hs : instr_ok si) by (apply H2; now left). destruct Hs as (d & _ & B1 & B2 & B3).
        assert (E2 : weight si = 2 * (2 ^ (Z.of_nat v - Z.of_nat (S (irow si)))) - 1).
        { unfold weight. replace (Z.of_nat v - Z.of_nat (irow si)) with (Z.succ (Z.of_nat v - Z.of_nat (S (irow si)))) by lia.
          rewrite Z.pow_succ_r by lia. lia. }
        assert (E3 : zsum (map weight out) <= 2 * (2 ^ (Z.of_nat v - Z.of_nat (S (irow si)))) - 2); [|lia].
        assert (HW : forall x, In x out -> weight x = 2 ^ (Z.of_nat v - Z.of_nat (S (irow si))) - 1).
        { intros x Hx. unfold weight. destruct (Ho x Hx) as [-> _]. reflexivity. }
        pose proof (Z.pow_pos_nonneg 2 (Z.of_nat v - Z.of_nat (S (irow si)))).
        destruct out as [|x [|y [|]]]; simpl in Hl; try lia; cbn [map]; rewrite ?zsum_cons, ?HW by (simpl; auto); unfold zsum; simpl fold_right; lia.
  Qed.
End iso.

Lemma maximize_proof argsort v M : argsorts argsort -> symmetric v M ->
  ((exists j, (1 <= j < v)%nat /\ cell M 0 j = 0)
     /\ exists N, maximize argsort M = Ok N /\ symmetric v N /\ same_graph_keeping_0 v M N)
  \/ ((forall j, (1 <= j < v)%nat -> cell M 0 j <> 0) /\ maximize argsort M = Raise TypeError).
Proof.
  intros Harg HM. assert (HL : length M = v) by apply HM. unfold maximize. rewrite HL.
  destruct (Nat.lt_ge_cases 1 v) as [Hv|Hv].
  2:{ right. split; [lia|]. rewrite sort_range_skip by lia. cbn [bind fst snd]. unfold while_.
      assert (E : forall n, iter2 n (sort_step argsort) (M, [Ins 0 1 v None]) = inr (Raise TypeError)); [|now rewrite E].
      induction n as [|n IH]; simpl; [reflexivity|]. now rewrite IH. }
  destruct (sort_range_spec argsort v M 0 1 v Harg HM ltac:(lia) (Nat.le_refl v)) as (g & N & d & E & HN & Hg & Hc & Hout & Hin & _ & _ & Hd).
  rewrite E. cbn [bind fst snd].
  assert (G0 : g 0%nat = 0%nat) by (apply Hout; [lia|unfold inside; lia]).
  destruct d as [d|].
  - left. destruct Hd as (D1 & D2 & D3). split.
    + exists (g d). specialize (Hin d D1). unfold inside in *. split; [lia|]. rewrite Hc, G0 in D2 by lia. exact D2.
    + apply (run_ok argsort v M Harg); auto.
      * split; auto. apply (same_graph_step v M M N g); auto. apply same_graph_refl.
      * intros si [<-|[]]. exists d. unfold inside in D1. simpl. repeat split; lia.
      * cbn [map]. unfold zsum. simpl fold_right. unfold weight. simpl irow. rewrite Nat2Z.inj_succ, Z.pow_succ_r by lia.
        rewrite Z.sub_0_r. pose proof (Z.pow_pos_nonneg 2 (Z.of_nat v)). lia.
  - right. split.
    + intros j Hj E0. destruct (relabelling_onto v g j Hg ltac:(lia)) as (i & Hi & Ei).
      assert (Hin' : inside 1 v i).
      { unfold inside. assert (i <> 0%nat) by (intros ->; rewrite G0 in Ei; lia). lia. }
      apply (Hd i Hin'). rewrite Hc, G0, Ei by lia. exact E0.
    + unfold while_. assert (EE : forall n, iter2 n (sort_step argsort) (N, [Ins 0 1 v None]) = inr (Raise TypeError)); [|now rewrite EE].
      induction n as [|n IH]; simpl; [reflexivity|]. now rewrite IH.
Qed.

(** ** the encoding does not get smaller (stable argsort, 0/1 entries) *)
Lemma least_nat (P : nat -> Prop) (dec : forall n, P n \/ ~ P n) a b :
  (exists p, (a <= p < b)%nat /\ P p /\ forall j, (a <= j < p)%nat -> ~ P j) \/ forall j, (a <= j < b)%nat -> ~ P j.
Proof.
  induction b as [|b IH]; [right; lia|]. destruct IH as [(p & H1 & H2)|IH].
  - left. exists p. split; [lia|auto].
  - destruct (Nat.lt_ge_cases b a); [right; lia|]. destruct (dec b) as [Hb|Hb].
    + left. exists b. split; [lia|auto].
    + right. intros j Hj. destruct (Nat.eq_dec j b) as [->|]; auto. apply IH. lia.
Qed.

Definition binary (v : nat) (M : list (list Z)) : Prop := forall i j, (i < v)%nat -> (j < v)%nat -> bit (cell M i j).
(** rows above [r] are constant on the range [[c0, c1)] *)
Definition flat (M : list (list Z)) (r c0 c1 : nat) : Prop :=
  forall i a b, (i < r)%nat -> inside c0 c1 a -> inside c0 c1 b -> cell M i a = cell M i b.

Section step.
  Variables (v : nat) (M N : list (list Z)) (row c0 c1 : nat) (g : nat -> nat).
  Hypothesis HB : binary v M.
  Hypothesis Hr : (row < c0 < c1)%nat.
  Hypothesis Hc1 : (c1 <= v)%nat.
  Hypothesis Hg : relabelling v g.
  Hypothesis Hc : forall i j, (i < v)%nat -> (j < v)%nat -> cell N i j = cell M (g i) (g j).
  Hypothesis Hout : forall i, (i < v)%nat -> ~ inside c0 c1 i -> g i = i.
  Hypothesis Hin : forall i, inside c0 c1 i -> inside c0 c1 (g i).
  Hypothesis Hdesc : forall i j, inside c0 c1 i -> inside c0 c1 j -> (i < j)%nat -> cell N row j <= cell N row i.
  Hypothesis Hstab : forall i j, inside c0 c1 i -> inside c0 c1 j -> (i < j)%nat ->
     cell N row i = cell N row j -> (g i < g j)%nat.
  Hypothesis Hflat : flat M row c0 c1.

  Lemma st_low i : (i < c0)%nat -> g i = i. Proof. intros H. apply Hout; [lia|unfold inside; lia]. Qed.
  Lemma st_binary : binary v N.
  Proof. intros i j Hi Hj. rewrite Hc by auto. destruct Hg as [H _]. apply HB; auto. Qed.
  Lemma st_above i j : (i < row)%nat -> (j < v)%nat -> cell N i j = cell M i j.
  Proof.
    intros Hi Hj. rewrite Hc by lia. rewrite (st_low i) by lia. destruct (Nat.lt_ge_cases j c0) as [L|L].
    { now rewrite st_low. }
    destruct (Nat.lt_ge_cases j c1) as [L2|L2].
    - apply Hflat; auto; [apply Hin|]; unfold inside; lia.
    - rewrite Hout; auto. unfold inside. lia.
  Qed.
  Lemma st_outside i j : (i < c0)%nat -> (j < v)%nat -> ~ inside c0 c1 j -> cell N i j = cell M i j.
  Proof. intros Hi Hj Ho. rewrite Hc by lia. rewrite (st_low i) by lia. now rewrite Hout. Qed.
  Lemma st_same : (forall j, inside c0 c1 j -> cell N row j = cell M row j) -> forall j, (j < v)%nat -> g j = j.
  Proof.
    intros Heq j Hj.
    destruct (least_nat (fun n => g n <> n) ltac:(intros; cbv beta; lia) c0 c1) as [(p & Hp & Hne & Hlt)|Hall].
    - exfalso. assert (Hpi : inside c0 c1 p) by (unfold inside; lia). pose proof (Hin p Hpi) as Hgp. unfold inside in Hgp.
      assert (p < g p)%nat.
      { destruct (Nat.lt_ge_cases (g p) p) as [L|L]; [|lia]. exfalso.
        assert (E : g (g p) = g p) by (specialize (Hlt (g p) ltac:(lia)); lia).
        apply Hne. destruct Hg as [_ Hi]. apply Hi; try lia; auto. }
      destruct (relabelling_onto v g p Hg ltac:(lia)) as (q & Hq & Eq).
      assert (Hqi : inside c0 c1 q).
      { unfold inside. destruct (Nat.lt_ge_cases q c0) as [L|L]; [rewrite st_low in Eq by lia; lia|].
        destruct (Nat.lt_ge_cases q c1) as [L2|L2]; [lia|]. rewrite Hout in Eq; auto; unfold inside; lia. }
      assert (p < q)%nat.
      { destruct (Nat.lt_ge_cases p q) as [L|L]; auto. exfalso. destruct (Nat.eq_dec p q) as [->|]; [lia|].
        unfold inside in Hqi. specialize (Hlt q ltac:(lia)). lia. }
      assert (E : cell N row q = cell N row p).
      { rewrite (Heq p Hpi). rewrite Hc by lia. rewrite Eq, st_low by lia. reflexivity. }
      specialize (Hstab p q Hpi Hqi ltac:(lia) ltac:(auto)). lia.
    - destruct (Nat.lt_ge_cases j c0) as [L|L]; [now apply st_low|].
      destruct (Nat.lt_ge_cases j c1) as [L2|L2]; [|apply Hout; auto; unfold inside; lia].
      specialize (Hall j ltac:(lia)). lia.
  Qed.
  Lemma st_lex : lex_le (upper v M) (upper v N).
  Proof.
    destruct (least_nat (fun n => cell N row n <> cell M row n) ltac:(intros; cbv beta; lia) c0 c1) as [(p & Hp & Hne & Hlt)|Hall].
    - right. apply (upper_lex v M N row p); [lia| | |].
      + intros i j Hi Hj. symmetry. apply st_above; lia.
      + intros j Hj. destruct (Nat.lt_ge_cases j c0) as [L|L].
        * symmetry. apply st_outside; [lia|lia|unfold inside; lia].
        * specialize (Hlt j ltac:(lia)). lia.
      + destruct (HB row p ltac:(lia) ltac:(lia)) as [E1|E1], (st_binary row p ltac:(lia) ltac:(lia)) as [E2|E2]; try lia.
        exfalso. rewrite E1, E2 in *.
        assert (HS : sumn v (cell N row) = sumn v (cell M row)).
        { rewrite <- (sumn_relabel v g (cell M row) Hg). apply sumn_ext. intros j Hj. rewrite Hc by lia. now rewrite (st_low row) by lia. }
        assert (HL : forall j, (j < v)%nat -> cell N row j <= cell M row j).
        { intros j Hj. destruct (Nat.lt_ge_cases j c0) as [L|L]; [rewrite st_outside; unfold inside; lia|].
          destruct (Nat.lt_ge_cases j c1) as [L2|L2]; [|rewrite st_outside; unfold inside; lia].
          destruct (Nat.lt_ge_cases j p) as [L3|L3]; [specialize (Hlt j ltac:(lia)); lia|].
          assert (cell N row j <= 0).
          { destruct (Nat.eq_dec j p) as [->|]; [lia|]. rewrite <- E2. apply Hdesc; unfold inside; lia. }
          destruct (HB row j ltac:(lia) Hj); lia. }
        pose proof (sumn_tight v (cell N row) (cell M row) HL ltac:(lia) p ltac:(lia)). lia.
    - left. apply upper_ext. intros i j Hij.
      assert (Hid : forall j, (j < v)%nat -> g j = j) by (apply st_same; intros q Hq; specialize (Hall q Hq); lia).
      rewrite Hc by lia. now rewrite !Hid by lia.
  Qed.
End step.

Section mono.
  Variables (argsort : list Z -> list nat) (v : nat) (M0 : list (list Z)).
  Hypothesis Harg : argsorts argsort.
  Hypothesis Hst : stable_upto (v - 1) argsort.

  Definition good2 (M : list (list Z)) : Prop := symmetric v M /\ binary v M /\ lex_le (upper v M0) (upper v M).
  (* what the queue knows about a range *)
  Definition known (M : list (list Z)) (si : instr) : Prop :=
    exists d, idiv si = Some d /\ (irow si < ic0 si)%nat /\ (ic0 si <= d < ic1 si)%nat /\ (ic1 si <= v)%nat
      /\ flat M (S (irow si)) (ic0 si) d /\ flat M (S (irow si)) d (ic1 si).
  Definition apart (c0 c1 : nat) (si : instr) : Prop := (ic1 si <= c0 \/ c1 <= ic0 si)%nat.

  Lemma sort_mono row c0 c1 M : good2 M -> (c1 <= v)%nat -> flat M row c0 c1 ->
    exists N d, sort_range argsort row c0 c1 M = Ok (N, d) /\ good2 N
      /\ (forall si, In si (queue_if row c0 c1 d) -> si = Ins row c0 c1 (idiv si) /\ known N si)
      /\ (forall i a b, (i <= row)%nat -> (a <= b <= v)%nat -> (b <= c0 \/ c1 <= a)%nat -> flat M (S i) a b -> flat N (S i) a b)
      /\ flat N row c0 c1.
  Proof.
    intros (HM & HB & HX) Hc1 Hflat. destruct (Nat.lt_ge_cases row c0) as [L1|L1]; [destruct (Nat.lt_ge_cases c0 c1) as [L2|L2]|].
    2,3: exists M, None; rewrite sort_range_skip by lia; split; auto; split; [repeat split; auto; apply HM|]; split; [intros si []|auto].
    destruct (sort_range_spec argsort v M row c0 c1 Harg HM ltac:(lia) Hc1) as (g & N & d & E & HN & Hg & Hc & Hout & Hin & Hdesc & Hs & Hd).
    specialize (Hs Hst). exists N, d. split; auto.
    assert (HBN : binary v N) by (apply (st_binary v M N g); auto).
    assert (HF : flat N row c0 c1).
    { intros i a b Hi Ha Hb. pose proof Ha. pose proof Hb. unfold inside in Ha, Hb.
      rewrite !Hc by lia. rewrite (Hout i) by (unfold inside; lia). apply Hflat; auto. }
    split; [split; [auto|split; [auto|]]|].
    - eapply lex_le_trans; [exact HX|]. apply (st_lex v M N row c0 c1 g); auto.
    - split; [|split; auto].
      + intros si Hsi. destruct d as [[|p]|]; simpl in Hsi; try easy. destruct Hsi as [<-|[]]. split; [reflexivity|].
        destruct Hd as (D1 & D2 & D3). pose proof D1 as D1'. unfold inside in D1. exists (S p). simpl. split; [auto|]. split; [lia|]. split; [lia|]. split; [lia|].
        assert (ONE : forall j, (c0 <= j < S p)%nat -> cell N row j = 1).
        { intros j Hj. specialize (D3 j Hj). destruct (HBN row j ltac:(lia) ltac:(lia)); auto. contradiction. }
        assert (ZERO : forall j, (S p <= j < c1)%nat -> cell N row j = 0).
        { intros j Hj. destruct (Nat.eq_dec j (S p)) as [->|]; auto.
          specialize (Hdesc (S p) j D1' ltac:(unfold inside; lia) ltac:(lia)). destruct (HBN row j ltac:(lia) ltac:(lia)); lia. }
        split; intros i a b Hi Ha Hb; unfold inside in Ha, Hb; destruct (Nat.eq_dec i row) as [->|].
        * now rewrite !ONE by lia.
        * apply HF; unfold inside; lia.
        * now rewrite !ZERO by lia.
        * apply HF; unfold inside; lia.
      + intros i a b Hi Hab Hap HFM i' x y Hi' Hx Hy. pose proof Hx. pose proof Hy. unfold inside in Hx, Hy.
        rewrite !Hc by lia. rewrite (Hout i') by (unfold inside; lia).
        rewrite (Hout x), (Hout y) by (unfold inside; lia). apply HFM; auto.
  Qed.
  Lemma flat_sub M r a b a' b' : (a <= a')%nat -> (b' <= b)%nat -> flat M r a b -> flat M r a' b'.
  Proof. intros H1 H2 H i x y Hi Hx Hy. apply H; auto; unfold inside in *; lia. Qed.

  Lemma div_mono si M : good2 M -> known M si ->
    exists N out, div_sort argsort si M = Ok (N, out) /\ good2 N
      /\ (forall x, In x out -> irow x = S (irow si) /\ known N x /\ (ic0 si <= ic0 x)%nat /\ (ic1 x <= ic1 si)%nat)
      /\ ForallOrdPairs (fun x y => apart (ic0 x) (ic1 x) y) out
      /\ (forall x, (irow x <= S (irow si))%nat -> apart (ic0 si) (ic1 si) x -> known M x -> known N x).
  Proof.
    intros HM (d & Ed & H1 & H2 & H3 & F1 & F2). unfold div_sort. rewrite Ed. cbv zeta.
    set (c0 := if (S (irow si) =? ic0 si)%nat then S (ic0 si) else ic0 si).
    assert (Hc0 : (ic0 si <= c0)%nat) by (unfold c0; destruct (_ =? _)%nat; lia).
    destruct (sort_mono (S (irow si)) c0 d M HM ltac:(lia) ltac:(apply (flat_sub _ _ (ic0 si) d); auto)) as (N1 & d1 & E1 & G1 & Q1 & K1 & _).
    assert (F2' : flat N1 (S (irow si)) d (ic1 si)) by (apply K1; auto; lia).
    destruct (sort_mono (S (irow si)) d (ic1 si) N1 G1 H3 F2') as (N2 & d2 & E2 & G2 & Q2 & K2 & _).
    rewrite E1. cbn [bind fst snd]. rewrite E2. cbn [bind fst snd].
    eexists _, _. split; [reflexivity|]. split; auto. split; [|split].
    - intros x Hx. apply in_app_iff in Hx. destruct Hx as [Hx|Hx].
      + apply Q1 in Hx. destruct Hx as [Ex (e & P0 & P1 & P2 & P3 & P4 & P5)]. rewrite Ex in *. cbn [irow ic0 ic1 idiv] in *.
        split; auto. split; [|lia]. exists e. cbn [irow ic0 ic1 idiv]. repeat (split; [auto; lia|]).
        split; apply K2; auto; lia.
      + apply Q2 in Hx. destruct Hx as [Ex Kx]. split; [now rewrite Ex|]. split; auto. rewrite Ex. simpl. lia.
    - destruct (queue_if (S (irow si)) c0 d d1) as [|x l1] eqn:Eq1.
      { destruct d2 as [[|p]|]; simpl; repeat constructor. }
      destruct d1 as [[|p]|]; simpl in Eq1; try discriminate. injection Eq1 as <- <-.
      destruct d2 as [[|p2]|]; simpl; [repeat constructor| |repeat constructor].
      constructor; [constructor; [right; simpl; lia|constructor]|repeat constructor].
    - intros x Hx Hap (e & P0 & P1 & P2 & P3 & P4 & P5). exists e. repeat (split; [auto; lia|]).
      unfold apart in Hap. split; apply K2; try apply K1; auto; lia.
  Qed.
  Lemma fop_app {A} (R : A -> A -> Prop) l1 l2 : ForallOrdPairs R l1 -> ForallOrdPairs R l2 ->
    (forall x y, In x l1 -> In y l2 -> R x y) -> ForallOrdPairs R (l1 ++ l2).
  Proof.
    intros H1 H2 H. induction H1 as [|a l HF Hl IH]; simpl; auto. constructor.
    - apply Forall_app. split; auto. apply Forall_forall. intros y Hy. apply H; [now left|auto].
    - apply IH. intros x y Hx Hy. apply H; auto. now right.
  Qed.
  Definition levels (q : list instr) : Prop := exists r q1 q2, q = q1 ++ q2
    /\ (forall x, In x q1 -> irow x = r) /\ (forall x, In x q2 -> irow x = S r).
  Lemma levels_head si q : levels (si :: q) ->
    (forall x, In x (si :: q) -> (irow x <= S (irow si))%nat)
    /\ forall out, (forall x, In x out -> irow x = S (irow si)) -> levels (q ++ out).
  Proof.
    intros (r & q1 & q2 & E & H1 & H2). destruct q1 as [|x q1]; simpl in E.
    - subst q2. assert (R : irow si = S r) by (apply H2; now left). split.
      + intros x Hx. rewrite R, (H2 x Hx). lia.
      + intros out Ho. exists (S r), q, out. split; auto. split; [intros; apply H2; now right|]. intros x Hx. rewrite Ho by auto. now rewrite R.
    - injection E as <- ->. assert (R : irow si = r) by (apply H1; now left). split.
      + intros x [<-|Hx]; [lia|]. apply in_app_iff in Hx. destruct Hx as [Hx|Hx]; [rewrite H1 by now right|rewrite H2 by auto]; lia.
      + intros out Ho. exists r, q1, (q2 ++ out). split; [now rewrite app_assoc|]. split; [intros; apply H1; now right|].
        intros x Hx. apply in_app_iff in Hx. destruct Hx as [Hx|Hx]; auto. rewrite Ho by auto. now rewrite R.
  Qed.
  Definition state_ok (st : list (list Z) * list instr) : Prop :=
    good2 (fst st) /\ (forall x, In x (snd st) -> known (fst st) x) /\ levels (snd st)
    /\ ForallOrdPairs (fun x y => apart (ic0 x) (ic1 x) y) (snd st).
  Lemma run_mono n st N : state_ok st -> while_ n (sort_step argsort) st = Ok N -> good2 N.
  Proof.
    apply (while_inv state_ok good2). intros [M [|si q]] (H1 & H2 & H3 & H4); cbn [sort_step fst snd] in *; auto.
    destruct (div_mono si M H1 (H2 si ltac:(now left))) as (N' & out & E & HN & Ho & Hp & Hk). rewrite E. cbn [fst snd].
    destruct (levels_head si q H3) as [L1 L2]. inversion H4 as [|x l HF Hq]; subst. rewrite Forall_forall in HF.
    split; [auto|]. split; [|split].
    - intros x Hx. cbn [fst snd] in *. apply in_app_iff in Hx. destruct Hx as [Hx|Hx]; [|now apply Ho].
      apply Hk; auto.
      + apply L1. now right.
      + apply H2. now right.
    - apply L2. intros x Hx. now apply Ho.
    - apply fop_app; auto. intros x y Hx Hy. specialize (HF x Hx). destruct (Ho y Hy) as (_ & _ & A1 & A2). unfold apart in *. 
      cbn [fst snd] in *. destruct HF; [right|left]; lia.
  Qed.
End mono.

Lemma maximize_mono argsort v M N : argsorts argsort -> stable_upto (v - 1) argsort -> symmetric v M -> binary v M ->
  maximize argsort M = Ok N -> lex_le (upper v M) (upper v N).
Proof.
  intros Harg Hst HM HB. assert (HL : length M = v) by apply HM. unfold maximize. rewrite HL.
  assert (G0 : good2 v M M) by (split; [auto|split; [auto|now left]]).
  destruct (sort_mono argsort v M Harg Hst 0 1 v M G0 (Nat.le_refl v)) as (N1 & d & E & G1 & Q & _ & _).
  { intros i a b Hi. lia. }
  rewrite E. cbn [bind fst snd]. intros EN.
  destruct d as [d|].
  2:{ exfalso. unfold while_ in EN.
      assert (EE : forall n, iter2 n (sort_step argsort) (N1, [Ins 0 1 v None]) = inr (Raise TypeError)); [|rewrite EE in EN; discriminate].
      induction n as [|n IH]; simpl; [reflexivity|]. now rewrite IH. }
  assert (Hd : (0 < d)%nat).
  { destruct (Nat.lt_ge_cases 1 v) as [Hv|Hv]; [|rewrite sort_range_skip in E by lia; discriminate].
    destruct (sort_range_spec argsort v M 0 1 v Harg HM ltac:(lia) (Nat.le_refl v)) as (g & N' & d' & E' & HH).
    rewrite E' in E. injection E as -> ->. destruct HH as (_ & _ & _ & _ & _ & _ & _ & Hd & _). unfold inside in Hd. lia. }
  assert (K : known v N1 (Ins 0 1 v (Some d))).
  { destruct d as [|d]; [lia|]. apply (Q (Ins 0 1 v (Some (S d)))). now left. }
  destruct (run_mono argsort v M Harg Hst (S v) (N1, [Ins 0 1 v (Some d)]) N) as (_ & _ & HX); auto.
  split; [auto|]. split; [intros x [<-|[]]; auto|]. split.
  - exists 0%nat, [Ins 0 1 v (Some d)], []. split; [auto|]. split; [now intros x [<-|[]]|intros x []].
  - repeat constructor.
Qed.
