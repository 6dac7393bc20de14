(** [maximize] on matrices that are not symmetric. *)
From Verif Require Import Np ModelGauss Model ModelSort Spec QSpec SortSpec Lib Graph AnyFacts PartProps SortFacts MaxFacts UtilProps.
From Coq Require Import Sorting.Permutation.

Lemma list_eqb_true {A} (eqb : A -> A -> bool) : (forall a b, eqb a b = true -> a = b) -> forall l l', list_eqb eqb l l' = true -> l = l'.
Proof.
  intros He. induction l as [|a l IH]; destruct l' as [|b l']; intros H; try discriminate; auto. cbn [list_eqb] in H.
  apply andb_true_iff in H as [H1 H2]. f_equal; auto.
Qed.
Lemma symmetricb_iff v M : shape v v M -> (symmetricb M = true <-> symmetric v M).
Proof.
  intros HS. split; [|apply symmetricb_true]. intros H. split; [auto|]. intros i j Hi Hj. unfold symmetricb in H.
  apply list_eqb_true in H; [|intros a b; apply (list_eqb_true Z.eqb); intros x y; apply Z.eqb_eq].
  destruct HS as [HL HR]. rewrite H at 1. unfold cell at 1. rewrite (nth_map_in _ _ _ 0%nat) by (rewrite seq_length; lia).
  rewrite seq_nth by lia. unfold column. rewrite (nth_map_in _ _ _ (@nil Z)) by lia. reflexivity.
Qed.
Lemma reindex_symmetric v ii M : shape v v M -> Permutation ii (seq 0 v) ->
  shape v v (reindex ii M) /\ (symmetric v (reindex ii M) <-> symmetric v M).
Proof.
  intros HS HP. assert (HL : length ii = v) by (rewrite (Permutation_length HP); apply seq_length).
  assert (HI : forall k, In k ii -> (k < length M)%nat).
  { intros k Hk. apply (Permutation_in _ HP), in_seq in Hk. destruct HS as [-> _]. lia. }
  assert (SH : shape v v (reindex ii M)) by (rewrite <- HL at 1 2; now apply reindex_shape).
  split; [auto|]. pose proof (perm_relabelling v ii HP) as HF.
  assert (C : forall i j, (i < v)%nat -> (j < v)%nat -> cell (reindex ii M) i j = cell M (nth i ii 0%nat) (nth j ii 0%nat))
    by (intros; apply reindex_cell; auto; lia).
  split; intros [_ H]; split; auto.
  - intros i j Hi Hj. destruct (relabelling_onto v _ i HF Hi) as (i' & Li & <-), (relabelling_onto v _ j HF Hj) as (j' & Lj & <-).
    cbv beta. rewrite <- !C by auto. auto.
  - intros i j Hi Hj. rewrite !C by auto. destruct HF as [HF _]. apply H; auto.
Qed.
Lemma first_sort_perm argsort v M : argsorts argsort -> shape v v M -> (2 <= v)%nat ->
  Permutation (seq 0 1 ++ map (Nat.add 1) (argsort (map Z.opp (segment 1 v (nth 0 M [])))) ++ seq v (length M - v)) (seq 0 v).
Proof.
  intros HA [HL HR] Hv. destruct (HA (map Z.opp (segment 1 v (nth 0 M [])))) as [HP _].
  rewrite map_length, segment_length in HP by (rewrite HR; [lia|apply nth_In; lia]).
  rewrite HL, Nat.sub_diag, app_nil_r. replace (seq 0 v) with (seq 0 1 ++ seq (0 + 1) (v - 1)) by (rewrite <- seq_app; f_equal; lia).
  apply Permutation_app_head. change (0 + 1)%nat with 1%nat. rewrite <- seq_shift. now apply (Permutation_map S).
Qed.
Lemma maximize_asserts_proof argsort v M : argsorts argsort -> shape v v M -> (2 <= v)%nat ->
  (maximize argsort M = Raise AssertionError <-> ~ symmetric v M).
Proof.
  intros HA HS Hv. pose proof HS as [HL _]. pose proof (first_sort_perm argsort v M HA HS Hv) as HP.
  destruct (reindex_symmetric v _ M HS HP) as [SH SI]. split.
  - intros E HM. destruct (maximize_proof argsort v M HA HM) as [(_ & N & E' & _)|[_ E']]; rewrite E in E'; discriminate.
  - intros HN. unfold maximize. rewrite HL. unfold sort_range. cbn [Nat.leb]. destruct (Nat.leb_spec v 1); [lia|]. cbv zeta.
    destruct (symmetricb _) eqn:E; [|reflexivity]. exfalso. apply (symmetricb_iff v) in E; [tauto|auto].
Qed.
Lemma swap_asserts_proof v M i j : shape v v M -> (i < v)%nat -> (j < v)%nat ->
  (swap_and_verify M i j = Raise AssertionError <-> ~ (symmetric v M /\ sumn v (fun a => cell M a a) = 0)).
Proof.
  intros HM Hi Hj. destruct (swap_proof v M i j HM Hi Hj) as (N & E & HN & HC & _).
  unfold swap_and_verify. rewrite E. cbn [bind].
  assert (T : trace N = sumn v (fun a => cell M a a)).
  { rewrite (trace_sumn v) by apply HN.
    rewrite <- (sumn_relabel v (exchange i j) (fun a => cell M a a) (swap2_relabelling v i j Hi Hj)). apply sumn_ext. auto. }
  assert (S : symmetricb N = true <-> symmetric v M).
  { rewrite (symmetricb_iff v N HN). pose proof (swap2_relabelling v i j Hi Hj) as HF. split; intros [_ H]; split; auto; intros a b Ha Hb.
    - destruct (relabelling_onto v _ a HF Ha) as (a' & La & <-), (relabelling_onto v _ b HF Hb) as (b' & Lb & <-).
      change swap2 with exchange. rewrite <- !HC by auto. auto.
    - rewrite !HC by auto. destruct HF as [HF _]. apply H; now apply HF. }
  rewrite T. destruct (Z.eqb_spec (sumn v (fun a => cell M a a)) 0) as [Z|Z]; cbn [assert_ bind].
  - destruct (symmetricb N); cbn [assert_ bind].
    + split; [discriminate|]. intros H. exfalso. apply H. split; [now apply S|auto].
    + split; [|reflexivity]. intros _ [H _]. apply S in H. discriminate.
  - tauto.
Qed.
