(** Which labellings of a strongly regular graph the program prints: exactly
    those in canonical column order, and the lexicographically greatest one is
    among them. *)
From Coq Require Import Sorting.Permutation Sorting.Sorted ListDec.
From Verif Require Import Np ModelGauss Model ModelSort ModelUtil Spec QSpec SortSpec AlgSpec Lib Graph PartProps AnyFacts LevelFacts SolveFacts SolverProps SortFacts MaxFacts SortProps UtilProps.
From Coq Require Import ZifyBool ZifyNat.

Lemma canonical_found v k l u T ms : (3 <= v <= 67)%nat -> 1 <= k -> srg v k l u T -> canonical v T ->
  run_main (Z.of_nat v) k l u = Ok ms -> In (Mat v T) ms.
Proof.
  intros Hv Hk HT Hc Em. destruct (run_main_ok v k l u) as (lst & E & HI); auto.
  { split; auto. apply (cs_k v k l u T); auto; lia. }
  { apply (cs_l_range v k l u T); auto; lia. }
  { apply (cs_equation v k l u T); auto; lia. }
  destruct (cs_target v k l u T HT Hc) as [Hp Ht]; try lia.
  pose proof (li_all _ _ _ _ HI Hp T Ht) as Hin.
  assert (ET : firstn v T = T) by (apply firstn_all2; destruct HT as (((HL & _) & _) & _); lia).
  rewrite ET in Hin. assert (ms = map (Mat v) lst) by congruence. subst ms. now apply in_map.
Qed.
Lemma srg_admissible v k l u G : (3 <= v)%nat -> 1 <= k -> srg v k l u G -> admissible v k l u \/ u < 0.
Proof.
  intros Hv Hk HG. destruct (canonical_exists v G (proj1 HG)) as (f & Hf & Hc).
  pose proof (relabel_srg v k l u f G Hf HG) as HT. destruct (Z_lt_le_dec u 0); [now right|left].
  unfold admissible. pose proof (cs_k v k l u _ HT Hv). pose proof (cs_l_range v k l u _ HT Hc Hv Hk).
  pose proof (cs_equation v k l u _ HT Hv). lia.
Qed.
Lemma yields_iff_canonical v k l u T ms : (3 <= v <= 67)%nat -> 1 <= k -> 0 <= u -> srg v k l u T ->
  run_main (Z.of_nat v) k l u = Ok ms -> (In (Mat v T) ms <-> canonical v T).
Proof.
  intros Hv Hk Hu HT Em. split.
  - intros Hin. destruct (srg_admissible v k l u T) as [Ha|]; auto; try lia.
    destruct (solve_canonical_proof v k l u Ha) as (ms' & E & H); [lia|]. assert (ms' = ms) by congruence. subst ms'.
    now apply (H _ Hin).
  - intros Hc. now apply (canonical_found v k l u T ms).
Qed.

(** ** the greatest labelling *)
Lemma list_max_lex {A} (f : A -> list Z) n l : l <> [] -> (forall x, In x l -> length (f x) = n) ->
  exists m, In m l /\ forall x, In x l -> lex_le (f x) (f m).
Proof.
  induction l as [|a l IH]; intros Hn HL; [congruence|]. destruct l as [|b l].
  { exists a. split; [now left|]. intros x [<-|[]]. now left. }
  destruct IH as (m & Hm & Hmax); [discriminate|intros x Hx; apply HL; now right|].
  destruct (lex_total (f a) (f m)) as [L|[L|L]].
  - rewrite !HL; auto; [now right|now left].
  - exists m. split; [now right|]. intros x [<-|Hx]; [now right|auto].
  - exists m. split; [now right|]. intros x [<-|Hx]; [now left|auto].
  - exists a. split; [now left|]. intros x [<-|Hx]; [now left|]. eapply lex_le_trans; [now apply Hmax|now right].
Qed.
Lemma in_sequences n m s : In s (sequences n m) <-> length s = m /\ forall a, In a s -> (a < n)%nat.
Proof.
  revert s. induction m as [|m IH]; intros s; cbn [sequences].
  - split; [intros [<-|[]]; split; [auto|intros a []]|]. intros [H _]. destruct s; [now left|discriminate].
  - rewrite in_flat_map. split.
    + intros (a & Ha & Hs). apply in_seq in Ha. apply in_map_iff in Hs. destruct Hs as (t & <- & Ht). apply IH in Ht. destruct Ht as [L F].
      split; [simpl; lia|]. intros b [<-|Hb]; [lia|auto].
    + intros [L F]. destruct s as [|a t]; [discriminate|]. exists a. split; [apply in_seq; specialize (F a ltac:(now left)); lia|].
      apply in_map, IH. split; [simpl in L; lia|]. intros b Hb. apply F. now right.
Qed.
Definition nodupb (s : list nat) : bool := if NoDup_dec Nat.eq_dec s then true else false.
Lemma nodupb_spec s : nodupb s = true <-> NoDup s.
Proof. unfold nodupb. destruct (NoDup_dec Nat.eq_dec s); split; auto; discriminate. Qed.
(** all permutations of [0 .. v-1], as lists *)
Definition labellings (v : nat) : list (list nat) := filter nodupb (sequences v v).
Lemma labellings_sound v s : In s (labellings v) -> relabelling v (fun i => nth i s 0%nat).
Proof.
  intros H. apply filter_In in H. destruct H as [H1 H2]. apply in_sequences in H1. destruct H1 as [L F]. apply nodupb_spec in H2. split.
  - intros i Hi. apply F, nth_In. lia.
  - intros i j Hi Hj E. apply (proj1 (NoDup_nth s 0%nat) H2); auto; lia.
Qed.
Lemma labellings_complete v f : relabelling v f -> In (map f (seq 0 v)) (labellings v).
Proof.
  intros [H1 H2]. apply filter_In. split.
  - apply in_sequences. split; [now rewrite map_length, seq_length|]. intros a Ha. apply in_map_iff in Ha.
    destruct Ha as (i & <- & Hi). apply in_seq in Hi. apply H1. lia.
  - apply nodupb_spec. apply (NoDup_nth _ 0%nat). rewrite map_length, seq_length. intros i j Hi Hj.
    rewrite !(nth_indep _ 0%nat (f 0%nat)) by (rewrite map_length, seq_length; lia). rewrite !map_nth, !seq_nth by lia. intros E. apply H2; auto.
Qed.
Lemma greatest_exists v G : exists f, relabelling v f
  /\ forall g, relabelling v g -> lex_le (upper v (relabel v g G)) (upper v (relabel v f G)).
Proof.
  destruct (list_max_lex (fun s => upper v (relabel v (fun i => nth i s 0%nat) G)) (length (upper v [])) (labellings v)) as (s & Hs & Hmax).
  - intros E. pose proof (labellings_complete v _ (relabelling_id v)) as H. rewrite E in H. destruct H.
  - intros x _. apply upper_length.
  - exists (fun i => nth i s 0%nat). split; [now apply labellings_sound|]. intros g Hg.
    specialize (Hmax _ (labellings_complete v g Hg)). cbv beta in Hmax.
    erewrite (upper_ext v (relabel v g G)); [exact Hmax|]. intros i j Hij. rewrite !relabel_cell by lia.
    rewrite !(nth_indep _ 0%nat (g 0%nat)) by (rewrite map_length, seq_length; lia). rewrite !map_nth, !seq_nth by lia. reflexivity.
Qed.
Lemma greatest_canonical v G f : adjacency v G -> relabelling v f ->
  (forall g, relabelling v g -> lex_le (upper v (relabel v g G)) (upper v (relabel v f G))) -> canonical v (relabel v f G).
Proof.
  intros HG Hf Hmax. pose proof (relabel_adjacency v f G Hf HG) as HA. pose proof HA as (HS & Hb & Hsym & Hd).
  destruct (canonical_dec v (relabel v f G) Hb) as [Hc|(r & j & j' & Hj & Hj' & He & E0 & E1)]; auto. exfalso.
  assert (Hf' : relabelling v (fun i => f (swap2 j j' i))) by (apply relabelling_compose; auto; apply swap2_relabelling; lia).
  assert (Hcell : forall a b, (a < v)%nat -> (b < v)%nat ->
     cell (relabel v (fun i => f (swap2 j j' i)) G) a b = cell (relabel v f G) (swap2 j j' a) (swap2 j j' b)).
  { intros a b Hal Hbl. destruct (swap2_relabelling v j j') as [Hsw _]; [lia|lia|]. rewrite !relabel_cell; auto. }
  assert (HL : lex_lt (upper v (relabel v f G)) (upper v (relabel v (fun i => f (swap2 j j' i)) G))).
  { apply (upper_lex v _ _ r j); [lia| | |].
    - intros i c Hi Hcv. rewrite Hcell by lia. unfold swap2.
      destruct (Nat.eqb_spec i j); [lia|]. destruct (Nat.eqb_spec i j'); [lia|].
      destruct (Nat.eqb_spec c j) as [->|]; [now apply He|]. destruct (Nat.eqb_spec c j') as [->|]; [|auto].
      symmetry. now apply He.
    - intros c Hc. rewrite Hcell by lia. unfold swap2.
      destruct (Nat.eqb_spec r j); [lia|]. destruct (Nat.eqb_spec r j'); [lia|].
      destruct (Nat.eqb_spec c j); [lia|]. destruct (Nat.eqb_spec c j'); [lia|]. reflexivity.
    - rewrite Hcell by lia. unfold swap2. rewrite Nat.eqb_refl.
      destruct (Nat.eqb_spec r j); [lia|]. destruct (Nat.eqb_spec r j'); [lia|]. lia. }
  destruct (Hmax _ Hf') as [E|E].
  - rewrite E in HL. now apply lex_lt_irrefl in HL.
  - apply (lex_lt_irrefl (upper v (relabel v f G))). now apply (lex_lt_trans _ _ _ HL).
Qed.

Lemma sorted_nth_le (l : list (list Z)) i j x y : StronglySorted lex_lt l -> nth_error l i = Some x -> nth_error l j = Some y ->
  lex_le y x -> (j <= i)%nat.
Proof.
  intros H. revert i j. induction H as [|a l Hl IH HF]; intros [|i] [|j] Hi Hj HL; simpl in *; try discriminate; try lia.
  - exfalso. injection Hi as ->. rewrite Forall_forall in HF. apply nth_error_In in Hj. specialize (HF y Hj).
    destruct HL as [->|HL]; [now apply lex_lt_irrefl in HF|]. apply (lex_lt_irrefl y). now apply (lex_lt_trans _ _ _ HL).
  - apply le_n_S. now apply IH.
Qed.

Lemma greatest_printed v k l u G : (3 <= v <= 67)%nat -> 1 <= k -> 0 <= u -> srg v k l u G ->
  exists out i m, main_output (Z.of_nat v) k l u = Ok out /\ nth_error out i = Some m
    /\ mcols m = v /\ isomorphic v G (mrows m)
    /\ (forall N, isomorphic v G N -> lex_le (upper v N) (upper v (mrows m)))
    /\ forall j m', nth_error out j = Some m' -> isomorphic v G (mrows m') -> (j <= i)%nat.
Proof.
  intros Hv Hk Hu HG. destruct (greatest_exists v G) as (f & Hf & Hmax).
  pose proof (greatest_canonical v G f (proj1 HG) Hf Hmax) as Hc. pose proof (relabel_srg v k l u f G Hf HG) as HT.
  destruct (srg_admissible v k l u G) as [Ha|]; auto; try lia.
  destruct (main_output_proof v k l u Ha) as (ms & out & E1 & E2 & HP & HS); [lia|].
  pose proof (canonical_found v k l u _ ms Hv Hk HT Hc E1) as Hin. apply (Permutation_in _ HP) in Hin.
  destruct (In_nth_error _ _ Hin) as (i & Hi). exists out, i, (Mat v (relabel v f G)). split; [auto|]. split; [auto|]. split; [auto|].
  split; [now apply relabel_isomorphic|].
  assert (MAX : forall N, isomorphic v G N -> lex_le (upper v N) (upper v (relabel v f G))).
  { intros N (g & Hg & HN). erewrite (upper_ext v N); [now apply (Hmax g)|]. intros a b Hab. rewrite HN, relabel_cell by lia. reflexivity. }
  split; [exact MAX|]. intros j m' Hj Hiso.
  apply (sorted_nth_le _ i j (upper v (relabel v f G)) (upper v (mrows m')) HS).
  - rewrite nth_error_map, Hi. reflexivity.
  - rewrite nth_error_map, Hj. reflexivity.
  - now apply MAX.
Qed.

(** ** complements *)
Lemma empty_complement v k l u : (3 <= v <= 67)%nat -> 1 <= k -> run_main (Z.of_nat v) k l u = Ok [] ->
  let '(_, k', l', u') := complement_vklu (Z.of_nat v) k l u in forall G, ~ srg v k' l' u' G.
Proof.
  intros Hv Hk E. pose proof (complement_vklu_involution (Z.of_nat v) k l u) as HI.
  destruct (complement_vklu (Z.of_nat v) k l u) as [[[v' k'] l'] u'] eqn:EC.
  assert (v' = Z.of_nat v) by (unfold complement_vklu in EC; congruence). subst v'. intros G HG.
  pose proof (complement_srg_proof v k' l' u' G ltac:(lia) HG) as H. rewrite HI in H. destruct H as (_ & N & _ & HN & _).
  destruct (solve_complete v k l u N Hv Hk HN) as (ms & m & E' & Hin & _). rewrite E in E'. assert (ms = []) by congruence. subst ms. destruct Hin.
Qed.
