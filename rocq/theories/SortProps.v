(** The order of the matrices printed by the program. *)
From Coq Require Import Sorting.Permutation Sorting.Sorted.
From Verif Require Import Np ModelGauss Model ModelSort Spec QSpec SortSpec Lib PartProps SortFacts MaxFacts SortWitness MaxFix Check SolverProps SolveFacts AnyFacts.
From Coq Require Import ZifyBool ZifyNat.

Lemma main_output_proof v k l u : admissible v k l u -> (v <= 67)%nat ->
  exists ms out, run_main (Z.of_nat v) k l u = Ok ms /\ main_output (Z.of_nat v) k l u = Ok out
    /\ Permutation ms out
    /\ StronglySorted lex_lt (map (fun m => upper v (mrows m)) out).
Proof.
  intros HA Hv. destruct (solve_distinct_proof v k l u HA Hv) as (ms & E & HN).
  exists ms, (sort_matrices ms). split; auto. unfold main_output. rewrite E. cbn [bind]. split; auto.
  assert (HW : forall m, In m ms -> mcols m = v /\ adjacency v (mrows m)).
  { intros m Hm. destruct (run_main_well_formed v k l u ms HA E m Hm) as (H1 & H2 & _). auto. }
  assert (HS : forall m, In m ms -> square v m) by (intros m Hm; destruct (HW m Hm) as [H1 [H2 _]]; split; auto).
  destruct (sort_proof v ms HS) as (HP & Hsort & _). split; [now apply Permutation_sym|]. apply Permutation_sym in HP.
  assert (HN' : NoDup (sort_matrices ms)) by (eapply Permutation_NoDup; eauto).
  assert (HW' : forall m, In m (sort_matrices ms) -> mcols m = v /\ adjacency v (mrows m)).
  { intros m Hm. apply HW. eapply Permutation_in; [apply Permutation_sym; exact HP|auto]. }
  revert HN' HW' Hsort. generalize (sort_matrices ms). clear. intros q HN HW HS. induction HS as [|a q Hq IH HF]; simpl; [constructor|].
  inversion HN as [|? ? Ha Hn]; subst. constructor; [apply IH; auto; intros; apply HW; now right|].
  apply Forall_forall. intros x Hx. apply in_map_iff in Hx. destruct Hx as (b & <- & Hb).
  rewrite Forall_forall in HF. destruct (HF b Hb) as [Eq|Lt]; auto. exfalso. apply Ha.
  destruct (HW a (or_introl eq_refl)) as [C1 A1]. destruct (HW b (or_intror Hb)) as [C2 A2].
  enough (a = b) by now subst. destruct a as [ca ra], b as [cb rb]. cbn [mcols mrows] in *. rewrite C1, C2. f_equal.
  now apply (upper_determines v).
Qed.

(** ** the matrices printed are fixed points of [maximize] *)
Lemma maximize_output_proof argsort v k l u : argsorts argsort -> stable_upto (v - 1) argsort ->
  admissible v k l u -> (v <= 67)%nat -> k < Z.of_nat v - 1 ->
  exists ms, run_main (Z.of_nat v) k l u = Ok ms /\ forall m, In m ms -> maximize argsort (mrows m) = Ok (mrows m).
Proof.
  intros Harg Hst HA Hv Hk. destruct (solve_canonical_proof v k l u HA Hv) as (ms & E & HC). exists ms. split; auto. intros m Hm.
  destruct (run_main_well_formed v k l u ms HA E m Hm) as (_ & (Hsh & Hb & Hs & _) & Hseed).
  apply (maximize_fixed argsort v (mrows m) Harg Hst); auto.
  - split; auto.
  - destruct (seed_proof v k l u HA) as (r0 & r1 & E2 & L0 & _ & H0 & _). rewrite E2 in Hseed. injection Hseed as Hf.
    destruct HA as (A1 & A2 & _). exists (v - 1)%nat. split; [lia|]. unfold cell.
    assert (E0 : nth 0 (mrows m) [] = r0).
    { destruct (mrows m) as [|a q]; [discriminate Hf|]. simpl in Hf. injection Hf as Hf _. now simpl. }
    rewrite E0, H0 by lia. destruct (_ && _) eqn:B; lia.
Qed.

(** ** the examples of tests/test_sort.py *)
Definition test9_in : list (list Z) :=
  [[0; 1; 0; 0; 1; 1; 0; 0; 1];
   [1; 0; 1; 0; 0; 0; 1; 0; 1];
   [0; 1; 0; 1; 1; 0; 1; 0; 0];
   [0; 0; 1; 0; 1; 0; 0; 1; 1];
   [1; 0; 1; 1; 0; 1; 0; 0; 0];
   [1; 0; 0; 0; 1; 0; 1; 1; 0];
   [0; 1; 1; 0; 0; 1; 0; 1; 0];
   [0; 0; 0; 1; 0; 1; 1; 0; 1];
   [1; 1; 0; 1; 0; 0; 0; 1; 0]].
Definition test9_out : list (list Z) :=
  [[0; 1; 1; 1; 1; 0; 0; 0; 0];
   [1; 0; 1; 0; 0; 1; 1; 0; 0];
   [1; 1; 0; 0; 0; 0; 0; 1; 1];
   [1; 0; 0; 0; 1; 1; 0; 1; 0];
   [1; 0; 0; 1; 0; 0; 1; 0; 1];
   [0; 1; 0; 1; 0; 0; 1; 1; 0];
   [0; 1; 0; 0; 1; 1; 0; 0; 1];
   [0; 0; 1; 1; 0; 1; 0; 0; 1];
   [0; 0; 1; 0; 1; 0; 1; 1; 0]].
Definition test13_in : list (list Z) :=
  [[0; 1; 0; 1; 1; 0; 0; 0; 0; 1; 1; 0; 1];
   [1; 0; 1; 0; 1; 1; 0; 0; 0; 0; 1; 1; 0];
   [0; 1; 0; 1; 0; 1; 1; 0; 0; 0; 0; 1; 1];
   [1; 0; 1; 0; 1; 0; 1; 1; 0; 0; 0; 0; 1];
   [1; 1; 0; 1; 0; 1; 0; 1; 1; 0; 0; 0; 0];
   [0; 1; 1; 0; 1; 0; 1; 0; 1; 1; 0; 0; 0];
   [0; 0; 1; 1; 0; 1; 0; 1; 0; 1; 1; 0; 0];
   [0; 0; 0; 1; 1; 0; 1; 0; 1; 0; 1; 1; 0];
   [0; 0; 0; 0; 1; 1; 0; 1; 0; 1; 0; 1; 1];
   [1; 0; 0; 0; 0; 1; 1; 0; 1; 0; 1; 0; 1];
   [1; 1; 0; 0; 0; 0; 1; 1; 0; 1; 0; 1; 0];
   [0; 1; 1; 0; 0; 0; 0; 1; 1; 0; 1; 0; 1];
   [1; 0; 1; 1; 0; 0; 0; 0; 1; 1; 0; 1; 0]].
Definition test13_out : list (list Z) :=
  [[0; 1; 1; 1; 1; 1; 1; 0; 0; 0; 0; 0; 0];
   [1; 0; 1; 1; 0; 0; 0; 1; 1; 1; 0; 0; 0];
   [1; 1; 0; 0; 1; 0; 0; 1; 0; 0; 1; 1; 0];
   [1; 1; 0; 0; 0; 1; 0; 0; 1; 0; 1; 0; 1];
   [1; 0; 1; 0; 0; 0; 1; 0; 0; 1; 1; 0; 1];
   [1; 0; 0; 1; 0; 0; 1; 1; 0; 0; 0; 1; 1];
   [1; 0; 0; 0; 1; 1; 0; 0; 1; 1; 0; 1; 0];
   [0; 1; 1; 0; 0; 1; 0; 0; 0; 1; 0; 1; 1];
   [0; 1; 0; 1; 0; 0; 1; 0; 0; 1; 1; 1; 0];
   [0; 1; 0; 0; 1; 0; 1; 1; 1; 0; 0; 0; 1];
   [0; 0; 1; 1; 1; 0; 0; 0; 1; 0; 0; 1; 1];
   [0; 0; 1; 0; 0; 1; 1; 1; 1; 0; 1; 0; 0];
   [0; 0; 0; 1; 1; 1; 0; 1; 0; 1; 1; 0; 0]].
Lemma symmetricb_ok v M : shapeb v v M && allb v (fun i => allb v (fun j => cell M i j =? cell M j i)) = true -> symmetric v M.
Proof.
  intros H. apply andb_true_iff in H. destruct H as [H1 H2]. split; [now apply shapeb_ok|]. intros i j Hi Hj.
  rewrite allb_ok in H2. specialize (H2 i Hi). rewrite allb_ok in H2. specialize (H2 j Hj). lia.
Qed.
Lemma test9_symmetric : symmetric 9 test9_in.
Proof. apply symmetricb_ok. vm_compute. reflexivity. Qed.
Lemma test13_symmetric : symmetric 13 test13_in.
Proof. apply symmetricb_ok. vm_compute. reflexivity. Qed.
Lemma test_sort_proof argsort : argsorts argsort -> stable_upto 12 argsort ->
  maximize argsort test9_in = Ok test9_out /\ maximize argsort test13_in = Ok test13_out.
Proof.
  intros Harg Hst. split.
  - rewrite (maximize_same argsort argsort_stable 9 Harg); [vm_compute; reflexivity| |apply argsort_by_ok|apply argsort_stable_ok|apply test9_symmetric].
    intros l i j Hl. apply Hst. lia.
  - rewrite (maximize_same argsort argsort_stable 13 Harg); [vm_compute; reflexivity|auto|apply argsort_by_ok|apply argsort_stable_ok|apply test13_symmetric].
Qed.
