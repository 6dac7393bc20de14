(** C83: the printed matrices that pass test_srg_matrix_identity. *)
From Verif Require Import Np ModelGauss Model ModelSort ModelUtil ModelTests Spec SortSpec TestSpec Lib Graph SolveFacts SolverProps SortProps Greatest TestProps.
From Coq Require Import ZifyBool ZifyNat Sorting.Permutation.

Theorem filter_proof v k l u : admissible v k l u -> (v <= 67)%nat -> k < Z.of_nat v - 1 -> u <= 127 ->
  exists ms, main_output (Z.of_nat v) k l u = Ok ms /\ NoDup ms
    /\ (forall m, In m ms -> (test_srg_matrix_identity v k l u [mrows m] = Ok tt <-> srg v k l u (mrows m)))
    /\ (forall T, srg v k l u T /\ canonical v T <-> In (Mat v T) ms /\ test_srg_matrix_identity v k l u [T] = Ok tt)
    /\ (forall G, srg v k l u G -> exists m, In m ms /\ test_srg_matrix_identity v k l u [mrows m] = Ok tt /\ isomorphic v G (mrows m)).
Proof.
  intros HA Hv Hk Hu. pose proof HA as (Hv3 & Hk1 & Hl & Hu0 & He).
  destruct (main_output_proof v k l u HA) as (ms & out & E & E2 & HP & _); [lia|].
  destruct (solve_well_formed v k l u HA ltac:(lia)) as (ms' & E' & ND & F). rewrite E in E'. injection E' as <-.
  assert (HT : forall m, In m out -> (test_srg_matrix_identity v k l u [mrows m] = Ok tt <-> srg v k l u (mrows m))).
  { intros m Hm. destruct (F m (Permutation_in _ (Permutation_sym HP) Hm)) as (_ & (Hs & Hb & Hy & Hd) & _).
    rewrite identity_test_proof by (lia || (intros M [<-|[]]; split; [now split|exact Hd])).
    split; [intros H; apply H; now left|now intros H M [<-|[]]]. }
  exists out. split; auto. split; [now apply (Permutation_NoDup HP)|]. split; auto. split.
  - intros T. split.
    + intros [HS HC]. assert (Hin : In (Mat v T) out).
      { apply (Permutation_in _ HP). apply (yields_iff_canonical v k l u T ms); auto; lia. }
      split; auto. now apply (HT (Mat v T) Hin).
    + intros [Hin Ht]. split; [now apply (HT (Mat v T) Hin)|].
      now destruct (F _ (Permutation_in _ (Permutation_sym HP) Hin)) as (_ & _ & _ & HC).
  - intros G HG. destruct (solve_complete v k l u G ltac:(lia) ltac:(lia) HG) as (ms' & m & E' & Hin & Hc & Hi).
    rewrite E in E'. injection E' as <-. exists m. assert (Hin' := Permutation_in _ HP Hin). split; auto. split; auto.
    apply HT; auto. destruct (F m Hin) as (_ & Hadj & _). destruct Hi as (f & Hf & Hc').
    replace (mrows m) with (relabel v f G); [now apply relabel_srg|].
    apply (matrix_ext v v); [apply build_shape|apply Hadj|]. intros i j Hi Hj. rewrite relabel_cell by auto. now rewrite Hc'.
Qed.
