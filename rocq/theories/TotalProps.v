(** Every run ends (C85); elimination fails on 64 or more columns (C86). *)
From Verif Require Import Np ModelGauss Model ModelSort ModelPrint Spec Lib QFacts Layout AnyFacts Total Outside AnyArgs.
From Coq Require Import ZifyBool ZifyNat String.
Import ListNotations.

Lemma quiet_cases {A} (r : res A) : quiet r -> (exists a, r = Ok a) \/ r = Raise AssertionError \/ r = Raise StopIteration.
Proof. destruct r as [a| |e]; cbn; [eauto|easy|]. destruct e; cbn; try discriminate; auto. Qed.

Theorem every_run_ends_proof v k l u :
  (exists ms, run_main v k l u = Ok ms)
  \/ run_main v k l u = Raise AssertionError
  \/ (68 <= v /\ run_main v k l u = Raise StopIteration)
  \/ (v < 0 /\ run_main v k l u = Raise ValueError)
  \/ (0 <= v < 2 /\ run_main v k l u = Raise IndexError).
Proof.
  destruct (Z.lt_ge_cases v 68) as [H|H].
  - pose proof (outcome_any_proof v k l u ltac:(lia)) as O. destruct (_ =? _); [|auto]. destruct (Z.ltb_spec v 3); [|auto].
    destruct (Z.ltb_spec v 0); [intuition|]. destruct (Z.ltb_spec v 2); intuition.
  - destruct (quiet_cases _ (run_main_ends v k l u ltac:(lia))) as [E|[E|E]]; intuition.
Qed.

Theorem every_command_line_proof argv :
  (exists t, main_program argv = Ok t) \/ main_program argv = Raise ValueError \/ main_program argv = Raise AssertionError
  \/ main_program argv = Raise IndexError \/ main_program argv = Raise StopIteration.
Proof.
  unfold main_program. destruct (mapM_int argv) as [(zs & ->)| ->]; [|auto].
  destruct zs as [|v [|k [|l [|u [|x zs]]]]]; auto. unfold main_text, main_output.
  destruct (every_run_ends_proof v k l u) as [(ms & ->)|[-> |[(_ & ->)|[(_ & ->)|(_ & ->)]]]]; cbn [bind]; eauto 8.
Qed.

(** ** what is yielded *)
Lemma advance_prefix m ms m' : advance m = Ok ms -> In m' ms -> exists row, mrows m' = mrows m ++ [row].
Proof.
  intros H Hin. unfold advance in H. apply bind_ok in H. destruct H as (u & _ & H).
  destruct (from_matrix m) as [Q| |e]; [|injection H as <-; easy|discriminate].
  apply bind_ok in H. destruct H as (xs & _ & H). destruct (mapM_in _ _ _ _ H Hin) as (x & _ & Ex).
  unfold append_row in Ex. cbv zeta in Ex. destruct (_ <=? _)%nat; [discriminate|].
  apply bind_ok in Ex. destruct Ex as (u' & _ & Ex). injection Ex as <-. cbn [mrows]. eauto.
Qed.
Definition begun (v R : nat) (M0 : list (list Z)) (m : mat) : Prop := sheet v R m /\ firstn 2 (mrows m) = M0.
Lemma advance_begun v R M0 m ms m' : begun v R M0 m -> advance m = Ok ms -> In m' ms -> begun v (S R) M0 m'.
Proof.
  intros [H1 H2] H Hin. split; [now apply (proj2 (advance_any v R m H1) ms)|].
  destruct (advance_prefix m ms m' H Hin) as (row & ->). pose proof (sh_rows _ _ _ H1) as L. pose proof (sh_fit _ _ _ H1). unfold mnrows in L.
  rewrite firstn_app. replace (2 - List.length (mrows m))%nat with 0%nat by lia. cbn [firstn]. now rewrite app_nil_r.
Qed.
Lemma advance_all_begun v R M0 l ms m' : (forall m, In m l -> begun v R M0 m) -> advance_all l = Ok ms -> In m' ms -> begun v (S R) M0 m'.
Proof.
  intros H E Hin. unfold advance_all in E. apply bind_ok in E. destruct E as (ls & Els & E). injection E as <-. apply in_concat in Hin.
  destruct Hin as (l' & Hl' & Hin). destruct (mapM_in _ _ _ _ Els Hl') as (m & Hm & Em). eapply advance_begun; eauto.
Qed.
Definition done (v : nat) (M0 : list (list Z)) (m : mat) : Prop := begun v v M0 m.
Lemma begun_done v R M0 m : begun v R M0 m -> solved m = true -> done v M0 m.
Proof.
  intros [[H1 H2 H3 H4] H5] HS. unfold solved in HS. apply Nat.eqb_eq in HS. split; [constructor; [exact H1|lia|lia|exact H4]|exact H5].
Qed.
Lemma solve_loop_begun v M0 : forall fuel R lst ys out, (forall m, In m lst -> begun v R M0 m) -> (forall m, In m ys -> done v M0 m) ->
  solve_loop fuel lst ys = Ok out -> forall m, In m out -> done v M0 m.
Proof.
  induction fuel as [|fuel IH]; intros R lst ys out HL HY E m Hm; cbn [solve_loop] in E.
  - destruct lst; [injection E as <-; auto|discriminate].
  - destruct lst as [|m0 lst]; [injection E as <-; auto|]. apply bind_ok in E. destruct E as (l' & E1 & E).
    eapply (IH (S R)); [| |exact E|exact Hm].
    + intros m' Hm'. eapply advance_all_begun; [|exact E1|exact Hm']. intros m2 Hm2. apply filter_In in Hm2. apply HL. tauto.
    + intros m' Hm'. apply in_app_iff in Hm'. destruct Hm' as [Hm'|Hm']; [auto|]. apply filter_In in Hm'. eapply begun_done; [apply HL|]; tauto.
Qed.
Theorem yields_any_proof v k l u ms : (2 <= v)%nat -> run_main (Z.of_nat v) k l u = Ok ms ->
  forall m, In m ms -> mcols m = v /\ shape v v (mrows m) /\ (forall row, In row (mrows m) -> bits row)
    /\ seed (Z.of_nat v) k l u = Ok (Mat v (firstn 2 (mrows m))).
Proof.
  intros Hv H m Hm. unfold run_main in H. apply bind_ok in H. destruct H as (x & _ & H). apply bind_ok in H. destruct H as (m0 & E0 & H).
  pose proof (seed_sheet _ _ _ _ _ E0) as S0. rewrite Nat2Z.id in S0.
  assert (B0 : begun v 2 (mrows m0) m0).
  { split; [exact S0|]. pose proof (sh_rows _ _ _ S0) as L. unfold mnrows in L. rewrite <- L. apply firstn_all. }
  unfold solve in H. apply bind_ok in H. destruct H as (l1 & E1 & H). apply bind_ok in H. destruct H as (l2 & E2 & H).
  assert (B1 : forall m1, In m1 l1 -> begun v 3 (mrows m0) m1) by (intros m1 H1; eapply advance_begun; eauto).
  assert (D : done v (mrows m0) m).
  { eapply (solve_loop_begun v (mrows m0) _ 4); [| |exact H|exact Hm].
    - intros m2 H2. eapply advance_all_begun; [|exact E2|exact H2]. intros m1 H1. apply filter_In in H1. apply B1. tauto.
    - intros m1 H1. apply filter_In in H1. eapply begun_done; [apply B1|]; tauto. }
  destruct D as [[D1 D2 D3 D4] D5]. split; [exact D1|]. split; [split; [exact D2|intros row Hr; now apply D4]|].
  split; [intros row Hr; now apply D4|]. rewrite E0, D5. pose proof (sh_cols _ _ _ S0). destruct m0 as [c r]. cbn [mcols mrows] in *. now subst c.
Qed.

(** a first row with a neighbour: symmetric matrices with zero diagonal *)
Theorem yields_graphs_proof v k l u ms : (3 <= v)%nat -> k <> 0 -> k <> -1 -> - Z.of_nat v < k -> run_main (Z.of_nat v) k l u = Ok ms ->
  forall m, In m ms -> adjacency v (mrows m).
Proof.
  intros Hv K0 K1 K2 H m Hm. unfold run_main in H. apply bind_ok in H. destruct H as (x & _ & H). rewrite seed_any in H by lia. cbn [bind] in H.
  assert (HK : 1 <= reach v k) by (destruct (Z.lt_ge_cases (reach v k) 1) as [L|L]; [apply reach_small in L; lia|lia]).
  rewrite any_wide in H by auto. pose proof (reach_range v k ltac:(lia)) as HR.
  pose proof (wide_level v (reach v k) (norm_idx v (l + 2)) (norm_idx v (2 * k - l)) Hv ltac:(lia)) as HL.
  now apply (solve_grown v (wide_rows v (reach v k) (norm_idx v (l + 2)) (norm_idx v (2 * k - l))) ms (lv_partial _ _ _ HL) H m Hm).
Qed.
