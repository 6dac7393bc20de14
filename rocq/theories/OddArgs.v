(** Arguments that are not the parameters of a graph: which runs they repeat (C91). *)
From Verif Require Import Np ModelGauss Model Spec Lib BitFacts Cone ElimFacts QFacts StepFacts ForkFacts GroupFacts LevelFacts Graph SolveFacts Outside AnyArgs.
From Coq Require Import ZifyBool ZifyNat.

Lemma run_by_seed v k l u m : (v - k - 1) * u = k * (k - l - 1) -> seed v k l u = Ok m -> run_main v k l u = solve m.
Proof. intros He HS. unfold run_main, assert_srg. rewrite He, Z.eqb_refl. cbn [assert_ bind]. now rewrite HS. Qed.

Theorem same_seed_proof v k l u k' l' u' : (v - k - 1) * u = k * (k - l - 1) -> (v - k' - 1) * u' = k' * (k' - l' - 1) ->
  seed v k l u = seed v k' l' u' -> run_main v k l u = run_main v k' l' u'.
Proof. intros H H' HS. unfold run_main, assert_srg. rewrite H, H', !Z.eqb_refl. cbn [assert_ bind]. now rewrite HS. Qed.

(** ** a printed strongly regular graph *)
Theorem odd_graph_proof v k l u ms m k' l' u' : (3 <= v <= 67)%nat -> run_main (Z.of_nat v) k l u = Ok ms -> In m ms ->
  1 <= k' -> srg v k' l' u' (mrows m) ->
  1 <= k' < Z.of_nat v /\ 0 <= l' < k' /\ (Z.of_nat v - k' - 1) * u' = k' * (k' - l' - 1)
  /\ seed (Z.of_nat v) k' l' u' = seed (Z.of_nat v) k l u /\ run_main (Z.of_nat v) k' l' u' = Ok ms.
Proof.
  intros Hv HR Hm Hk HG.
  assert (He : (Z.of_nat v - k - 1) * u = k * (k - l - 1)).
  { pose proof (outcome_any_proof (Z.of_nat v) k l u ltac:(lia)) as O. rewrite HR in O.
    destruct (Z.eqb_spec ((Z.of_nat v - k - 1) * u) (k * (k - l - 1))); [auto|discriminate]. }
  destruct (any_arguments_proof v k l u Hv He) as (ms' & HR' & _ & H). rewrite HR in HR'. injection HR' as <-.
  destruct (H m Hm) as (_ & HS & D). pose proof HG as ((_ & _ & _ & Hd) & Hdeg & _).
  assert (HC : canonical v (mrows m)).
  { destruct D as [[_ HC]|[_ [_ H1]]]; auto. specialize (Hd 1%nat ltac:(lia)). rewrite H1 in Hd by lia. discriminate. }
  assert (H3 : (3 <= v)%nat) by lia.
  pose proof (cs_k v k' l' u' _ HG H3) as Hk1. pose proof (cs_l_range v k' l' u' _ HG HC H3 Hk) as Hl1.
  pose proof (cs_equation v k' l' u' _ HG H3) as He1.
  assert (ES : seed (Z.of_nat v) k' l' u' = seed (Z.of_nat v) k l u).
  { rewrite HS, seed_ok by lia. now rewrite (cs_firstn v k' l' u' _ HG HC H3 Hk). }
  split; [lia|]. split; [auto|]. split; [auto|]. split; [auto|]. rewrite <- HR. now apply same_seed_proof.
Qed.

(** ** a second row with as many ones as the first *)
Lemma wide_sum0 v K e f : 1 <= K < Z.of_nat v -> zsum (nth 0 (wide_rows v K e f) []) = K.
Proof.
  intros HK. unfold wide_rows. rewrite zsum_build by lia.
  rewrite (sumn_ext v _ (fun j => if (1 <=? j)%nat && (j <? Z.to_nat (K + 1))%nat then 1 else 0)).
  - rewrite sumn_interval by lia. lia.
  - intros j Hj. unfold wide0.
    now replace ((1 <=? Z.of_nat j) && (Z.of_nat j <? K + 1)) with ((1 <=? j)%nat && (j <? Z.to_nat (K + 1))%nat) by lia.
Qed.
Definition lo (K e : Z) : Z := Z.max 2 (Z.min e (K + 1)).
Definition hi (K e f : Z) : Z := Z.max (K + 1) (Z.max e f).
Lemma wide_dot v K e f : 1 <= K < Z.of_nat v ->
  dot (nth 0 (wide_rows v K e f) []) (nth 1 (wide_rows v K e f) []) = lo K e - 2.
Proof.
  intros HK. unfold wide_rows. rewrite !build_row by lia. rewrite dot_map_seq. unfold lo.
  destruct (Z.eq_dec K 1) as [->|].
  - rewrite sumn_zero; [lia|]. intros j Hj. unfold wide0, wide1. case_if; [|lia]. case_if; lia.
  - rewrite (sumn_ext v _ (fun j => if (2 <=? j)%nat && (j <? Z.to_nat (Z.max 2 (Z.min e (K + 1))))%nat then 1 else 0)).
    + rewrite sumn_interval by lia. lia.
    + intros j Hj. unfold wide0, wide1.
      destruct ((1 <=? Z.of_nat j) && (Z.of_nat j <? K + 1)) eqn:E1;
      destruct ((2 <=? j)%nat && (j <? _)%nat) eqn:E2; try lia; case_if; lia.
Qed.
Lemma wide_sum1 v K e f : 1 <= K < Z.of_nat v -> e <= Z.of_nat v -> f <= Z.of_nat v ->
  zsum (nth 1 (wide_rows v K e f) []) = 1 + (lo K e - 2) + (hi K e f - (K + 1)).
Proof.
  intros HK He Hf. unfold wide_rows. rewrite zsum_build by lia.
  destruct (Z.eq_dec K 1) as [->|HK1].
  { destruct (Nat.eq_dec v 1); [lia|].
    rewrite (sumn_ext v _ (fun j => (if (0 <=? j)%nat && (j <? 1)%nat then 1 else 0)
     + (if (2 <=? j)%nat && (j <? Z.to_nat (hi 1 e f))%nat then 1 else 0))).
    - rewrite !sumn_plus, !sumn_interval by (unfold hi; lia). unfold lo, hi. lia.
    - intros j Hj. unfold wide1, hi.
      destruct ((0 <=? j)%nat && (j <? 1)%nat) eqn:E1; destruct ((2 <=? j)%nat && (j <? _)%nat) eqn:E2; try lia; case_if; lia. }
  rewrite (sumn_ext v _ (fun j => ((if (0 <=? j)%nat && (j <? 1)%nat then 1 else 0)
     + (if (2 <=? j)%nat && (j <? Z.to_nat (lo K e))%nat then 1 else 0))
     + (if (Z.to_nat (K + 1) <=? j)%nat && (j <? Z.to_nat (hi K e f))%nat then 1 else 0))).
  - rewrite !sumn_plus, !sumn_interval by (unfold lo, hi; lia). unfold lo, hi. lia.
  - intros j Hj. unfold wide1.
    destruct ((0 <=? j)%nat && (j <? 1)%nat) eqn:E1; destruct ((2 <=? j)%nat && (j <? Z.to_nat (lo K e))%nat) eqn:E2;
    destruct ((Z.to_nat (K + 1) <=? j)%nat && (j <? Z.to_nat (hi K e f))%nat) eqn:E3; unfold lo, hi in *; try lia;
    case_if; lia.
Qed.
Lemma wide_balanced v K e f : (3 <= v)%nat -> 1 <= K < Z.of_nat v -> e <= Z.of_nat v -> f <= Z.of_nat v ->
  1 + (lo K e - 2) + (hi K e f - (K + 1)) = K -> wide_rows v K e f = seed_rows v K (lo K e - 2).
Proof.
  intros Hv HK He Hf HB. apply (matrix_ext 2 v); try apply build_shape.
  intros [|[|i]] j Hi Hj; [| |lia]; unfold wide_rows, seed_rows; rewrite !build_cell by lia; [reflexivity|].
  unfold wide1, seed1. unfold lo, hi in *. destruct (Nat.eqb_spec j 0); [reflexivity|]. cbn [orb].
  match goal with |- (if ?a then _ else _) = (if ?b then _ else _) => replace b with a; [reflexivity|] end. lia.
Qed.

Theorem odd_balanced_proof v k l u r0 r1 u' : (3 <= v)%nat -> (Z.of_nat v - k - 1) * u = k * (k - l - 1) ->
  seed (Z.of_nat v) k l u = Ok (Mat v [r0; r1]) -> 1 <= zsum r0 -> zsum r1 = zsum r0 ->
  (Z.of_nat v - zsum r0 - 1) * u' = zsum r0 * (zsum r0 - dot r0 r1 - 1) ->
  1 <= zsum r0 < Z.of_nat v /\ 0 <= dot r0 r1 < zsum r0
  /\ seed (Z.of_nat v) (zsum r0) (dot r0 r1) u' = Ok (Mat v [r0; r1])
  /\ run_main (Z.of_nat v) k l u = run_main (Z.of_nat v) (zsum r0) (dot r0 r1) u'.
Proof.
  intros Hv He HS H0 H1 Hu.
  set (K := reach v k) in *. set (e := norm_idx v (l + 2)) in *. set (f := norm_idx v (2 * k - l)) in *.
  assert (HS' := HS). rewrite seed_any in HS' by lia. fold K e f in HS'. assert (ER : any_rows v K e f = [r0; r1]) by (clear - HS'; congruence). clear HS'.
  assert (He' : e <= Z.of_nat v) by (unfold e, norm_idx; destruct (Z.ltb_spec (l + 2) 0); lia).
  assert (Hf' : f <= Z.of_nat v) by (unfold f, norm_idx; destruct (Z.ltb_spec (2 * k - l) 0); lia).
  assert (HK := reach_range v k ltac:(lia)). fold K in HK.
  assert (HK1 : 1 <= K).
  { destruct (Z.lt_ge_cases K 1) as [L|L]; [exfalso|auto].
    assert (E0 : r0 = nth 0 (any_rows v K e f) []) by now rewrite ER.
    rewrite E0 in H0. unfold any_rows in H0. rewrite zsum_build in H0 by lia. rewrite sumn_zero in H0; [lia|].
    intros i Hi. unfold wide0. now replace ((1 <=? Z.of_nat i) && (Z.of_nat i <? K + 1)) with false by lia. }
  rewrite any_wide in ER by auto.
  assert (E0 : r0 = nth 0 (wide_rows v K e f) []) by now rewrite ER.
  assert (E1 : r1 = nth 1 (wide_rows v K e f) []) by now rewrite ER.
  assert (S0 : zsum r0 = K) by (rewrite E0; apply wide_sum0; lia).
  assert (S1 : zsum r1 = 1 + (lo K e - 2) + (hi K e f - (K + 1))) by (rewrite E1; apply wide_sum1; lia).
  assert (D : dot r0 r1 = lo K e - 2) by (rewrite E0, E1; apply wide_dot; lia).
  rewrite S0, D in *. rewrite S1 in H1.
  assert (Hl : 0 <= lo K e - 2 < K) by (unfold lo in *; unfold hi in H1; lia).
  assert (ES : seed (Z.of_nat v) K (lo K e - 2) u' = Ok (Mat v [r0; r1])).
  { rewrite seed_ok by (auto; lia). rewrite <- wide_balanced with (f := f) by (auto; lia). now rewrite ER. }
  split; [lia|]. split; [auto|]. split; [auto|]. apply same_seed_proof; auto. now rewrite HS, ES.
Qed.

(** ** a first row without ones *)
Theorem odd_zero_proof v k l u r0 r1 : (3 <= v <= 67)%nat -> (Z.of_nat v - k - 1) * u = k * (k - l - 1) ->
  seed (Z.of_nat v) k l u = Ok (Mat v [r0; r1]) -> zsum r0 = 0 ->
  r0 = repeat 0 v /\ (k = 0 \/ k = -1 \/ k <= - Z.of_nat v)
  /\ run_main (Z.of_nat v) k l u
     = Ok (if forallb (Z.eqb 0) (skipn 2 r1) then [Mat v (r0 :: r1 :: repeat (repeat 0 v) (v - 2))] else []).
Proof.
  intros Hv He HS H0.
  set (K := reach v k) in *. set (e := norm_idx v (l + 2)) in *. set (f := norm_idx v (2 * k - l)) in *.
  assert (HS' := HS). rewrite seed_any in HS' by lia. fold K e f in HS'. assert (ER : any_rows v K e f = [r0; r1]) by (clear - HS'; congruence). clear HS'.
  assert (He' : e <= Z.of_nat v) by (unfold e, norm_idx; destruct (Z.ltb_spec (l + 2) 0); lia).
  assert (Hf' : f <= Z.of_nat v) by (unfold f, norm_idx; destruct (Z.ltb_spec (2 * k - l) 0); lia).
  assert (HK := reach_range v k ltac:(lia)). fold K in HK.
  assert (HK1 : K < 1).
  { destruct (Z.lt_ge_cases K 1) as [L|L]; [auto|exfalso]. rewrite any_wide in ER by auto.
    assert (E0 : r0 = nth 0 (wide_rows v K e f) []) by now rewrite ER. rewrite E0, wide_sum0 in H0 by lia. lia. }
  assert (W0 : forall j, wide0 K j = 0) by (intros j; unfold wide0; now replace ((1 <=? Z.of_nat j) && (Z.of_nat j <? K + 1)) with false by lia).
  assert (E0 : r0 = repeat 0 v).
  { replace r0 with (nth 0 (any_rows v K e f) []) by now rewrite ER. unfold any_rows. rewrite build_row by lia.
    rewrite (map_const _ 0) by (intros; apply W0). now rewrite seq_length. }
  assert (E1 : r1 = map (fun j => if (j =? 0)%nat then 0 else wide1 K e f j) (seq 0 v)).
  { replace r1 with (nth 1 (any_rows v K e f) []) by now rewrite ER. unfold any_rows. rewrite build_row by lia. now rewrite W0. }
  split; [auto|]. split; [apply reach_small; [lia|exact HK1]|].
  rewrite (run_by_seed _ _ _ _ _ He HS), <- ER, solve_zero by (auto; lia). rewrite ER. cbn [app]. f_equal.
  assert (EB : forallb (Z.eqb 0) (skipn 2 r1) = negb ((2 <? e) || (2 <? f))).
  { assert (ES : skipn 2 r1 = map (wide1 K e f) (seq 2 (v - 2))).
    { rewrite E1. destruct v as [|[|n]]; try lia. cbn [seq map skipn]. rewrite Nat.sub_succ, Nat.sub_succ, Nat.sub_0_r.
      apply map_ext_in. intros j Hj. apply in_seq in Hj. destruct (Nat.eqb_spec j 0); [lia|reflexivity]. }
    rewrite ES. destruct ((2 <? e) || (2 <? f)) eqn:E; cbn [negb].
    - destruct (v - 2)%nat eqn:Ev; [lia|]. cbn [seq map forallb]. unfold wide1 at 1. cbn [Nat.eqb orb]. change (Z.of_nat 2) with 2.
      replace ((2 <=? 2) && (2 <? e) || (K + 1 <=? 2) && (2 <? f)) with true by lia. reflexivity.
    - apply forallb_forall. intros x Hx. apply in_map_iff in Hx. destruct Hx as (j & <- & Hj). apply in_seq in Hj. unfold wide1.
      destruct (Nat.eqb_spec j 0); [lia|]. cbn [orb].
      now replace ((2 <=? Z.of_nat j) && (Z.of_nat j <? e) || (K + 1 <=? Z.of_nat j) && (Z.of_nat j <? f)) with false by lia. }
  rewrite EB. now destruct ((2 <? e) || (2 <? f)).
Qed.
