(** Elimination fails on 64 columns or more, and with it the search on some
    admissible parameters beyond 67 vertices (C86). *)
From Coq Require Import ZifyBool ZifyNat.
From Verif Require Import Np ModelGauss Model ModelSort ModelPrint Spec Lib QFacts AnyFacts Total WideElim SolverProps.

Theorem elim_wide_cols_proof A b : (64 <= mcols A)%nat -> length b = mnrows A ->
  (forall row, In row (mrows A) -> length row = mcols A /\ bits row) -> (forall x, In x b -> 0 <= x) ->
  elim A b = Raise StopIteration
  \/ exists A' b', elim A b = Ok (A', b') /\ (1 <= mcols A' <= 63)%nat.
Proof.
  intros HC Hb Hr Hx. destruct (elim_any A b ltac:(lia) Hb Hr Hx) as [[E|(A' & b' & E)] HS]; [now left|right].
  exists A', b'. split; [exact E|]. apply (es_cols63 _ _ _ _ (HS A' b' E)).
Qed.
Theorem eliminate_wide_proof Q : (64 <= mcols (qA Q))%nat -> length (qb Q) = mnrows (qA Q) -> length (qbounds Q) = mcols (qA Q) ->
  (forall row, In row (mrows (qA Q)) -> length row = mcols (qA Q) /\ bits row) -> (forall x, In x (qb Q) -> 0 <= x) ->
  eliminate Q = Raise AssertionError \/ eliminate Q = Raise StopIteration.
Proof.
  intros HC Hb HB Hr Hx. unfold eliminate, eliminate_body. destruct (Nat.eqb_spec (mcols (qA Q)) 0) as [E|_]; [lia|].
  destruct (elim_wide_cols_proof _ _ HC Hb Hr Hx) as [-> |(A' & b' & -> & L)]; [now right|left]. cbn [bind].
  destruct (nonneg b'); [|reflexivity]. cbn [assert_ bind]. unfold post_check. cbn [qA qb qbounds].
  destruct (Nat.eqb_spec (mcols A') 0) as [E|_]; [lia|]. cbn [andb].
  destruct (Nat.eqb_spec (length (qbounds Q)) (mcols A')) as [E|_]; [lia|reflexivity].
Qed.

Lemma run_82 : run_main 82 9 0 1 = Raise AssertionError.
Proof. vm_compute. reflexivity. Qed.
Lemma run_101 : run_main 101 10 0 1 = Raise AssertionError.
Proof. vm_compute. reflexivity. Qed.
Lemma run_122 : run_main 122 11 0 1 = Raise AssertionError.
Proof. vm_compute. reflexivity. Qed.
Lemma moore_admissible k : 2 <= k -> admissible (Z.to_nat (k * k + 1)) k 0 1.
Proof. intros H. unfold admissible. rewrite Z2Nat.id by nia. repeat split; nia. Qed.
Theorem moore_runs_proof k : 2 <= k <= 11 ->
  admissible (Z.to_nat (k * k + 1)) k 0 1
  /\ (if k <=? 8 then exists ms, run_main (k * k + 1) k 0 1 = Ok ms else run_main (k * k + 1) k 0 1 = Raise AssertionError).
Proof.
  intros H. split; [apply moore_admissible; lia|]. destruct (Z.leb_spec k 8) as [L|L].
  - destruct (solve_terminates_proof (Z.to_nat (k * k + 1)) k 0 1 (moore_admissible k ltac:(lia)) ltac:(nia)) as (ms & E).
    exists ms. rewrite Z2Nat.id in E by nia. exact E.
  - assert (C : k = 9 \/ k = 10 \/ k = 11) by lia. destruct C as [-> |[-> | ->]]; [exact run_82|exact run_101|exact run_122].
Qed.
Theorem bound_needed_proof : ~ (forall v k l u, admissible v k l u -> exists ms, run_main (Z.of_nat v) k l u = Ok ms).
Proof.
  intros H. destruct (H _ _ _ _ (moore_admissible 9 ltac:(lia))) as (ms & E).
  change (Z.of_nat (Z.to_nat (9 * 9 + 1))) with 82 in E. rewrite run_82 in E. discriminate.
Qed.
