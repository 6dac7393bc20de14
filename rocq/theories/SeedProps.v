(** [_seed] and [gauss_elim.sort] for every choice of the arguments. *)
From Verif Require Import Np ModelGauss Model ModelSort ModelSelf Spec SortSpec Lib Graph Outside AnyArgs.
From Coq Require Import ZifyBool ZifyNat Sorting.Permutation.

Lemma seed_every_proof v k l u :
  let place a := if a <? 0 then a + v else a in
  if v <? 0 then seed v k l u = Raise ValueError
  else if v <? 2 then seed v k l u = Raise IndexError
  else exists r0 r1, seed v k l u = Ok (Mat (Z.to_nat v) [r0; r1]) /\ length r0 = Z.to_nat v /\ length r1 = Z.to_nat v
    /\ forall j, (j < Z.to_nat v)%nat ->
      nth j r0 0 = (if (1 <=? Z.of_nat j) && (Z.of_nat j <? place (k + 1)) then 1 else 0)
      /\ nth j r1 0 = (if (j =? 0)%nat then nth 1 r0 0
                       else if ((2 <=? Z.of_nat j) && (Z.of_nat j <? place (l + 2)))
                            || ((place (k + 1) <=? Z.of_nat j) && (Z.of_nat j <? place (2 * k - l))) then 1 else 0).
Proof.
  intros place. destruct (Z.ltb_spec v 0); [unfold seed; now replace (v <? 0) with true by lia|].
  destruct (Z.ltb_spec v 2); [unfold seed; replace (v <? 0) with false by lia; now replace (v <? 2) with true by lia|].
  pose proof (seed_any (Z.to_nat v) k l u ltac:(lia)) as E. rewrite Z2Nat.id in E by lia.
  unfold any_rows, build in E. change (seq 0 2) with [0; 1]%nat in E. cbn [map] in E.
  eexists _, _. split; [exact E|]. rewrite !map_length, seq_length. split; [reflexivity|]. split; [reflexivity|].
  intros j Hj. rewrite !(nth_map_in _ _ _ 0%nat) by (rewrite seq_length; lia). rewrite !nth_seq0 by lia.
  unfold wide0, wide1, reach, norm_idx, place.
  replace (Z.of_nat (Z.to_nat v)) with v by lia.
  split.
  - destruct (Z.ltb_spec (k + 1) 0); match goal with |- (if ?a then _ else _) = (if ?b then _ else _) => replace b with a by lia; reflexivity end.
  - destruct (Nat.eqb_spec j 0) as [->|Hne]; [reflexivity|].
    destruct (Z.ltb_spec (k + 1) 0), (Z.ltb_spec (l + 2) 0), (Z.ltb_spec (2 * k - l) 0); 
    match goal with |- (if ?a then _ else _) = (if ?b then _ else _) => replace b with a by lia; reflexivity end.
Qed.

(** lengths that differ *)
Lemma sort_lengths_proof argsort A b : argsorts argsort -> length b <> mnrows A ->
  gauss_sort argsort A b =
    if (mnrows A <? length b)%nat then Raise IndexError
    else match b with
         | [x] => Ok (Mat (mcols A) (repeat (nth 0 (mrows A) []) (mnrows A)), [x])
         | _ => Raise ValueError
         end.
Proof.
  intros HS HN. unfold gauss_sort. destruct (mnrows A <? length b)%nat; [reflexivity|].
  destruct (Nat.eqb_spec (length b) (mnrows A)); [congruence|]. destruct b as [|x [|y b]]; try reflexivity. cbn [length Nat.eqb].
  destruct (HS [x]) as [HP _]. cbn [length seq] in HP. apply Permutation_sym, Permutation_length_1_inv in HP. rewrite HP. reflexivity.
Qed.

(** ** where [partition.enum] and [unique.reduce] raise (C21, C22) *)
Lemma partition_rejects_proof s bounds : partition_enum_api s bounds = Raise AssertionError <-> s < 0 \/ bounds = [].
Proof.
  unfold partition_enum_api. destruct (Z.leb_spec 0 s); cbn [assert_ bind]; [|split; [now left|reflexivity]].
  destruct bounds as [|b bounds]; cbn [length Nat.leb assert_ bind]; [split; [now right|reflexivity]|].
  split; [discriminate|intros [?|?]; [lia|discriminate]].
Qed.
Lemma unique_rejects_proof A : unique_reduce A = Raise IndexError <-> mrows A = [] \/ mcols A = 0%nat.
Proof.
  unfold unique_reduce, unique_encode, mnrows. destruct (Nat.eqb_spec (length (mrows A)) 0) as [E|E]; cbn [bind].
  - split; [intros _; left; now apply length_zero_iff_nil|reflexivity].
  - destruct (Nat.eqb_spec (mcols A) 0) as [E'|E'].
    + split; [now right|reflexivity].
    + split; [discriminate|]. intros [H|H]; [rewrite H in E; easy|easy].
Qed.

(** [vklu] *)
Lemma i8_same_mod z : (i8 z - z) mod 256 = 0.
Proof.
  unfold i8, wrap. destruct (_ && _); [now rewrite Z.sub_diag|]. change (2 * 128) with 256.
  pose proof (Z.div_mod (z + 128) 256 ltac:(lia)). replace ((z + 128) mod 256 - 128 - z) with ((- ((z + 128) / 256)) * 256) by lia. apply Z.mod_mul. lia.
Qed.
Theorem vklu_proof m r0 r1 rest : mrows m = r0 :: r1 :: rest -> exists l u, vklu m = Ok (Z.of_nat (mcols m), zsum r0, l, u)
  /\ -128 <= l <= 127 /\ (l - dot r0 r1) mod 256 = 0
  /\ let d := Z.of_nat (mcols m) - zsum r0 - 1 in let n := zsum r0 * (zsum r0 - l - 1) in
     (d = 0 -> u = 0) /\ (0 < d -> u * d <= n < u * d + d) /\ (d < 0 -> u * d + d < n <= u * d).
Proof.
  intros E. unfold vklu. rewrite E. eexists _, _. split; [reflexivity|]. split; [pose proof (i8_range (dot r0 r1)); lia|]. split; [apply i8_same_mod|].
  cbv zeta. unfold np_floordiv. set (d := _ - zsum r0 - 1). set (n := zsum r0 * _).
  destruct (Z.eqb_spec d 0) as [->|Hd]; [lia|]. pose proof (Z.div_mod n d Hd) as HE. rewrite (Z.mul_comm d) in HE.
  split; [easy|]. split; intros H.
  - pose proof (Z.mod_pos_bound n d H). lia.
  - pose proof (Z.mod_neg_bound n d H). lia.
Qed.
Theorem vklu_rejects_proof m : (mnrows m < 2)%nat -> vklu m = Raise IndexError.
Proof. unfold vklu, mnrows. destruct (mrows m) as [|a [|b t]]; cbn; intros; auto; lia. Qed.
