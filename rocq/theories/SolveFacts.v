(** The seed and the results of a whole run. *)
From Verif Require Import Np ModelGauss Model Spec Lib BitFacts Cone ElimFacts QFacts StepFacts ForkFacts GroupFacts LevelFacts Graph.
From Coq Require Import ZifyBool ZifyNat.

Ltac case_if := match goal with |- context [if ?c then _ else _] => destruct c eqn:? end.

(** ** the seed rows *)
Definition seed0 (k : Z) (j : nat) : Z := if (1 <=? Z.of_nat j) && (Z.of_nat j <? k + 1) then 1 else 0.
Definition seed1 (k l : Z) (j : nat) : Z :=
  if (j =? 0)%nat || (2 <=? Z.of_nat j) && (Z.of_nat j <? l + 2) || (k + 1 <=? Z.of_nat j) && (Z.of_nat j <? 2 * k - l)
  then 1 else 0.
Definition seed_rows (v : nat) (k l : Z) : list (list Z) :=
  build 2 v (fun i => match i with O => seed0 k | _ => seed1 k l end).

Lemma slice_set_nth lo hi x y j : 0 <= lo -> 0 <= hi -> (j < length y)%nat ->
  nth j (slice_set lo hi x y) 0 = if (lo <=? Z.of_nat j) && (Z.of_nat j <? hi) then x else nth j y 0.
Proof.
  intros Hl Hh Hj. unfold slice_set. rewrite (nth_map2 _ _ _ _ 0%nat 0) by (rewrite ?seq_length; auto).
  rewrite nth_seq0 by auto. unfold norm_idx. destruct (Z.ltb_spec lo 0); [lia|]. destruct (Z.ltb_spec hi 0); [lia|].
  assert (E : ((Z.min lo (Z.of_nat (length y)) <=? Z.of_nat j) && (Z.of_nat j <? Z.min hi (Z.of_nat (length y))))
       = ((lo <=? Z.of_nat j) && (Z.of_nat j <? hi))) by lia.
  now rewrite E.
Qed.
Lemma slice_set_length lo hi x y : length (slice_set lo hi x y) = length y.
Proof. unfold slice_set. rewrite map2_length, seq_length. lia. Qed.

Lemma seed_ok v k l u : (3 <= v)%nat -> 1 <= k < Z.of_nat v -> 0 <= l < k ->
  seed (Z.of_nat v) k l u = Ok (Mat v (seed_rows v k l)).
Proof.
  intros Hv Hk Hl. unfold seed. destruct (Z.ltb_spec (Z.of_nat v) 0); [lia|].
  destruct (Z.ltb_spec (Z.of_nat v) 2); [lia|]. rewrite Nat2Z.id. f_equal. f_equal.
  unfold seed_rows, build. change (seq 0 2) with [0; 1]%nat. cbn [map].
  assert (HZ : forall j, nth j (repeat 0 v) 0 = 0).
  { intros j. destruct (Nat.lt_ge_cases j v); [now apply nth_repeat_lt|]. apply nth_overflow. now rewrite repeat_length. }
  f_equal; [|f_equal].
  - apply nth_ext0; [now rewrite slice_set_length, repeat_length, map_length, seq_length|].
    intros j Hj. rewrite slice_set_length, repeat_length in Hj.
    rewrite slice_set_nth by (rewrite ?repeat_length; lia). rewrite HZ.
    rewrite (nth_map_in _ _ _ 0%nat), nth_seq0 by (rewrite ?seq_length; auto). reflexivity.
  - apply nth_ext0; [now rewrite set_nth_length, !slice_set_length, repeat_length, map_length, seq_length|].
    intros j Hj. rewrite set_nth_length, !slice_set_length, repeat_length in Hj.
    rewrite (nth_map_in _ _ _ 0%nat), nth_seq0 by (rewrite ?seq_length; auto).
    rewrite nth_set_nth by (rewrite !slice_set_length, repeat_length; lia).
    rewrite !slice_set_nth by (rewrite ?slice_set_length, ?repeat_length; lia). rewrite !HZ.
    unfold seed1. destruct (Nat.eqb_spec j 0) as [->|Hne].
    + rewrite !slice_set_length, repeat_length. replace ((0 <? v)%nat) with true by lia.
      change (Z.of_nat 1) with 1. replace (1 <? k + 1) with true by lia. reflexivity.
    + cbn [andb orb]. destruct ((2 <=? Z.of_nat j) && (Z.of_nat j <? l + 2)) eqn:E1.
      * cbn [orb]. now destruct ((k + 1 <=? _) && _).
      * cbn [orb]. replace (k + (k - l - 1) + 1) with (2 * k - l) by lia. reflexivity.
Qed.

Lemma seed0_cell v k l j : (j < v)%nat -> cell (seed_rows v k l) 0 j = seed0 k j.
Proof. intros H. unfold seed_rows. now rewrite build_cell by lia. Qed.
Lemma seed1_cell v k l j : (j < v)%nat -> cell (seed_rows v k l) 1 j = seed1 k l j.
Proof. intros H. unfold seed_rows. now rewrite build_cell by lia. Qed.

Lemma seed_level v k l : (3 <= v)%nat -> 1 <= k < Z.of_nat v -> 0 <= l < k -> level v 2 (seed_rows v k l).
Proof.
  intros Hv Hk Hl.
  assert (C0 := seed0_cell v k l). assert (C1 := seed1_cell v k l).
  apply level_intro.
  - apply build_shape.
  - lia.
  - intros i j Hi Hj. destruct i as [|[|i]]; [| |lia].
    + rewrite C0 by auto. unfold seed0. destruct (_ && _); [now right|now left].
    + rewrite C1 by auto. unfold seed1. case_if; [now right|now left].
  - assert (E : cell (seed_rows v k l) 0 1 = cell (seed_rows v k l) 1 0).
    { rewrite C0, C1 by lia. unfold seed0, seed1. simpl. replace (1 <? k + 1) with true by lia. reflexivity. }
    intros [|[|i]] [|[|j]]; intros; try lia; auto.
  - intros [|[|i]] Hi; [| |lia].
    + rewrite C0 by lia. reflexivity.
    + rewrite C1 by lia. unfold seed1. simpl. replace (k + 1 <=? 1) with false by lia. reflexivity.
  - intros [|[|r]] j j' Hr Hj Hj' He; [| |lia].
    + rewrite !C0 by lia. unfold seed0. destruct ((1 <=? Z.of_nat j) && (Z.of_nat j <? k + 1)) eqn:E1;
      destruct ((1 <=? Z.of_nat j') && (Z.of_nat j' <? k + 1)) eqn:E2; lia.
    + rewrite !C1 by lia. specialize (He 0%nat ltac:(lia)). rewrite !C0 in He by lia. unfold seed0 in He.
      assert (Hsame : (Z.of_nat j <? k + 1) = (Z.of_nat j' <? k + 1)).
      { destruct (Z.ltb_spec (Z.of_nat j) (k + 1)), (Z.ltb_spec (Z.of_nat j') (k + 1)); auto;
        destruct (Z.leb_spec 1 (Z.of_nat j)), (Z.leb_spec 1 (Z.of_nat j')); simpl in He; lia. }
      unfold seed1.
      destruct ((j' =? 0)%nat || (2 <=? Z.of_nat j') && (Z.of_nat j' <? l + 2) || (k + 1 <=? Z.of_nat j') && (Z.of_nat j' <? 2 * k - l)) eqn:E2.
      2:{ case_if; lia. }
      match goal with |- 1 <= (if ?c then _ else _) => replace c with true by lia end. lia.
Qed.

Lemma sumn_interval v a b : (a <= b <= v)%nat ->
  sumn v (fun j => if (a <=? j)%nat && (j <? b)%nat then 1 else 0) = Z.of_nat b - Z.of_nat a.
Proof.
  revert b. induction v as [|v IH]; intros b H; [rewrite sumn_0; lia|]. rewrite sumn_S.
  destruct (Nat.eq_dec b (S v)) as [->|].
  - destruct (Nat.eq_dec a (S v)) as [->|].
    + rewrite sumn_zero; [|intros i Hi; replace ((S v <=? i)%nat) with false by lia; reflexivity].
      replace ((S v <=? v)%nat) with false by lia. cbn [andb]. lia.
    + rewrite (sumn_ext v _ (fun j => if (a <=? j)%nat && (j <? v)%nat then 1 else 0)).
      2:{ intros i Hi. replace ((i <? S v)%nat) with true by lia. now replace ((i <? v)%nat) with true by lia. }
      rewrite IH by lia. replace ((a <=? v)%nat && (v <? S v)%nat) with true by lia. lia.
  - rewrite IH by lia. replace ((v <? b)%nat) with false by lia. rewrite andb_false_r. lia.
Qed.

Lemma zsum_build v c g i : (i < v)%nat -> zsum (nth i (build v c g) []) = sumn c (g i).
Proof. intros Hi. now rewrite build_row. Qed.
Lemma dot_map_seq c (f g : nat -> Z) : dot (map f (seq 0 c)) (map g (seq 0 c)) = sumn c (fun j => f j * g j).
Proof.
  rewrite dot_sum by now rewrite !map_length. rewrite map_length, seq_length. apply sumn_ext.
  intros j Hj. now rewrite !(nth_map_in _ _ _ 0%nat), nth_seq0 by (rewrite ?seq_length; auto).
Qed.

Lemma seed_par_k v k l : 1 <= k < Z.of_nat v -> par_k (seed_rows v k l) = k.
Proof.
  intros Hk. unfold par_k, seed_rows. rewrite zsum_build by lia.
  rewrite (sumn_ext v _ (fun j => if (1 <=? j)%nat && (j <? Z.to_nat (k + 1))%nat then 1 else 0)).
  - rewrite sumn_interval by lia. lia.
  - intros j Hj. unfold seed0. 
    now replace ((1 <=? Z.of_nat j) && (Z.of_nat j <? k + 1)) with ((1 <=? j)%nat && (j <? Z.to_nat (k + 1))%nat) by lia.
Qed.
Lemma seed_dot v k l : 1 <= k < Z.of_nat v -> 0 <= l < k ->
  dot (nth 0 (seed_rows v k l) []) (nth 1 (seed_rows v k l) []) = l.
Proof.
  intros Hk Hl. unfold seed_rows. rewrite !build_row by lia. rewrite dot_map_seq.
  rewrite (sumn_ext v _ (fun j => if (2 <=? j)%nat && (j <? Z.to_nat (l + 2))%nat then 1 else 0)).
  - rewrite sumn_interval by lia. lia.
  - intros j Hj. unfold seed0, seed1. 
    destruct ((1 <=? Z.of_nat j) && (Z.of_nat j <? k + 1)) eqn:E1;
    destruct ((2 <=? j)%nat && (j <? Z.to_nat (l + 2))%nat) eqn:E2; try lia;
    case_if; lia.
Qed.
Lemma seed_par_l v k l : 1 <= k < Z.of_nat v -> 0 <= l < k -> (v <= 127)%nat -> par_l (seed_rows v k l) = l.
Proof. intros Hk Hl Hv. unfold par_l. rewrite seed_dot by auto. apply i8_id. lia. Qed.
(** row 1 of the seed has [k] ones when they fit, else fewer *)
Lemma seed_row1 v k l : 1 <= k < Z.of_nat v -> 0 <= l < k ->
  zsum (nth 1 (seed_rows v k l) []) = Z.min k (l + Z.of_nat v - k).
Proof.
  intros Hk Hl. unfold seed_rows. rewrite zsum_build by lia.
  set (e := Z.min (2 * k - l) (Z.of_nat v)).
  rewrite (sumn_ext v _ (fun j => ((if (0 <=? j)%nat && (j <? 1)%nat then 1 else 0)
     + (if (2 <=? j)%nat && (j <? Z.to_nat (l + 2))%nat then 1 else 0))
     + (if (Z.to_nat (k + 1) <=? j)%nat && (j <? Z.to_nat e)%nat then 1 else 0))).
  - rewrite !sumn_plus, !sumn_interval by lia. lia.
  - intros j Hj. unfold seed1.
    destruct ((0 <=? j)%nat && (j <? 1)%nat) eqn:E1; destruct ((2 <=? j)%nat && (j <? Z.to_nat (l + 2))%nat) eqn:E2;
    destruct ((Z.to_nat (k + 1) <=? j)%nat && (j <? Z.to_nat e)%nat) eqn:E3; try lia;
    case_if; lia.
Qed.
Lemma seed_par_u v k l u : admissible v k l u -> (v <= 127)%nat -> par_u v (seed_rows v k l) = if k =? Z.of_nat v - 1 then 0 else u.
Proof.
  intros (Hv & Hk & Hl & Hu & He) Hv7. unfold par_u. rewrite seed_par_k, seed_par_l by auto. unfold np_floordiv.
  destruct (Z.eqb_spec (Z.of_nat v - k - 1) 0); destruct (Z.eqb_spec k (Z.of_nat v - 1)); try lia.
  rewrite <- He, Z.mul_comm. apply Z.div_mul. auto.
Qed.

(** ** what every yielded matrix is *)
Lemma level_adjacency v N : level v v N -> adjacency v N.
Proof.
  intros H. split; [apply H|]. split; [apply H|]. split; [apply (lv_sym _ _ _ H)|apply (lv_diag _ _ _ H)].
Qed.

(** a graph on an odd number of vertices has no odd regular degree *)
Lemma handshake n (f : nat -> nat -> Z) : (forall i j, (i < n)%nat -> (j < n)%nat -> f i j = f j i) ->
  (forall i, (i < n)%nat -> f i i = 0) -> exists q, sumn n (fun i => sumn n (f i)) = 2 * q.
Proof.
  induction n as [|n IH]; intros Hs Hd; [exists 0; reflexivity|].
  destruct IH as (q & E); [intros; apply Hs; lia|intros; apply Hd; lia|].
  exists (q + sumn n (f n)). rewrite sumn_S, (sumn_ext n _ (fun i => sumn n (f i) + f i n)) by (intros; apply sumn_S).
  rewrite sumn_plus, E, sumn_S, Hd by lia. rewrite (sumn_ext n (fun i => f i n) (f n)) by (intros i Hi; apply Hs; lia). lia.
Qed.

(** With 67 vertices the first row is missing in the key of a column when two
    columns are left. Only for [k = 65] do the two differ there, and then
    nothing is found: the complement of the graph would be a perfect matching. *)
Definition none_found (l : Z) : bool := match run_main 67 65 l (65 * (64 - l)) with Ok [] => true | _ => false end.
Lemma none_found_all : forallb (fun l => none_found (Z.of_nat l)) (seq 0 65) = true.
Proof. vm_cast_no_check (eq_refl true). Qed.
Lemma run_67_65 l u : 0 <= l < 65 -> u = 65 * (64 - l) -> run_main 67 65 l u = Ok [].
Proof.
  intros Hl ->. pose proof none_found_all as H. rewrite forallb_forall in H.
  specialize (H (Z.to_nat l) ltac:(apply in_seq; lia)). cbv beta in H. rewrite Z2Nat.id in H by lia. unfold none_found in H.
  destruct (run_main 67 65 l (65 * (64 - l))) as [[|]| |]; try discriminate. reflexivity.
Qed.
Lemma linv_67_65 l u : admissible 67 65 l u -> linv 67 (seed_rows 67 65 l) 67 [].
Proof.
  intros HA. pose proof HA as (_ & _ & Hl & Hu & He). constructor; try easy; [constructor|].
  intros Hp T HT. exfalso. destruct HT as (HL & H2 & Hex). unfold params_ok in Hp.
  rewrite (seed_par_u 67 65 l u HA) in Hp by lia. change (65 =? Z.of_nat 67 - 1) with false in Hp. cbv iota in Hp.
  pose proof (lv_sym _ _ _ HL) as Hsym. pose proof (lv_diag _ _ _ HL) as Hdiag.
  destruct (handshake 67 (cell T)) as (q & E); [intros; apply Hsym; auto|intros; apply Hdiag; auto|].
  rewrite (sumn_ext 67 _ (fun _ => 65)) in E; [rewrite sumn_const in E; lia|].
  intros i Hi. change (degree 67 T i = 65).
  assert (Hsh : shape 67 67 T) by apply (level_adjacency _ _ HL).
  rewrite <- (zsum_row 67) by auto. destruct (Nat.lt_ge_cases i 2) as [L|L].
  - assert (Hrow : nth i T [] = nth i (seed_rows 67 65 l) []).
    { rewrite <- H2, <- (firstn_skipn 2 T) at 1. rewrite app_nth1; auto. rewrite H2.
      destruct (build_shape 2 67 (fun i => match i with O => seed0 65 | _ => seed1 65 l end)). unfold seed_rows. lia. }
    rewrite Hrow. destruct i as [|[|i]]; [apply (seed_par_k 67 65 l); lia| |lia].
    rewrite (seed_row1 67 65 l) by lia. lia.
  - destruct (Hex i ltac:(lia)) as [D _]. rewrite D. apply seed_par_k; lia.
Qed.

Lemma run_main_ok v k l u : (3 <= v <= 67)%nat -> 1 <= k < Z.of_nat v -> 0 <= l < k ->
  (Z.of_nat v - k - 1) * u = k * (k - l - 1) ->
  exists lst, run_main (Z.of_nat v) k l u = Ok (map (Mat v) lst) /\ linv v (seed_rows v k l) v lst.
Proof.
  intros Hv Hk Hl He.
  destruct (Nat.eq_dec v 67) as [E67|]; [destruct (Z.eq_dec k 65) as [->|Hne]|].
  - subst v. exists []. change (Z.of_nat 67) with 67 in *. split; [apply run_67_65; lia|]. apply (linv_67_65 l u).
    unfold admissible. lia.
  - unfold run_main, assert_srg. rewrite He, Z.eqb_refl. cbn [assert_ bind].
    rewrite seed_ok by (auto; lia). cbn [bind]. apply solve_spec; auto; [apply seed_level; auto; lia|lia|]. right. split; auto.
    rewrite !seed0_cell by lia. unfold seed0.
    destruct (Z.ltb_spec (Z.of_nat 65) (k + 1)), (Z.ltb_spec (Z.of_nat 66) (k + 1)); auto; lia.
  - unfold run_main, assert_srg. rewrite He, Z.eqb_refl. cbn [assert_ bind].
    rewrite seed_ok by (auto; lia). cbn [bind]. apply solve_spec; auto; [apply seed_level; auto; lia|lia|]. left. lia.
Qed.

Theorem solve_well_formed v k l u : admissible v k l u -> (v <= 67)%nat ->
  exists ms, run_main (Z.of_nat v) k l u = Ok ms /\ NoDup ms
    /\ forall m, In m ms -> mcols m = v /\ adjacency v (mrows m) /\ firstn 2 (mrows m) = seed_rows v k l
         /\ canonical v (mrows m).
Proof.
  intros (Hv & Hk & Hl & Hu & He) Hv2. destruct (run_main_ok v k l u) as (lst & E & HI); auto.
  exists (map (Mat v) lst). split; auto. split.
  - apply FinFun.Injective_map_NoDup; [|apply (li_nd _ _ _ _ HI)]. intros a b Eab. now injection Eab.
  - intros m Hm. apply in_map_iff in Hm. destruct Hm as (N & <- & HN). cbn [mcols mrows].
    destruct (li_level _ _ _ _ HI N HN) as [HL H2]. split; auto. split; [now apply level_adjacency|]. split; auto.
    intros r j j' Hj Hj' Hc. apply (lv_canon _ _ _ HL); auto. lia.
Qed.

(** ** completeness *)
Lemma mono_sum n (h : nat -> Z) : (forall j, (j < n)%nat -> bit (h j)) ->
  (forall j j', (j < j' < n)%nat -> h j' <= h j) ->
  forall j, (j < n)%nat -> h j = if Z.of_nat j <? sumn n h then 1 else 0.
Proof.
  induction n as [|n IH]; intros Hb Hm j Hj; [lia|]. rewrite sumn_S.
  assert (Hs : 0 <= sumn n h <= Z.of_nat n).
  { split; [apply sumn_nonneg|rewrite <- (Z.mul_1_l (Z.of_nat n)), <- (sumn_const n 1); apply sumn_le];
    intros i Hi; destruct (Hb i ltac:(lia)); lia. }
  destruct (Hb n ltac:(lia)) as [En|En]; rewrite En.
  - rewrite Z.add_0_r. destruct (Nat.eq_dec j n) as [->|].
    + rewrite En. destruct (Z.ltb_spec (Z.of_nat n) (sumn n h)); lia.
    + apply IH; try lia; intros; [apply Hb|apply Hm]; lia.
  - assert (H1 : forall i, (i < n)%nat -> h i = 1).
    { intros i Hi. pose proof (Hm i n ltac:(lia)). destruct (Hb i ltac:(lia)); lia. }
    rewrite (sumn_ext n h (fun _ => 1)), sumn_const by auto.
    destruct (Z.ltb_spec (Z.of_nat j) (1 * Z.of_nat n + 1)); [|lia].
    destruct (Nat.eq_dec j n) as [->|]; [auto|apply H1; lia].
Qed.

Section canonical_srg.
  Variables (v : nat) (k l u : Z) (T : list (list Z)).
  Hypothesis HT : srg v k l u T.
  Hypothesis HC : canonical v T.
  Hypothesis Hv : (3 <= v)%nat.
  Hypothesis Hk : 1 <= k.

  Lemma cs_adj : adjacency v T.
  Proof. exact (proj1 HT). Qed.
  Lemma cs_bit i j : (i < v)%nat -> (j < v)%nat -> bit (cell T i j).
  Proof. apply cs_adj. Qed.
  Lemma cs_k : k < Z.of_nat v.
  Proof. pose proof HT as (HA & Hd & _). rewrite <- (Hd 0%nat) by lia. apply degree_range; auto; lia. Qed.
  Lemma cs_row0 j : (j < v)%nat -> cell T 0 j = seed0 k j.
  Proof.
    intros Hj. pose proof cs_k as Hkv. unfold seed0. pose proof cs_adj as (_ & _ & _ & Hd0).
    destruct (Nat.eq_dec j 0) as [->|Hne]; [rewrite Hd0 by lia; reflexivity|].
    pose proof (mono_sum (v - 1) (fun i => cell T 0 (1 + i))) as M.
    specialize (M ltac:(intros; apply cs_bit; lia)).
    specialize (M ltac:(intros a b Hab; apply HC; [lia|lia|intros i Hi; lia]) (j - 1)%nat ltac:(lia)). cbv beta in M.
    replace (1 + (j - 1))%nat with j in M by lia. rewrite M.
    pose proof HT as (_ & Hd & _). pose proof (Hd 0%nat ltac:(lia)) as Hs. unfold degree in Hs.
    rewrite (sumn_split v 1) in Hs by lia. rewrite sumn_S, sumn_0, Hd0 in Hs by lia.
    replace (sumn (v - 1) (fun i => cell T 0 (1 + i))) with k by (unfold cell in *; lia).
    destruct (Z.ltb_spec (Z.of_nat (j - 1)) k); destruct ((1 <=? Z.of_nat j) && (Z.of_nat j <? k + 1)) eqn:E; lia.
  Qed.
  Lemma cs_01 : cell T 0 1 = 1.
  Proof. rewrite cs_row0 by lia. unfold seed0. now replace ((1 <=? Z.of_nat 1) && (Z.of_nat 1 <? k + 1)) with true by lia. Qed.
  Lemma cs_10 : cell T 1 0 = 1.
  Proof. pose proof cs_adj as (_ & _ & Hs & _). rewrite Hs by lia. apply cs_01. Qed.
  Lemma cs_common01 : common v T 0 1 = l.
  Proof. pose proof HT as (_ & _ & Hc). rewrite Hc by lia. now rewrite cs_01. Qed.
  (** common neighbours of 0 and 1 are ones of row 1 in columns 2..k *)
  Lemma cs_l : l = sumn (Z.to_nat k - 1) (fun j => cell T 1 (2 + j)).
  Proof.
    pose proof cs_k as Hkv. rewrite <- cs_common01. unfold common.
    rewrite (sumn_split v (Z.to_nat (k + 1))) by lia.
    rewrite (sumn_zero (v - _)).
    2:{ intros i Hi. rewrite cs_row0 by lia. unfold seed0.
        replace (Z.of_nat (Z.to_nat (k + 1) + i) <? k + 1) with false by lia. rewrite andb_false_r. lia. }
    rewrite (sumn_split (Z.to_nat (k + 1)) 2) by lia. rewrite !sumn_S, sumn_0.
    pose proof cs_adj as (_ & _ & _ & Hd0). rewrite (Hd0 0%nat), (Hd0 1%nat) by lia.
    replace (Z.to_nat (k + 1) - 2)%nat with (Z.to_nat k - 1)%nat by lia.
    rewrite (sumn_ext (Z.to_nat k - 1) (fun i => cell T 0 (2 + i) * _) (fun j => cell T 1 (2 + j))); [lia|].
    intros i Hi. rewrite cs_row0 by lia. unfold seed0.
    replace ((1 <=? Z.of_nat (2 + i)) && (Z.of_nat (2 + i) <? k + 1)) with true by lia. lia.
  Qed.
  Lemma cs_l_range : 0 <= l < k.
  Proof.
    pose proof cs_k. rewrite cs_l. split.
    - apply sumn_nonneg. intros i Hi. destruct (cs_bit 1 (2 + i)); lia.
    - enough (sumn (Z.to_nat k - 1) (fun j => cell T 1 (2 + j)) <= sumn (Z.to_nat k - 1) (fun _ => 1)) by (rewrite sumn_const in *; lia).
      apply sumn_le. intros i Hi. destruct (cs_bit 1 (2 + i)); lia.
  Qed.
  Lemma cs_tail : k - l - 1 = sumn (v - Z.to_nat (k + 1)) (fun j => cell T 1 (Z.to_nat (k + 1) + j)).
  Proof.
    pose proof cs_k as Hkv. pose proof HT as (_ & Hd & _). pose proof (Hd 1%nat ltac:(lia)) as Hs. unfold degree in Hs.
    rewrite (sumn_split v (Z.to_nat (k + 1))) in Hs by lia. rewrite (sumn_split (Z.to_nat (k + 1)) 2) in Hs by lia.
    rewrite !sumn_S, sumn_0, cs_10 in Hs. pose proof cs_adj as (_ & _ & _ & Hd0). rewrite (Hd0 1%nat) in Hs by lia.
    replace (Z.to_nat (k + 1) - 2)%nat with (Z.to_nat k - 1)%nat in Hs by lia. pose proof cs_l as E. lia.
  Qed.
  Lemma cs_row1 j : (j < v)%nat -> cell T 1 j = seed1 k l j.
  Proof.
    intros Hj. pose proof cs_k as Hkv. pose proof cs_l_range as Hl. unfold seed1. pose proof cs_adj as (_ & _ & _ & Hd0).
    destruct (Nat.eqb_spec j 0) as [->|Hne]; [apply cs_10|].
    destruct (Nat.eq_dec j 1) as [->|Hne1].
    { rewrite Hd0 by lia. simpl. replace (k + 1 <=? 1) with false by lia. reflexivity. }
    assert (Hrow0 : forall a b, (a < v)%nat -> (b < v)%nat -> (1 <= a)%nat -> (1 <= b)%nat -> (Z.of_nat a <? k + 1) = (Z.of_nat b <? k + 1) -> cell T 0 a = cell T 0 b).
    { intros a b Hav Hbv H1 H2 E. rewrite !cs_row0 by auto. unfold seed0. rewrite E.
      replace (1 <=? Z.of_nat a) with true by lia. replace (1 <=? Z.of_nat b) with true by lia. reflexivity. }
    destruct (Z_lt_le_dec (Z.of_nat j) (k + 1)) as [Hjk|Hjk].
    - pose proof (mono_sum (Z.to_nat k - 1) (fun i => cell T 1 (2 + i))) as M.
      specialize (M ltac:(intros; apply cs_bit; lia)).
      specialize (M ltac:(intros a b Hab; apply HC; [lia|lia|intros i Hi; replace i with 0%nat by lia; apply Hrow0; lia]) (j - 2)%nat ltac:(lia)).
      cbv beta in M. replace (2 + (j - 2))%nat with j in M by lia. rewrite <- cs_l in M. rewrite M.
      destruct (Z.ltb_spec (Z.of_nat (j - 2)) l); case_if; lia.
    - pose proof (mono_sum (v - Z.to_nat (k + 1)) (fun i => cell T 1 (Z.to_nat (k + 1) + i))) as M.
      specialize (M ltac:(intros; apply cs_bit; lia)).
      specialize (M ltac:(intros a b Hab; apply HC; [lia|lia|intros i Hi; replace i with 0%nat by lia; apply Hrow0; lia]) (j - Z.to_nat (k + 1))%nat ltac:(lia)).
      cbv beta in M. replace (Z.to_nat (k + 1) + (j - Z.to_nat (k + 1)))%nat with j in M by lia. rewrite <- cs_tail in M. rewrite M.
      destruct (Z.ltb_spec (Z.of_nat (j - Z.to_nat (k + 1))) (k - l - 1)); case_if; lia.
  Qed.
  Lemma cs_firstn : firstn 2 T = seed_rows v k l.
  Proof.
    pose proof cs_adj as ((HL & Hs) & _). apply (matrix_ext 2 v).
    - split; [rewrite firstn_length; lia|]. intros row Hr. apply Hs. rewrite <- (firstn_skipn 2 T). apply in_app_iff. now left.
    - apply build_shape.
    - intros i j Hi Hj.
      assert (E : cell (firstn 2 T) i j = cell T i j).
      { unfold cell. f_equal. rewrite <- (firstn_skipn 2 T) at 2. rewrite app_nth1 by (rewrite firstn_length; lia). reflexivity. }
      rewrite E. destruct i as [|[|i]]; [| |lia].
      + rewrite seed0_cell by auto. now apply cs_row0.
      + rewrite seed1_cell by auto. now apply cs_row1.
  Qed.
  Lemma cs_level : level v v T.
  Proof.
    apply level_intro; try (apply cs_adj); try lia. intros r j j' Hr Hj Hj' He. now apply HC.
  Qed.
  Lemma cs_u : k < Z.of_nat v - 1 -> 0 <= u <= k.
  Proof.
    intros Hkv. pose proof HT as (_ & Hd & Hc).
    assert (E : cell T 0 (v - 1) = 0).
    { rewrite cs_row0 by lia. unfold seed0. replace (Z.of_nat (v - 1) <? k + 1) with false by lia. now rewrite andb_false_r. }
    specialize (Hc 0%nat (v - 1)%nat ltac:(lia) ltac:(lia) ltac:(lia)). rewrite E in Hc. simpl in Hc. rewrite <- Hc. unfold common. split.
    - apply sumn_nonneg. intros i Hi. destruct (cs_bit 0 i), (cs_bit (v - 1) i); lia.
    - rewrite <- (Hd 0%nat) by lia. apply sumn_le. intros i Hi. destruct (cs_bit 0 i), (cs_bit (v - 1) i); lia.
  Qed.
  Lemma cs_equation : (Z.of_nat v - k - 1) * u = k * (k - l - 1).
  Proof. apply (srg_equation v k l u T); auto. lia. Qed.
  Lemma cs_par_u : (v <= 127)%nat -> par_u v (seed_rows v k l) = if k =? Z.of_nat v - 1 then 0 else u.
  Proof.
    intros Hv2. pose proof cs_k. pose proof cs_l_range. pose proof cs_equation as He. unfold par_u.
    rewrite seed_par_k, seed_par_l by (auto; lia). unfold np_floordiv.
    destruct (Z.eqb_spec (Z.of_nat v - k - 1) 0); destruct (Z.eqb_spec k (Z.of_nat v - 1)); try lia.
    rewrite <- He, Z.mul_comm. apply Z.div_mul. auto.
  Qed.
  Lemma cs_target : (v <= 67)%nat -> params_ok v (seed_rows v k l) /\ target v (seed_rows v k l) T.
  Proof.
    intros Hv2. pose proof cs_k as Hkv. pose proof cs_l_range as Hl. unfold params_ok. rewrite cs_par_u by lia. split.
    { destruct (Z.eqb_spec k (Z.of_nat v - 1)); [lia|]. pose proof cs_u. lia. }
    split; [apply cs_level|]. split; [apply cs_firstn|]. intros r Hr.
    rewrite seed_par_k, seed_par_l, cs_par_u by (auto; lia). pose proof HT as (_ & Hd & Hc). split.
    - rewrite (zsum_row v) by (try apply cs_adj; lia). apply Hd. lia.
    - intros i Hi. rewrite (dot_rows v) by (try apply cs_adj; lia). rewrite Hc by lia.
      destruct (cs_bit i r) as [E|E]; try lia; rewrite E; simpl; auto.
      destruct (Z.eqb_spec k (Z.of_nat v - 1)) as [Ek|]; auto. exfalso.
      (* a graph of degree v-1 is complete *)
      pose proof cs_adj as (_ & _ & _ & Hd0).
      pose proof (sumn_tight v (fun w => cell T i w) (fun w => if (w =? i)%nat then 0 else 1)) as Tg. cbv beta in Tg.
      specialize (Tg ltac:(intros w Hw; destruct (Nat.eqb_spec w i) as [->|]; [rewrite Hd0; lia|]; destruct (cs_bit i w); lia)).
      rewrite (sumn_except v i (fun _ => 1)), sumn_const in Tg by lia.
      pose proof (Hd i ltac:(lia)) as Hdi. unfold degree in Hdi. specialize (Tg ltac:(lia) r ltac:(lia)).
      destruct (Nat.eqb_spec r i); lia.
  Qed.
End canonical_srg.

Theorem solve_complete v k l u G : (3 <= v <= 67)%nat -> 1 <= k -> srg v k l u G ->
  exists ms m, run_main (Z.of_nat v) k l u = Ok ms /\ In m ms /\ mcols m = v /\ isomorphic v G (mrows m).
Proof.
  intros Hv Hk HG. destruct (canonical_exists v G (proj1 HG)) as (f & Hf & Hc).
  pose proof (relabel_srg v k l u f G Hf HG) as HT. set (T := relabel v f G) in *.
  destruct (run_main_ok v k l u) as (lst & E & HI); auto.
  { split; auto. apply (cs_k v k l u T); auto; lia. }
  { apply (cs_l_range v k l u T); auto; lia. }
  { apply (cs_equation v k l u T); auto; lia. }
  destruct (cs_target v k l u T HT Hc) as [Hp Ht]; try lia.
  pose proof (li_all _ _ _ _ HI Hp T Ht) as Hin.
  assert (ET : firstn v T = T) by (apply firstn_all2; destruct HT as (((HL & _) & _) & _); lia).
  rewrite ET in Hin. exists (map (Mat v) lst), (Mat v T). split; auto. split; [now apply in_map|]. split; auto.
  now apply relabel_isomorphic.
Qed.

(** ** soundness, as far as it goes *)
Theorem solve_weak v k l u : admissible v k l u -> (v <= 67)%nat -> u <= 127 ->
  exists ms, run_main (Z.of_nat v) k l u = Ok ms /\ forall m, In m ms ->
    (forall i, (i < v)%nat -> degree v (mrows m) i <= k)
    /\ (forall i j, (i < v)%nat -> (j < v)%nat -> i <> j -> common v (mrows m) i j <= if cell (mrows m) i j =? 1 then l else u)
    /\ degree v (mrows m) 0 = k /\ degree v (mrows m) 1 = Z.min k (l + Z.of_nat v - k)
    /\ common v (mrows m) 0 1 = l
    /\ degree v (mrows m) (v - 1) = k
    /\ (forall j, (j < v - 1)%nat -> common v (mrows m) (v - 1) j = if cell (mrows m) (v - 1) j =? 1 then l else u).
Proof.
  intros HA Hv Hu127. pose proof HA as (Hv3 & Hk & Hl & Hu & He).
  destruct (run_main_ok v k l u) as (lst & E & HI); auto. exists (map (Mat v) lst). split; auto.
  intros m Hm. apply in_map_iff in Hm. destruct Hm as (N & <- & HN). cbn [mrows].
  destruct (li_level _ _ _ _ HI N HN) as [HL H2]. pose proof (level_adjacency _ _ HL) as Hadj.
  pose proof Hadj as (Hsh & Hbit & Hsym & Hdiag).
  assert (Hpu := seed_par_u v k l u HA ltac:(lia)).
  assert (Hp : params_ok v (seed_rows v k l)).
  { unfold params_ok. rewrite Hpu. destruct (k =? Z.of_nat v - 1); lia. }
  assert (Hpk : par_k (seed_rows v k l) = k) by (apply seed_par_k; auto).
  assert (Hpl : par_l (seed_rows v k l) = l) by (apply seed_par_l; auto; lia).
  assert (Hrow : forall i, (i < 2)%nat -> nth i N [] = nth i (seed_rows v k l) []).
  { intros i Hi. rewrite <- H2, <- (firstn_skipn 2 N) at 1. rewrite app_nth1; auto. rewrite H2. destruct (build_shape 2 v (fun i => match i with O => seed0 k | _ => seed1 k l end)). unfold seed_rows. lia. }
  assert (D0 : degree v N 0 = k).
  { rewrite <- (zsum_row v) by (auto; lia). rewrite Hrow by lia. exact Hpk. }
  assert (D1 : degree v N 1 = Z.min k (l + Z.of_nat v - k)).
  { rewrite <- (zsum_row v) by (auto; lia). rewrite Hrow by lia. now apply seed_row1. }
  assert (C01 : common v N 0 1 = l).
  { rewrite <- (dot_rows v) by (auto; lia). rewrite !Hrow by lia. now apply seed_dot. }
  assert (E01 : cell N 0 1 = 1).
  { unfold cell. rewrite Hrow by lia. fold (cell (seed_rows v k l) 0 1). rewrite seed0_cell by lia. unfold seed0.
    now replace ((1 <=? Z.of_nat 1) && (Z.of_nat 1 <? k + 1)) with true by lia. }
  assert (Hb : forall r, (2 <= r < v)%nat -> degree v N r <= k /\ forall i, (i < r)%nat -> common v N i r <= if cell N i r =? 1 then l else u).
  { intros r Hr. destruct (li_below _ _ _ _ HI Hp N HN r ltac:(lia)) as [B1 B2]. rewrite Hpk, Hpl, Hpu in *.
    rewrite (zsum_row v) in B1 by (auto; lia). split; auto. intros i Hi. specialize (B2 i Hi). rewrite (dot_rows v) in B2 by (auto; lia).
    destruct (Hbit i r) as [Ec|Ec]; try lia; rewrite Ec in *; simpl in *; auto. destruct (k =? Z.of_nat v - 1); lia. }
  assert (Hlast := li_last _ _ _ _ HI Hp ltac:(lia) eq_refl N HN). rewrite Hpk, Hpl, Hpu in Hlast. destruct Hlast as [L1 L2].
  rewrite (zsum_row v) in L1 by (auto; lia).
  split; [|split; [|split; [auto|split; [auto|split; [auto|split; [auto|]]]]]].
  - intros i Hi. destruct i as [|[|i]]; [lia|lia|]. apply Hb. lia.
  - assert (G : forall i j, (i < j)%nat -> (j < v)%nat -> common v N i j <= if cell N i j =? 1 then l else u).
    { intros i j Hij Hj. destruct (Nat.eq_dec j 1) as [->|]; [|apply Hb; lia].
      assert (i = 0)%nat as -> by lia. rewrite C01, E01. simpl. lia. }
    intros i j Hi Hj Hne. destruct (Nat.lt_ge_cases i j); [now apply G|].
    rewrite common_sym, (Hsym i j) by auto. apply G; lia.
  - intros j Hj. specialize (L2 j Hj). rewrite (dot_rows v) in L2 by (auto; lia).
    rewrite common_sym, L2, (Hsym (v - 1)%nat j) by lia.
    destruct (Hbit j (v - 1)%nat) as [Ec|Ec]; try lia; rewrite Ec; simpl; auto.
    destruct (Z.eqb_spec k (Z.of_nat v - 1)) as [Ek|]; auto. exfalso.
    pose proof (sumn_tight v (fun w => cell N (v - 1) w) (fun w => if (w =? v - 1)%nat then 0 else 1)) as Tg. cbv beta in Tg.
    specialize (Tg ltac:(intros w Hw; destruct (Nat.eqb_spec w (v - 1)) as [->|]; [rewrite Hdiag; lia|]; destruct (Hbit (v - 1)%nat w); lia)).
    rewrite (sumn_except v (v - 1) (fun _ => 1)), sumn_const in Tg by lia.
    unfold degree in L1. specialize (Tg ltac:(lia) j ltac:(lia)). destruct (Nat.eqb_spec j (v - 1)); [lia|].
    rewrite (Hsym (v - 1)%nat j) in Tg by lia. lia.
Qed.

(** yielded matrices are strongly regular iff all degrees are [k]; the
    neighbours of the last vertex always have degree [k] *)
Theorem solve_sound_regular v k l u : admissible v k l u -> (v <= 67)%nat -> u <= 127 ->
  exists ms, run_main (Z.of_nat v) k l u = Ok ms /\ forall m, In m ms ->
    (forall w, (w < v)%nat -> cell (mrows m) (v - 1) w = 1 -> degree v (mrows m) w = k)
    /\ (srg v k l u (mrows m) <-> forall i, (i < v)%nat -> degree v (mrows m) i = k).
Proof.
  intros HA Hv Hu. destruct (solve_weak v k l u HA Hv Hu) as (ms & E & W).
  destruct (solve_well_formed v k l u HA Hv) as (ms' & E' & _ & F). rewrite E in E'. injection E' as <-.
  pose proof HA as (Hv3 & Hk & Hl & Hu0 & He).
  exists ms. split; auto. intros m Hm. destruct (W m Hm) as (W1 & W2 & _ & _ & _ & W3 & W4).
  destruct (F m Hm) as (_ & Hadj & _). split.
  - intros w Hw Hc. apply (exact_neighbours v k l u (mrows m) Hadj He W1 W2 (v - 1)%nat); auto; try lia.
    intros j Hj Hne. apply W4. lia.
  - split; [intros H; apply H|]. now apply regular_exact.
Qed.

(** nothing is yielded when a non-adjacent pair would need more than [k] common neighbours *)
Theorem solve_large_u v k l u : admissible v k l u -> (v <= 67)%nat -> k < u <= 127 -> k < Z.of_nat v - 1 ->
  run_main (Z.of_nat v) k l u = Ok [].
Proof.
  intros HA Hv Hu Hkv. destruct (solve_weak v k l u HA Hv ltac:(lia)) as (ms & E & W).
  destruct (solve_well_formed v k l u HA Hv) as (ms' & E' & _ & F). rewrite E in E'. injection E' as <-.
  pose proof HA as (Hv3 & Hk & Hl & Hu0 & He).
  rewrite E. destruct ms as [|m ms]; auto. exfalso. specialize (W m ltac:(now left)). destruct (F m ltac:(now left)) as (_ & Hadj & _).
  destruct W as (_ & _ & _ & _ & _ & W3 & W4). pose proof Hadj as (_ & Hbit & Hsym & Hdiag).
  assert (Hall : forall j, (j < v - 1)%nat -> cell (mrows m) (v - 1) j = 1).
  { intros j Hj. destruct (Hbit (v - 1)%nat j) as [Ec|Ec]; auto; try lia. exfalso. specialize (W4 j Hj). rewrite Ec in W4. simpl in W4.
    enough (common v (mrows m) (v - 1) j <= degree v (mrows m) (v - 1)) by lia.
    unfold common, degree. apply sumn_le. intros w Hw. destruct (Hbit (v - 1)%nat w), (Hbit j w); lia. }
  unfold degree in W3. destruct v as [|v']; [lia|]. rewrite sumn_S in W3. simpl Nat.sub in *. rewrite Nat.sub_0_r in *.
  rewrite Hdiag in W3 by lia. rewrite (sumn_ext v' _ (fun _ => 1)), sumn_const in W3 by auto. lia.
Qed.
