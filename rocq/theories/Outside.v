(** Arguments that satisfy the identity of srg/utils.py:32 but are not the
    parameters of a graph (C81, C82). *)
From Verif Require Import Np ModelGauss Model Spec Lib BitFacts Cone ElimFacts QFacts StepFacts ForkFacts GroupFacts LevelFacts Graph SolveFacts.
From Coq Require Import ZifyBool ZifyNat.

(** ** the seed for every positive [k]: slices are clipped or count from the end *)
Definition wide0 (K : Z) (j : nat) : Z := if (1 <=? Z.of_nat j) && (Z.of_nat j <? K + 1) then 1 else 0.
Definition wide1 (K e f : Z) (j : nat) : Z :=
  if (j =? 0)%nat || (2 <=? Z.of_nat j) && (Z.of_nat j <? e) || (K + 1 <=? Z.of_nat j) && (Z.of_nat j <? f) then 1 else 0.
Definition wide_rows (v : nat) (K e f : Z) : list (list Z) :=
  build 2 v (fun i => match i with O => wide0 K | _ => wide1 K e f end).
Definition clip (v : nat) (k : Z) : Z := Z.min k (Z.of_nat v - 1).

Lemma slice_set_norm lo hi x y j : (j < length y)%nat ->
  nth j (slice_set lo hi x y) 0 = if (norm_idx (length y) lo <=? Z.of_nat j) && (Z.of_nat j <? norm_idx (length y) hi) then x else nth j y 0.
Proof.
  intros Hj. unfold slice_set. rewrite (nth_map2 _ _ _ _ 0%nat 0) by (rewrite ?seq_length; auto). now rewrite nth_seq0.
Qed.
Lemma seed_wide v k l u : (2 <= v)%nat -> 1 <= k ->
  seed (Z.of_nat v) k l u = Ok (Mat v (wide_rows v (clip v k) (norm_idx v (l + 2)) (norm_idx v (2 * k - l)))).
Proof.
  intros Hv Hk. unfold seed. destruct (Z.ltb_spec (Z.of_nat v) 0); [lia|].
  destruct (Z.ltb_spec (Z.of_nat v) 2); [lia|]. rewrite Nat2Z.id. f_equal. f_equal.
  unfold wide_rows, build. change (seq 0 2) with [0; 1]%nat. cbn [map].
  assert (HZ : forall j, nth j (repeat 0 v) 0 = 0).
  { intros j. destruct (Nat.lt_ge_cases j v); [now apply nth_repeat_lt|]. apply nth_overflow. now rewrite repeat_length. }
  assert (N1 : norm_idx v 1 = 1) by (unfold norm_idx; simpl; lia).
  assert (N2 : norm_idx v 2 = 2) by (unfold norm_idx; simpl; lia).
  assert (NK : norm_idx v (k + 1) = clip v k + 1) by (unfold norm_idx, clip; destruct (Z.ltb_spec (k + 1) 0); lia).
  f_equal; [|f_equal].
  - apply nth_ext0; [now rewrite slice_set_length, repeat_length, map_length, seq_length|].
    intros j Hj. rewrite slice_set_length, repeat_length in Hj.
    rewrite slice_set_norm by (rewrite ?repeat_length; lia). rewrite HZ, repeat_length, N1, NK.
    rewrite (nth_map_in _ _ _ 0%nat), nth_seq0 by (rewrite ?seq_length; auto). reflexivity.
  - apply nth_ext0; [now rewrite set_nth_length, !slice_set_length, repeat_length, map_length, seq_length|].
    intros j Hj. rewrite set_nth_length, !slice_set_length, repeat_length in Hj.
    rewrite (nth_map_in _ _ _ 0%nat), nth_seq0 by (rewrite ?seq_length; auto).
    rewrite nth_set_nth by (rewrite !slice_set_length, repeat_length; lia).
    rewrite !slice_set_norm by (rewrite ?slice_set_length, ?repeat_length; lia).
    rewrite !slice_set_length, !repeat_length, !HZ, N1, N2, NK.
    replace (k + (k - l - 1) + 1) with (2 * k - l) by lia.
    unfold wide1. destruct (Nat.eqb_spec j 0) as [->|Hne].
    + replace ((0 <? v)%nat) with true by lia. change (Z.of_nat 1) with 1. unfold clip.
      replace (1 <? Z.min k (Z.of_nat v - 1) + 1) with true by lia. reflexivity.
    + cbn [andb orb]. destruct ((2 <=? Z.of_nat j) && (Z.of_nat j <? _)) eqn:E1.
      * cbn [orb]. now destruct ((clip v k + 1 <=? Z.of_nat j) && (Z.of_nat j <? norm_idx v (2 * k - l))).
      * cbn [orb]. reflexivity.
Qed.

Lemma wide0_cell v K e f j : (j < v)%nat -> cell (wide_rows v K e f) 0 j = wide0 K j.
Proof. intros H. unfold wide_rows. now rewrite build_cell by lia. Qed.
Lemma wide1_cell v K e f j : (j < v)%nat -> cell (wide_rows v K e f) 1 j = wide1 K e f j.
Proof. intros H. unfold wide_rows. now rewrite build_cell by lia. Qed.

Lemma wide_level v K e f : (3 <= v)%nat -> 1 <= K < Z.of_nat v -> level v 2 (wide_rows v K e f).
Proof.
  intros Hv Hk. assert (C0 := wide0_cell v K e f). assert (C1 := wide1_cell v K e f).
  apply level_intro.
  - apply build_shape.
  - lia.
  - intros i j Hi Hj. destruct i as [|[|i]]; [| |lia].
    + rewrite C0 by auto. unfold wide0. destruct (_ && _); [now right|now left].
    + rewrite C1 by auto. unfold wide1. case_if; [now right|now left].
  - assert (E : cell (wide_rows v K e f) 0 1 = cell (wide_rows v K e f) 1 0).
    { rewrite C0, C1 by lia. unfold wide0, wide1. simpl. replace (1 <? K + 1) with true by lia. reflexivity. }
    intros [|[|i]] [|[|j]]; intros; try lia; auto.
  - intros [|[|i]] Hi; [| |lia].
    + rewrite C0 by lia. reflexivity.
    + rewrite C1 by lia. unfold wide1. simpl. replace (K + 1 <=? 1) with false by lia. reflexivity.
  - intros [|[|r]] j j' Hr Hj Hj' He; [| |lia].
    + rewrite !C0 by lia. unfold wide0. destruct ((1 <=? Z.of_nat j) && (Z.of_nat j <? K + 1)) eqn:E1;
      destruct ((1 <=? Z.of_nat j') && (Z.of_nat j' <? K + 1)) eqn:E2; lia.
    + rewrite !C1 by lia. specialize (He 0%nat ltac:(lia)). rewrite !C0 in He by lia. unfold wide0 in He.
      assert (Hsame : (Z.of_nat j <? K + 1) = (Z.of_nat j' <? K + 1)).
      { destruct (Z.ltb_spec (Z.of_nat j) (K + 1)), (Z.ltb_spec (Z.of_nat j') (K + 1)); auto;
        destruct (Z.leb_spec 1 (Z.of_nat j)), (Z.leb_spec 1 (Z.of_nat j')); simpl in He; lia. }
      unfold wide1.
      destruct ((j' =? 0)%nat || (2 <=? Z.of_nat j') && (Z.of_nat j' <? e) || (K + 1 <=? Z.of_nat j') && (Z.of_nat j' <? f)) eqn:E2.
      2:{ case_if; lia. }
      match goal with |- 1 <= (if ?c then _ else _) => replace c with true by lia end. lia.
Qed.

Lemma run_main_wide v k l u : (3 <= v <= 67)%nat -> (v = 67%nat -> k <> 65) -> 1 <= k ->
  (Z.of_nat v - k - 1) * u = k * (k - l - 1) ->
  exists lst, run_main (Z.of_nat v) k l u = Ok (map (Mat v) lst)
    /\ linv v (wide_rows v (clip v k) (norm_idx v (l + 2)) (norm_idx v (2 * k - l))) v lst.
Proof.
  intros Hv H65 Hk He. unfold run_main, assert_srg. rewrite He, Z.eqb_refl. cbn [assert_ bind].
  rewrite seed_wide by (auto; lia). cbn [bind]. apply solve_spec; auto; [apply wide_level; unfold clip; lia|lia|].
  destruct (Nat.eq_dec v 67) as [->|Hne]; [right|left; lia]. split; auto. specialize (H65 eq_refl).
  rewrite !wide0_cell by lia. unfold wide0, clip.
  destruct (Z.ltb_spec (Z.of_nat 65) (Z.min k (Z.of_nat 67 - 1) + 1)), (Z.ltb_spec (Z.of_nat 66) (Z.min k (Z.of_nat 67 - 1) + 1)); auto; lia.
Qed.

(** 67 vertices of degree 65: nothing is found, whatever the second row *)
Definition wide_none (e f : Z) : bool := match solve (Mat 67 (wide_rows 67 65 e f)) with Ok [] => true | _ => false end.
Lemma wide_none_two : wide_none 66 67 && wide_none 67 66 = true.
Proof. vm_cast_no_check (eq_refl true). Qed.
Lemma wide_none_ok e f : wide_none e f = true -> solve (Mat 67 (wide_rows 67 65 e f)) = Ok [].
Proof. unfold wide_none. destruct (solve _) as [[|]| |]; try discriminate. reflexivity. Qed.
Lemma wide_same e f e' f' : Z.max 2 e = Z.max 2 e' -> Z.max 66 f = Z.max 66 f' -> wide_rows 67 65 e f = wide_rows 67 65 e' f'.
Proof.
  intros He Hf. apply (matrix_ext 2 67); try apply build_shape. intros [|[|i]] j Hi Hj; [now rewrite !wide0_cell| |lia].
  rewrite !wide1_cell by auto. unfold wide1. case_if; case_if; lia.
Qed.
Lemma run_seed v k l u : (3 <= v)%nat -> 1 <= k -> (Z.of_nat v - k - 1) * u = k * (k - l - 1) ->
  run_main (Z.of_nat v) k l u = solve (Mat v (wide_rows v (clip v k) (norm_idx v (l + 2)) (norm_idx v (2 * k - l)))).
Proof.
  intros Hv Hk He. unfold run_main, assert_srg. rewrite He, Z.eqb_refl. cbn [assert_ bind]. now rewrite seed_wide by (auto; lia).
Qed.
Lemma wide_67_65 l u : u = 65 * (64 - l) -> run_main 67 65 l u = Ok [].
Proof.
  intros Hu. pose proof wide_none_two as W. apply andb_true_iff in W. destruct W as [W1 W2].
  apply wide_none_ok in W1. apply wide_none_ok in W2.
  assert (R : forall l u, u = 65 * (64 - l) -> run_main 67 65 l u = solve (Mat 67 (wide_rows 67 65 (norm_idx 67 (l + 2)) (norm_idx 67 (130 - l))))).
  { intros l' u' Hu'. change 67 with (Z.of_nat 67) at 1. rewrite run_seed by lia. reflexivity. }
  destruct (Z.lt_ge_cases l 0) as [L|L]; [|destruct (Z.lt_ge_cases l 65) as [L2|L2]; [apply run_67_65; lia|]].
  - rewrite R by auto. replace (norm_idx 67 (130 - l)) with 67 by (unfold norm_idx; destruct (Z.ltb_spec (130 - l) 0); lia).
    set (e := norm_idx 67 (l + 2)). assert (He : 0 <= e <= 66) by (subst e; unfold norm_idx; destruct (Z.ltb_spec (l + 2) 0); lia).
    destruct (Z.eq_dec e 66) as [->|Hne]; [auto|].
    rewrite <- (run_67_65 (Z.max 0 (e - 2)) (65 * (64 - Z.max 0 (e - 2)))) by lia. rewrite R by auto. do 2 f_equal. apply wide_same.
    + unfold norm_idx. destruct (Z.ltb_spec (Z.max 0 (e - 2) + 2) 0); lia.
    + unfold norm_idx. destruct (Z.ltb_spec (130 - Z.max 0 (e - 2)) 0); lia.
  - rewrite R by auto. rewrite <- W2. do 2 f_equal. apply wide_same.
    + unfold norm_idx. destruct (Z.ltb_spec (l + 2) 0); lia.
    + unfold norm_idx. destruct (Z.ltb_spec (130 - l) 0); lia.
Qed.

(** ** no exception *)
Theorem any_positive_proof v k l u : (3 <= v <= 67)%nat -> 1 <= k -> (Z.of_nat v - k - 1) * u = k * (k - l - 1) ->
  exists ms, run_main (Z.of_nat v) k l u = Ok ms /\ NoDup ms
    /\ forall m, In m ms -> mcols m = v /\ adjacency v (mrows m) /\ canonical v (mrows m)
         /\ seed (Z.of_nat v) k l u = Ok (Mat v (firstn 2 (mrows m))).
Proof.
  intros Hv Hk He. assert (D : (v = 67%nat /\ k = 65) \/ (v = 67%nat -> k <> 65)) by lia. destruct D as [[-> ->]|D].
  { exists []. split; [apply wide_67_65; lia|]. split; [constructor|easy]. }
  destruct (run_main_wide v k l u Hv D Hk He) as (lst & E & HI).
  exists (map (Mat v) lst). split; auto. split.
  - apply FinFun.Injective_map_NoDup; [|apply (li_nd _ _ _ _ HI)]. intros a b Eab. now injection Eab.
  - intros m Hm. apply in_map_iff in Hm. destruct Hm as (N & <- & HN). cbn [mcols mrows].
    destruct (li_level _ _ _ _ HI N HN) as [HL H2]. split; auto. split; [now apply level_adjacency|]. split.
    + intros r j j' Hj Hj' Hc. apply (lv_canon _ _ _ HL); auto. lia.
    + rewrite H2. apply seed_wide; lia.
Qed.

(** ** fewer than three vertices *)
Theorem few_vertices_proof v k l u : v < 3 -> run_main v k l u =
  if (v - k - 1) * u =? k * (k - l - 1)
  then Raise (if v <? 0 then ValueError else if v <? 2 then IndexError else AssertionError) else Raise AssertionError.
Proof.
  intros Hv. unfold run_main, assert_srg. destruct (_ =? _); [cbn [assert_ bind]|reflexivity].
  unfold seed. destruct (Z.ltb_spec v 0); [reflexivity|]. destruct (Z.ltb_spec v 2); [reflexivity|].
  assert (v = 2) as -> by lia. reflexivity.
Qed.

(** ** the complete graph *)
Definition complete_graph (v : nat) : list (list Z) := build v v (fun i j => if (i =? j)%nat then 0 else 1).
Lemma full_row v N i : adjacency v N -> (i < v)%nat -> Z.of_nat v - 1 <= degree v N i ->
  forall j, (j < v)%nat -> cell N i j = if (j =? i)%nat then 0 else 1.
Proof.
  intros (Hsh & Hbit & Hsym & Hdiag) Hi Hd. apply (sumn_tight v (fun w => cell N i w) (fun w => if (w =? i)%nat then 0 else 1)).
  - intros w Hw. destruct (Nat.eqb_spec w i) as [->|]; [rewrite Hdiag by auto; lia|]. destruct (Hbit i w); auto; lia.
  - rewrite (sumn_except v i (fun _ => 1)), sumn_const by auto. unfold degree in Hd. lia.
Qed.
Lemma complete_adjacency v : adjacency v (complete_graph v).
Proof.
  split; [apply build_shape|]. unfold complete_graph. split; [|split].
  - intros i j Hi Hj. rewrite build_cell by auto. destruct (_ =? _)%nat; [now left|now right].
  - intros i j Hi Hj. rewrite !build_cell by auto. now rewrite Nat.eqb_sym.
  - intros i Hi. rewrite build_cell, Nat.eqb_refl by auto. reflexivity.
Qed.
Lemma complete_srg v : srg v (Z.of_nat v - 1) (Z.of_nat v - 2) 0 (complete_graph v).
Proof.
  assert (HA := complete_adjacency v).
  assert (C : forall i j, (i < v)%nat -> (j < v)%nat -> cell (complete_graph v) i j = if (j =? i)%nat then 0 else 1).
  { intros i j Hi Hj. unfold complete_graph. rewrite build_cell, Nat.eqb_sym by auto. reflexivity. }
  split; auto. split.
  - intros i Hi. unfold degree. rewrite (sumn_ext v _ (fun j => if (j =? i)%nat then 0 else 1)) by (intros; now apply C).
    rewrite (sumn_except v i (fun _ => 1)), sumn_const by auto. lia.
  - intros i j Hi Hj Hne. rewrite C by auto. destruct (Nat.eqb_spec j i); [lia|]. simpl. unfold common.
    rewrite (sumn_ext v _ (fun w => if (w =? i)%nat then 0 else (if (w =? j)%nat then 0 else 1))).
    2:{ intros w Hw. rewrite !C by auto. destruct (w =? i)%nat, (w =? j)%nat; lia. }
    rewrite (sumn_except v i (fun w => if (w =? j)%nat then 0 else 1)) by auto.
    rewrite (sumn_except v j (fun _ => 1)), sumn_const by auto. destruct (Nat.eqb_spec i j); lia.
Qed.

(** the search for the complete graph finds it and nothing else *)
Lemma run_complete v : (3 <= v <= 67)%nat ->
  run_main (Z.of_nat v) (Z.of_nat v - 1) (Z.of_nat v - 2) 0 = Ok [Mat v (complete_graph v)].
Proof.
  intros Hv. assert (HA : admissible v (Z.of_nat v - 1) (Z.of_nat v - 2) 0) by (unfold admissible; lia).
  destruct (solve_weak _ _ _ _ HA ltac:(lia) ltac:(lia)) as (ms & E & W).
  destruct (solve_well_formed _ _ _ _ HA ltac:(lia)) as (ms' & E' & ND & F). rewrite E in E'. injection E' as <-.
  destruct (solve_sound_regular _ _ _ _ HA ltac:(lia) ltac:(lia)) as (ms' & E' & S). rewrite E in E'. injection E' as <-.
  assert (H : forall m, In m ms -> m = Mat v (complete_graph v)).
  { intros [c N] Hm. destruct (F _ Hm) as (Hc & Hadj & _). cbn [mcols mrows] in Hc, Hadj. subst c.
    destruct (W _ Hm) as (_ & _ & _ & _ & _ & Hd & _). cbn [mrows] in Hd. destruct (S _ Hm) as [Hn _]. cbn [mrows] in Hn.
    assert (Hl := full_row v N (v - 1) Hadj ltac:(lia) ltac:(lia)).
    assert (Hall : forall w, (w < v)%nat -> degree v N w = Z.of_nat v - 1).
    { intros w Hw. destruct (Nat.eq_dec w (v - 1)) as [->|]; auto. apply Hn; auto. rewrite Hl by auto.
      destruct (Nat.eqb_spec w (v - 1)); [lia|reflexivity]. }
    f_equal. apply (matrix_ext v v); [apply Hadj|apply build_shape|]. intros i j Hi Hj.
    unfold complete_graph. rewrite build_cell by auto. rewrite (full_row v N i Hadj Hi) by (auto; rewrite Hall; auto; lia).
    now rewrite Nat.eqb_sym. }
  destruct ms as [|m ms].
  - exfalso. destruct (solve_complete v (Z.of_nat v - 1) (Z.of_nat v - 2) 0 (complete_graph v) Hv ltac:(lia) (complete_srg v)) as (ms & m & E' & Hin & _).
    rewrite E in E'. injection E' as <-. destruct Hin.
  - destruct ms as [|m' ms]; [rewrite E; do 2 f_equal; apply H; now left|].
    exfalso. inversion ND as [|a b Hn _]. apply Hn. left. rewrite (H m), (H m') by (simpl; auto). reflexivity.
Qed.

(** ** nonnegative [l], but outside the range of a graph *)
Lemma wide_row v K e f N i : firstn 2 N = wide_rows v K e f -> (i < 2)%nat -> nth i N [] = nth i (wide_rows v K e f) [].
Proof.
  intros H2 Hi. rewrite <- H2, <- (firstn_skipn 2 N) at 1. rewrite app_nth1; auto. rewrite H2.
  destruct (build_shape 2 v (fun i => match i with O => wide0 K | _ => wide1 K e f end)). unfold wide_rows. lia.
Qed.
Lemma wide_par_k v K e f : 1 <= K < Z.of_nat v -> par_k (wide_rows v K e f) = K.
Proof. exact (seed_par_k v K 0). Qed.
Lemma wide_par_l v K e f : 1 <= K < Z.of_nat v -> (v <= 127)%nat ->
  par_l (wide_rows v K e f) = Z.max 2 (Z.min e (K + 1)) - 2.
Proof.
  intros HK Hv. unfold par_l.
  assert (E : dot (nth 0 (wide_rows v K e f) []) (nth 1 (wide_rows v K e f) []) = Z.max 2 (Z.min e (K + 1)) - 2).
  { unfold wide_rows. rewrite !build_row by lia. rewrite dot_map_seq.
    rewrite (sumn_ext v _ (fun j => if (2 <=? j)%nat && (j <? Z.to_nat (Z.max 2 (Z.min e (K + 1))))%nat then 1 else 0)).
    - rewrite sumn_interval by lia. lia.
    - intros j Hj. unfold wide0, wide1.
      destruct ((1 <=? Z.of_nat j) && (Z.of_nat j <? K + 1)) eqn:E1;
      destruct ((2 <=? j)%nat && (j <? Z.to_nat (Z.max 2 (Z.min e (K + 1))))%nat) eqn:E2; try lia; case_if; lia. }
  rewrite E. apply i8_id. lia.
Qed.

(** a vertex adjacent to all others *)
Lemma wide_full v k l u : (3 <= v <= 67)%nat -> Z.of_nat v - 1 <= k -> 0 <= l < Z.of_nat v - 2 ->
  (Z.of_nat v - k - 1) * u = k * (k - l - 1) -> run_main (Z.of_nat v) k l u = Ok [].
Proof.
  intros Hv Hk Hl He. destruct (run_main_wide v k l u Hv ltac:(lia) ltac:(lia) He) as (lst & E & HI). rewrite E. clear E.
  destruct lst as [|N lst]; [reflexivity|]. exfalso.
  replace (clip v k) with (Z.of_nat v - 1) in HI by (unfold clip; lia).
  replace (norm_idx v (l + 2)) with (l + 2) in HI by (unfold norm_idx; destruct (Z.ltb_spec (l + 2) 0); lia).
  set (f := norm_idx v (2 * k - l)) in HI.
  assert (PK := wide_par_k v (Z.of_nat v - 1) (l + 2) f ltac:(lia)).
  assert (PL := wide_par_l v (Z.of_nat v - 1) (l + 2) f ltac:(lia) ltac:(lia)).
  assert (PU : par_u v (wide_rows v (Z.of_nat v - 1) (l + 2) f) = 0).
  { unfold par_u, np_floordiv. rewrite PK. now replace (Z.of_nat v - (Z.of_nat v - 1) - 1 =? 0) with true by lia. }
  destruct (li_last _ _ _ _ HI ltac:(unfold params_ok; lia) ltac:(lia) eq_refl N ltac:(now left)) as [L1 L2].
  destruct (li_level _ _ _ _ HI N ltac:(now left)) as [HL H2]. pose proof (level_adjacency _ _ HL) as Hadj.
  pose proof Hadj as (Hsh & Hbit & Hsym & Hdiag).
  rewrite PK in *. rewrite PL in *. rewrite PU in *. rewrite (zsum_row v) in L1 by (auto; lia). specialize (L2 0%nat ltac:(lia)).
  rewrite (dot_rows v) in L2 by (auto; lia).
  assert (R1 := full_row v N (v - 1) Hadj ltac:(lia) ltac:(lia)).
  assert (R0 : forall j, (j < v)%nat -> cell N 0 j = if (j =? 0)%nat then 0 else 1).
  { intros j Hj. unfold cell. rewrite (wide_row _ _ _ _ _ _ H2) by lia. fold (cell (wide_rows v (Z.of_nat v - 1) (l + 2) f) 0 j).
    rewrite wide0_cell by auto. unfold wide0. destruct (Nat.eqb_spec j 0) as [->|]; [reflexivity|].
    now replace ((1 <=? Z.of_nat j) && (Z.of_nat j <? Z.of_nat v - 1 + 1)) with true by lia. }
  rewrite (R0 (v - 1)%nat) in L2 by lia. destruct (Nat.eqb_spec (v - 1) 0); [lia|]. simpl in L2.
  unfold common in L2.
  rewrite (sumn_ext v _ (fun w => if (w =? 0)%nat then 0 else (if (w =? v - 1)%nat then 0 else 1))) in L2.
  2:{ intros w Hw. rewrite R0, R1 by lia. destruct (w =? 0)%nat, (w =? v - 1)%nat; lia. }
  rewrite (sumn_except v 0 (fun w => if (w =? v - 1)%nat then 0 else 1)) in L2 by lia.
  rewrite (sumn_except v (v - 1) (fun _ => 1)), sumn_const in L2 by lia. destruct (Nat.eqb_spec 0 (v - 1)); lia.
Qed.
Lemma wide_complete v k l u : (3 <= v <= 67)%nat -> Z.of_nat v - 1 <= k -> Z.of_nat v - 2 <= l ->
  (Z.of_nat v - k - 1) * u = k * (k - l - 1) -> run_main (Z.of_nat v) k l u = Ok [Mat v (complete_graph v)].
Proof.
  intros Hv Hk Hl He. rewrite <- run_complete by auto. unfold run_main, assert_srg. rewrite He, Z.eqb_refl.
  replace ((Z.of_nat v - (Z.of_nat v - 1) - 1) * 0 =? (Z.of_nat v - 1) * (Z.of_nat v - 1 - (Z.of_nat v - 2) - 1)) with true by lia.
  cbn [assert_ bind]. rewrite !seed_wide by lia. cbn [bind]. f_equal. f_equal.
  replace (clip v k) with (Z.of_nat v - 1) by (unfold clip; lia).
  replace (clip v (Z.of_nat v - 1)) with (Z.of_nat v - 1) by (unfold clip; lia).
  replace (norm_idx v (l + 2)) with (Z.of_nat v) by (unfold norm_idx; destruct (Z.ltb_spec (l + 2) 0); lia).
  replace (norm_idx v (Z.of_nat v - 2 + 2)) with (Z.of_nat v) by (unfold norm_idx; destruct (Z.ltb_spec (Z.of_nat v - 2 + 2) 0); lia).
  apply (matrix_ext 2 v); try apply build_shape. intros [|[|i]] j Hi Hj; [now rewrite !wide0_cell| |lia].
  rewrite !wide1_cell by auto. unfold wide1. now replace (Z.of_nat v - 1 + 1 <=? Z.of_nat j) with false by lia.
Qed.

(** more common neighbours than neighbours *)
Lemma wide_many v k l u : (3 <= v <= 67)%nat -> 1 <= k < Z.of_nat v - 1 -> k <= l ->
  (Z.of_nat v - k - 1) * u = k * (k - l - 1) -> run_main (Z.of_nat v) k l u = Ok [].
Proof.
  intros Hv Hk Hl He. assert (D67 : (v = 67%nat /\ k = 65) \/ (v = 67%nat -> k <> 65)) by lia. destruct D67 as [[-> ->]|D67]; [apply wide_67_65; lia|].
  destruct (run_main_wide v k l u Hv D67 ltac:(lia) He) as (lst & E & HI). rewrite E. clear E.
  destruct lst as [|N lst]; [reflexivity|]. exfalso.
  replace (clip v k) with k in HI by (unfold clip; lia).
  set (e := norm_idx v (l + 2)) in HI. set (f := norm_idx v (2 * k - l)) in HI.
  assert (Hel : k + 2 <= e) by (subst e; unfold norm_idx; destruct (Z.ltb_spec (l + 2) 0); lia).
  assert (PK := wide_par_k v k e f ltac:(lia)).
  assert (PL := wide_par_l v k e f ltac:(lia) ltac:(lia)).
  replace (Z.max 2 (Z.min e (k + 1)) - 2) with (k - 1) in PL by lia.
  assert (PU : par_u v (wide_rows v k e f) = 0).
  { unfold par_u, np_floordiv. rewrite PK, PL. replace (k * (k - (k - 1) - 1)) with 0 by lia. now destruct (_ =? 0). }
  destruct (li_below _ _ _ _ HI ltac:(unfold params_ok; lia) N ltac:(now left) (Z.to_nat (k + 1)) ltac:(lia)) as [_ B].
  destruct (li_level _ _ _ _ HI N ltac:(now left)) as [HL H2]. pose proof (level_adjacency _ _ HL) as Hadj.
  pose proof Hadj as (Hsh & Hbit & Hsym & Hdiag).
  specialize (B 0%nat ltac:(lia)). rewrite PL, PU, (dot_rows v) in B by (auto; lia).
  assert (R0 : forall j, (j < v)%nat -> cell N 0 j = wide0 k j).
  { intros j Hj. rewrite <- (wide0_cell v k e f) by auto. unfold cell. now rewrite (wide_row _ _ _ _ _ _ H2) by lia. }
  assert (R1 : forall j, (j < v)%nat -> cell N 1 j = wide1 k e f j).
  { intros j Hj. rewrite <- (wide1_cell v k e f) by auto. unfold cell. now rewrite (wide_row _ _ _ _ _ _ H2) by lia. }
  rewrite (R0 (Z.to_nat (k + 1))) in B by lia. unfold wide0 in B.
  replace (Z.of_nat (Z.to_nat (k + 1)) <? k + 1) with false in B by lia. rewrite andb_false_r in B. simpl in B.
  assert (P : 1 <= common v N 0 (Z.to_nat (k + 1))).
  { unfold common. pose proof (sumn_delta v 1 (fun _ => 1) ltac:(lia)) as D. cbv beta in D.
    etransitivity; [apply Z.eq_le_incl; symmetry; exact D|]. apply sumn_le. intros w Hw.
    destruct (Nat.eqb_spec w 1) as [->|].
    - rewrite R0, (Hsym (Z.to_nat (k + 1)) 1%nat), R1 by lia. unfold wide0, wide1.
      replace ((1 <=? Z.of_nat 1) && (Z.of_nat 1 <? k + 1)) with true by lia.
      match goal with |- context [if ?c then 1 else 0] => replace c with true by lia end. lia.
    - destruct (Hbit 0%nat w), (Hbit (Z.to_nat (k + 1)) w); try lia. }
  lia.
Qed.

(** ** together *)
Theorem outside_proof v k l u : (3 <= v <= 67)%nat -> 1 <= k -> 0 <= l -> (Z.of_nat v - k - 1) * u = k * (k - l - 1) ->
  admissible v k l u
  \/ run_main (Z.of_nat v) k l u = Ok (if Z.of_nat v - 2 <=? l then (if Z.of_nat v - 1 <=? k then [Mat v (complete_graph v)] else []) else []).
Proof.
  intros Hv Hk Hl He. destruct (Z.le_gt_cases (Z.of_nat v - 1) k) as [G|G].
  - right. replace (Z.of_nat v - 1 <=? k) with true by lia. destruct (Z.leb_spec (Z.of_nat v - 2) l).
    + now apply wide_complete.
    + apply wide_full; auto; lia.
  - destruct (Z.lt_ge_cases l k) as [H|H].
    + left. unfold admissible. repeat split; try lia. nia.
    + right. rewrite (wide_many v k l u) by lia. replace (Z.of_nat v - 1 <=? k) with false by lia. now destruct (_ <=? _).
Qed.
Theorem outcome_proof v k l u : v <= 67 -> 1 <= k ->
  if (v - k - 1) * u =? k * (k - l - 1) then
    if v <? 3 then run_main v k l u = Raise (if v <? 0 then ValueError else if v <? 2 then IndexError else AssertionError)
    else exists ms, run_main v k l u = Ok ms
  else run_main v k l u = Raise AssertionError.
Proof.
  intros Hv Hk. destruct (Z.eqb_spec ((v - k - 1) * u) (k * (k - l - 1))) as [E|E].
  - destruct (Z.ltb_spec v 3).
    + rewrite few_vertices_proof by auto. now rewrite E, Z.eqb_refl.
    + destruct (any_positive_proof (Z.to_nat v) k l u) as (ms & R & _); [lia|auto|now rewrite Z2Nat.id by lia|].
      rewrite Z2Nat.id in R by lia. eauto.
  - unfold run_main, assert_srg. destruct (Z.eqb_spec ((v - k - 1) * u) (k * (k - l - 1))); [contradiction|reflexivity].
Qed.

(** ** nothing of this holds for [k <= 0] or [l < 0] *)
Definition looped : list (list Z) := [[0;0;0;0;0];[0;1;0;0;0];[0;0;0;0;0];[0;0;0;0;0];[0;0;0;0;0]].
Definition square4 : list (list Z) := [[0;1;1;0];[1;0;0;1];[1;0;0;1];[0;1;1;0]].
Lemma outside_printed : run_main 5 0 (-2) 0 = Ok [Mat 5 looped] /\ run_main 4 2 (-1) 4 = Ok [Mat 4 square4]
  /\ run_main 5 5 3 (-5) = Ok [Mat 5 (complete_graph 5)].
Proof. vm_compute. auto. Qed.
Theorem outside_refuted_proof : exists v k l u m, (3 <= v <= 67)%nat /\ (Z.of_nat v - k - 1) * u = k * (k - l - 1)
  /\ ~ admissible v k l u /\ run_main (Z.of_nat v) k l u = Ok [m] /\ ~ adjacency v (mrows m).
Proof.
  exists 5%nat, 0, (-2), 0, (Mat 5 looped). split; [lia|]. split; [reflexivity|]. split; [unfold admissible; lia|].
  split; [apply outside_printed|]. intros (_ & _ & _ & H). specialize (H 1%nat ltac:(lia)). discriminate H.
Qed.
