(** The program for every choice of its four arguments (C82). *)
From Verif Require Import Np ModelGauss Model Spec Lib BitFacts Cone ElimFacts QFacts StepFacts ForkFacts GroupFacts LevelFacts Graph SolveFacts Outside.
From Coq Require Import ZifyBool ZifyNat.

(** ** a matrix that is zero right of its second column *)
Definition flat (v : nat) (M : list (list Z)) : Prop :=
  nth 0 M [] = repeat 0 v /\ forall row, In row M -> length row = v /\ forall j, (2 <= j)%nat -> nth j row 0 = 0.

Lemma nth_zeros n j : nth j (repeat 0 n) 0 = 0.
Proof. destruct (Nat.lt_ge_cases j n); [now apply nth_repeat_lt|]. apply nth_overflow. now rewrite repeat_length. Qed.
Lemma zeros_ext x n : length x = n -> (forall j, (j < n)%nat -> nth j x 0 = 0) -> x = repeat 0 n.
Proof. intros L H. apply nth_ext0; [now rewrite repeat_length|]. intros j Hj. rewrite nth_zeros. apply H. lia. Qed.
Lemma dot_cons' a x b y : dot (a :: x) (b :: y) = a * b + dot x y.
Proof. reflexivity. Qed.
Lemma dot_zeros x : forall n, dot x (repeat 0 n) = 0.
Proof.
  induction x as [|a x IH]; intros [|n]; try reflexivity. cbn [repeat]. rewrite dot_cons', IH. lia.
Qed.
Lemma dot_zeros_l n : forall x, dot (repeat 0 n) x = 0.
Proof. induction n as [|n IH]; intros [|a x]; try reflexivity. cbn [repeat]. rewrite dot_cons', IH. lia. Qed.
Lemma zsum_zeros n : zsum (repeat 0 n) = 0.
Proof. induction n as [|n IH]; [reflexivity|]. simpl. rewrite zsum_cons, IH. lia. Qed.
Lemma map_const {A B} (f : A -> B) c (l : list A) : (forall x, In x l -> f x = c) -> map f l = repeat c (length l).
Proof. intros H. induction l as [|a l IH]; [reflexivity|]. cbn [map length repeat]. rewrite H by now left. f_equal. apply IH. intros x Hx. apply H. now right. Qed.

Lemma flat_column v M R : flat v M -> (2 <= R)%nat -> column R M = repeat 0 (length M).
Proof. intros [_ H] HR. unfold column. apply map_const. intros row Hr. now apply H. Qed.

Definition flat_question (v R : nat) : question :=
  Qst (Mat (v - R - 1) (repeat (repeat 0 (v - R - 1)) R ++ [repeat 1 (v - R - 1)])) (repeat 0 R ++ [0]) 0 (repeat 1 (v - R - 1))
    (Ans (repeat UNKNOWN (v - R - 1)) (map Z.of_nat (seq 0 (v - R - 1))) (Z.of_nat (v - R - 1))).

Lemma from_matrix_flat v R M : flat v M -> length M = R -> (2 <= R < v)%nat -> from_matrix (Mat v M) = Ok (flat_question v R).
Proof.
  intros HF HL HR. pose proof HF as [H0 HM]. unfold from_matrix, vklu. cbn [mrows mcols].
  destruct M as [|r0 [|r1 M']] eqn:EM; try (simpl in HL; lia). rewrite <- EM in *. cbn [bind].
  assert (E0 : r0 = repeat 0 v) by (rewrite EM in H0; exact H0).
  rewrite E0, zsum_zeros, dot_zeros_l. change (i8 0) with 0. replace (np_floordiv (0 * (0 - 0 - 1)) (Z.of_nat v - 0 - 1)) with 0
    by (unfold np_floordiv; destruct (_ =? 0); reflexivity).
  unfold mnrows. cbn [mrows mcols]. rewrite HL. destruct (Nat.leb_spec v R); [lia|].
  rewrite (flat_column v M R HF) by lia. rewrite HL.
  assert (EK : repeat 0 R ++ [0] = repeat 0 (R + 1)) by (rewrite repeat_app; reflexivity).
  rewrite (map_const _ 0 M) by (intros row Hr; rewrite EK, dot_zeros; reflexivity). rewrite HL.
  rewrite (map_const _ 0 (repeat 0 R)) by (intros e He; apply repeat_spec in He; subst e; reflexivity). rewrite repeat_length.
  assert (EB : map2 (fun x y => i8 (x - y)) (repeat 0 R) (repeat 0 R) = repeat 0 R).
  { clear. induction R as [|R IH]; [reflexivity|]. simpl. rewrite IH. reflexivity. }
  rewrite EB, EK, zsum_zeros. change (0 - 0) with 0.
  rewrite (map_const _ (repeat 0 (v - R - 1)) M).
  2:{ intros row Hr. destruct (HM row Hr) as [Hlen Hz]. apply zeros_ext; [rewrite skipn_length; lia|].
      intros j Hj. rewrite nth_skipn. apply Hz. lia. }
  rewrite HL, EK. replace (existsb (fun x => x <? 0) (repeat 0 (R + 1))) with false.
  2:{ symmetry. apply Bool.not_true_iff_false. intros Hex. apply existsb_exists in Hex. destruct Hex as (x & Hx & Hl). apply repeat_spec in Hx. subst x. discriminate. }
  unfold mk_question, mnrows. cbn [mrows mcols]. rewrite app_length, !repeat_length. cbn [length]. rewrite !Nat.eqb_refl. cbn [assert_ bind].
  rewrite nonneg_true by (intros x Hx; apply repeat_spec in Hx; lia). cbn [assert_ bind Z.leb Z.compare].
  rewrite nonneg_true by (intros x Hx; apply repeat_spec in Hx; lia). cbn [assert_ bind]. rewrite default_answer_ok. cbn [bind].
  unfold flat_question. now rewrite EK.
Qed.

Lemma flat_rows v R row : In row (mrows (qA (flat_question v R))) -> exists a, (a = 0 \/ a = 1) /\ row = repeat a (v - R - 1).
Proof.
  cbn [qA mrows flat_question]. rewrite in_app_iff. intros [H|[<-|[]]]; [apply repeat_spec in H|]; eauto.
Qed.
Lemma in_combine_last {A B} (x : A) (y : B) : forall l m, length l = length m -> In (x, y) (combine (l ++ [x]) (m ++ [y])).
Proof. induction l as [|a l IH]; intros [|b m] H; simpl in *; try lia; auto. Qed.
Lemma flat_fresh v R : (2 <= R < v)%nat -> (v <= 67)%nat -> fresh (v - R - 1) (flat_question v R).
Proof.
  intros HR Hv. constructor; auto.
  - intros row Hr. apply flat_rows in Hr. destruct Hr as (a & Ha & ->). split; [apply repeat_length|].
    intros x Hx. apply repeat_spec in Hx. now subst.
  - cbn [flat_question qb qA]. unfold mnrows. cbn [mrows]. rewrite !app_length, !repeat_length. reflexivity.
  - cbn [flat_question qb]. intros x Hx. apply in_app_iff in Hx. destruct Hx as [Hx|[<-|[]]]; [apply repeat_spec in Hx|]; lia.
  - cbn [flat_question qquota]. lia.
  - unfold qsys, msys. cbn [flat_question qA qb mrows qquota]. apply in_combine_last. now rewrite !repeat_length.
  - split; [lia|]. intros E. exists 0%nat, 1%nat. split; [lia|]. intros row Hr. apply flat_rows in Hr.
    destruct Hr as (a & _ & ->). rewrite E. reflexivity.
  - intros H2. cbn [flat_question qA]. unfold mnrows. cbn [mrows]. rewrite app_length, repeat_length. cbn [length].
    destruct (Nat.le_gt_cases R 63) as [?|G]; [left; lia|]. right. split; [lia|]. split; [lia|].
    destruct R; [lia|]. cbn [repeat app hd]. now rewrite !nth_zeros.
Qed.

Lemma flat_solve v R : (2 <= R < v)%nat -> (v <= 67)%nat -> solve_question (flat_question v R) = Ok [repeat 0 (v - R - 1)].
Proof.
  intros HR Hv. assert (HF := flat_fresh v R HR Hv).
  destruct (solve_question_fresh (v - R - 1) _ HF) as (xs & E & ND & H1 & H2).
  { intros i j k Hij Hk _ row Hr. apply flat_rows in Hr. destruct Hr as (a & _ & ->). rewrite !nth_repeat_lt by lia. reflexivity. }
  rewrite E. f_equal. set (C := (v - R - 1)%nat) in *.
  assert (A : forall x, In x xs -> x = repeat 0 C).
  { intros x Hx. destruct (H1 x Hx) as (Lx & Bx & _ & Hb). specialize (Hb _ _ (f_ones _ _ HF)).
    rewrite dot_const in Hb by auto. cbn [flat_question qquota] in Hb. apply zeros_ext; auto.
    intros j Hj. assert (Hn : forall y, bits y -> 0 <= zsum y /\ forall i, nth i y 0 <= zsum y).
    { clear. induction y as [|a y IH]; intros By; [split; [reflexivity|intros [|i]; reflexivity]|].
      destruct (IH ltac:(intros c Hc; apply By; now right)) as [P Q]. rewrite zsum_cons.
      assert (a = 0 \/ a = 1) by (apply By; now left). split; [lia|]. intros [|i]; cbn [nth]; [lia|]. specialize (Q i). lia. }
    destruct (Hn x Bx) as [_ N]. specialize (N j). assert (nth j x 0 = 0 \/ nth j x 0 = 1) by (apply Bx; apply nth_In; lia). lia. }
  assert (I : In (repeat 0 C) xs).
  { apply H2; [apply repeat_length|intros c Hc; apply repeat_spec in Hc; subst c; now left|..].
    - intros j j' _ _. rewrite !nth_zeros. lia.
    - intros row b Hin. rewrite dot_zeros. unfold qsys, msys in Hin. apply in_combine_r in Hin. cbn [flat_question qb] in Hin.
      apply in_app_iff in Hin. destruct Hin as [Hin|[<-|[]]]; [apply repeat_spec in Hin|]; auto. }
  destruct xs as [|x [|y xs]]; [destruct I|now rewrite (A x) by now left|].
  exfalso. inversion ND as [|? ? Hn _]. apply Hn. left. rewrite (A x), (A y) by (simpl; auto). reflexivity.
Qed.

Lemma advance_flat v R M : flat v M -> length M = R -> (2 <= R < v)%nat -> (v <= 67)%nat ->
  advance (Mat v M) = Ok [Mat v (M ++ [repeat 0 v])].
Proof.
  intros HF HL HR Hv. unfold advance, solved, mnrows. cbn [mrows mcols]. rewrite HL. destruct (Nat.eqb_spec R v); [lia|].
  cbn [negb assert_ bind]. rewrite (from_matrix_flat v R) by auto. rewrite flat_solve by auto. cbn [bind mapM].
  unfold append_row, mnrows. cbn [mrows mcols]. rewrite HL. destruct (Nat.leb_spec v R); [lia|].
  rewrite (flat_column v) by (auto; lia). rewrite HL.
  assert (E : repeat 0 R ++ [0] ++ repeat 0 (v - R - 1) = repeat 0 v).
  { change [0] with (repeat 0 1). rewrite <- !repeat_app. f_equal. lia. }
  rewrite E, repeat_length, Nat.eqb_refl. reflexivity.
Qed.
Lemma flat_next v M : flat v M -> M <> [] -> flat v (M ++ [repeat 0 v]).
Proof.
  intros [H0 HM] Hne. split.
  - destruct M; [easy|]. exact H0.
  - intros row Hr. apply in_app_iff in Hr. destruct Hr as [Hr|[<-|[]]]; auto. split; [apply repeat_length|]. intros; apply nth_zeros.
Qed.
Lemma solve_loop_flat v : (v <= 67)%nat -> forall n fuel M, flat v M -> (2 <= length M)%nat -> (length M + n = v)%nat -> (n < fuel)%nat ->
  solve_loop fuel [Mat v M] [] = Ok [Mat v (M ++ repeat (repeat 0 v) n)].
Proof.
  intros Hv. induction n as [|n IH]; intros [|fuel] M HF HL Hn Hf; try lia; cbn [solve_loop].
  - assert (E : solved (Mat v M) = true) by (unfold solved, mnrows; cbn [mrows mcols]; apply Nat.eqb_eq; lia).
    unfold lst_undone, lst_done. cbn [filter]. rewrite E. cbn [negb]. unfold advance_all. cbn [mapM bind concat repeat app].
    rewrite app_nil_r. destruct fuel; reflexivity.
  - assert (E : solved (Mat v M) = false) by (unfold solved, mnrows; cbn [mrows mcols]; apply Nat.eqb_neq; lia).
    unfold lst_undone, lst_done. cbn [filter]. rewrite E. cbn [negb]. unfold advance_all. cbn [mapM bind].
    rewrite (advance_flat v (length M)) by (auto; lia). cbn [bind concat app].
    rewrite IH; [rewrite <- app_assoc; reflexivity|apply flat_next; auto; intros ->; simpl in HL; lia|rewrite app_length; simpl; lia|rewrite app_length; simpl; lia|lia].
Qed.
Lemma solve_flat v M : (3 <= v <= 67)%nat -> flat v M -> length M = 2%nat ->
  solve (Mat v M) = Ok [Mat v (M ++ repeat (repeat 0 v) (v - 2))].
Proof.
  intros Hv HF HL. unfold solve. rewrite (advance_flat v 2) by (auto; lia). cbn [bind mcols]. unfold mnrows. cbn [mrows]. rewrite HL.
  assert (HN : flat v (M ++ [repeat 0 v])) by (apply flat_next; auto; intros ->; simpl in HL; lia).
  assert (HLn : length (M ++ [repeat 0 v]) = 3%nat) by (rewrite app_length; simpl; lia).
  unfold lst_undone, lst_done, solved, mnrows. cbn [filter mrows mcols]. rewrite HLn. destruct (Nat.eqb_spec 3 v) as [E3|N3].
  - subst v. reflexivity.
  - cbn [negb]. unfold advance_all. cbn [mapM bind]. rewrite (advance_flat v 3) by (auto; lia). cbn [bind concat app].
    rewrite (solve_loop_flat v ltac:(lia) (v - 4)).
    + rewrite <- !app_assoc. do 4 f_equal. replace (v - 2)%nat with (S (S (v - 4))) by lia. reflexivity.
    + apply flat_next; auto. intros E. rewrite E in HLn. simpl in HLn. lia.
    + rewrite app_length, HLn. simpl. lia.
    + rewrite app_length, HLn. simpl. lia.
    + lia.
Qed.

(** ** the seed for every [k] *)
Definition reach (v : nat) (k : Z) : Z := norm_idx v (k + 1) - 1.
Definition any_rows (v : nat) (K e f : Z) : list (list Z) :=
  build 2 v (fun i => match i with O => wide0 K | _ => fun j => if (j =? 0)%nat then wide0 K 1 else wide1 K e f j end).

Lemma reach_range v k : (1 <= v)%nat -> -1 <= reach v k < Z.of_nat v.
Proof. intros Hv. unfold reach, norm_idx. destruct (Z.ltb_spec (k + 1) 0); lia. Qed.
Lemma reach_small v k : (2 <= v)%nat -> reach v k < 1 -> k = 0 \/ k = -1 \/ k <= - Z.of_nat v.
Proof. intros Hv. unfold reach, norm_idx. destruct (Z.ltb_spec (k + 1) 0); lia. Qed.
Lemma seed_any v k l u : (2 <= v)%nat ->
  seed (Z.of_nat v) k l u = Ok (Mat v (any_rows v (reach v k) (norm_idx v (l + 2)) (norm_idx v (2 * k - l)))).
Proof.
  intros Hv. unfold seed. destruct (Z.ltb_spec (Z.of_nat v) 0); [lia|].
  destruct (Z.ltb_spec (Z.of_nat v) 2); [lia|]. rewrite Nat2Z.id. f_equal. f_equal.
  unfold any_rows, build. change (seq 0 2) with [0; 1]%nat. cbn [map].
  assert (N1 : norm_idx v 1 = 1) by (unfold norm_idx; simpl; lia).
  assert (N2 : norm_idx v 2 = 2) by (unfold norm_idx; simpl; lia).
  assert (E0 : slice_set 1 (k + 1) 1 (repeat 0 v) = map (wide0 (reach v k)) (seq 0 v)).
  { apply nth_ext0; [now rewrite slice_set_length, repeat_length, map_length, seq_length|].
    intros j Hj. rewrite slice_set_length, repeat_length in Hj.
    rewrite slice_set_norm by (rewrite ?repeat_length; lia). rewrite nth_zeros, repeat_length, N1.
    rewrite (nth_map_in _ _ _ 0%nat), nth_seq0 by (rewrite ?seq_length; auto). unfold wide0, reach.
    now replace (norm_idx v (k + 1) - 1 + 1) with (norm_idx v (k + 1)) by lia. }
  f_equal; [exact E0|f_equal].
  apply nth_ext0; [now rewrite set_nth_length, !slice_set_length, repeat_length, map_length, seq_length|].
  intros j Hj. rewrite set_nth_length, !slice_set_length, repeat_length in Hj.
  rewrite (nth_map_in _ _ _ 0%nat), nth_seq0 by (rewrite ?seq_length; auto).
  rewrite nth_set_nth by (rewrite !slice_set_length, repeat_length; lia).
  destruct (Nat.eqb_spec j 0) as [->|Hne].
  - rewrite E0. rewrite (nth_map_in _ _ _ 0%nat), nth_seq0 by (rewrite ?seq_length; lia).
    rewrite !slice_set_length, repeat_length. destruct (0 <? v)%nat eqn:E; [reflexivity|lia].
  - cbn [andb]. rewrite !slice_set_norm by (rewrite ?slice_set_length, ?repeat_length; lia).
    rewrite !slice_set_length, !repeat_length, !nth_zeros, N2.
    replace (k + (k - l - 1) + 1) with (2 * k - l) by lia. unfold wide1, reach.
    replace (norm_idx v (k + 1) - 1 + 1) with (norm_idx v (k + 1)) by lia.
    destruct (Nat.eqb_spec j 0); [lia|]. cbn [orb].
    destruct ((2 <=? Z.of_nat j) && (Z.of_nat j <? _)) eqn:E1; cbn [orb];
    now destruct ((norm_idx v (k + 1) <=? Z.of_nat j) && (Z.of_nat j <? norm_idx v (2 * k - l))).
Qed.
Lemma any_wide v K e f : 1 <= K -> any_rows v K e f = wide_rows v K e f.
Proof.
  intros HK. apply (matrix_ext 2 v); try apply build_shape. intros [|[|i]] j Hi Hj; [| |lia]; unfold any_rows, wide_rows; rewrite !build_cell by lia; [reflexivity|].
  unfold wide1. destruct (Nat.eqb_spec j 0) as [->|]; [|reflexivity]. unfold wide0. change (Z.of_nat 1) with 1.
  now replace (1 <? K + 1) with true by lia.
Qed.

(** ** row 0 is not zero *)
Lemma solve_wide v K e f : (3 <= v <= 67)%nat -> (v = 67%nat -> K <> 65) -> 1 <= K < Z.of_nat v ->
  exists lst, solve (Mat v (wide_rows v K e f)) = Ok (map (Mat v) lst) /\ linv v (wide_rows v K e f) v lst.
Proof.
  intros Hv H65 HK. apply solve_spec; auto; [apply wide_level; lia|lia|].
  destruct (Nat.eq_dec v 67) as [->|Hne]; [right|left; lia]. split; auto. specialize (H65 eq_refl).
  rewrite !wide0_cell by lia. unfold wide0.
  destruct (Z.ltb_spec (Z.of_nat 65) (K + 1)), (Z.ltb_spec (Z.of_nat 66) (K + 1)); auto; lia.
Qed.
Lemma wide_none_more : wide_none 33 66 && wide_none 32 66 = true.
Proof. vm_cast_no_check (eq_refl true). Qed.
(** 67 vertices and [k = -2], which stands for degree 65 *)
Lemma minus_two l u : 68 * u = - 2 * (- 2 - l - 1) ->
  solve (Mat 67 (wide_rows 67 65 (norm_idx 67 (l + 2)) (norm_idx 67 (- 4 - l)))) = Ok [].
Proof.
  intros Hu. pose proof wide_none_more as W. apply andb_true_iff in W. destruct W as [W1 W2].
  apply wide_none_ok in W1. apply wide_none_ok in W2.
  pose proof wide_none_two as W. apply andb_true_iff in W. destruct W as [_ W3]. apply wide_none_ok in W3.
  assert (R : forall l u, u = 65 * (64 - l) -> 0 <= l < 65 -> solve (Mat 67 (wide_rows 67 65 (norm_idx 67 (l + 2)) (norm_idx 67 (130 - l)))) = Ok []).
  { intros l' u' Hu' Hl'. rewrite <- (run_67_65 l' u' Hl' Hu'). symmetry. change 67 with (Z.of_nat 67) at 1. rewrite run_seed by lia. reflexivity. }
  assert (D : l <= -71 \/ l = -37 \/ l = -3 \/ l = 31 \/ 65 <= l) by lia.
  destruct D as [D|[->|[->|[->|D]]]].
  - rewrite <- (R 0 4160) by lia. do 2 f_equal.
    change (norm_idx 67 (0 + 2)) with 2. change (norm_idx 67 (130 - 0)) with 67. apply wide_same; unfold norm_idx.
    + destruct (Z.ltb_spec (l + 2) 0); lia.
    + destruct (Z.ltb_spec (- 4 - l) 0); lia.
  - rewrite <- W2. do 2 f_equal.
  - rewrite <- (R 64 0) by lia. do 2 f_equal.
  - rewrite <- W1. do 2 f_equal.
  - rewrite <- W3. do 2 f_equal. apply wide_same; unfold norm_idx.
    + destruct (Z.ltb_spec (l + 2) 0); lia.
    + destruct (Z.ltb_spec (- 4 - l) 0); lia.
Qed.

(** ** row 0 is zero *)
Lemma solve_zero v K e f : (3 <= v <= 67)%nat -> -1 <= K < 1 -> e <= Z.of_nat v -> f <= Z.of_nat v ->
  solve (Mat v (any_rows v K e f)) = Ok (if (2 <? e) || (2 <? f) then []
    else [Mat v (any_rows v K e f ++ repeat (repeat 0 v) (v - 2))]).
Proof.
  intros Hv HK He Hf. set (M := any_rows v K e f).
  assert (W0 : forall j, wide0 K j = 0) by (intros j; unfold wide0; now replace ((1 <=? Z.of_nat j) && (Z.of_nat j <? K + 1)) with false by lia).
  assert (HR0 : nth 0 M [] = repeat 0 v).
  { unfold M, any_rows. rewrite build_row by lia. rewrite (map_const _ 0) by (intros; apply W0). now rewrite seq_length. }
  assert (HR1 : nth 1 M [] = map (fun j => if (j =? 0)%nat then 0 else wide1 K e f j) (seq 0 v)).
  { unfold M, any_rows. rewrite build_row by lia. now rewrite W0. }
  assert (HM : M = [repeat 0 v; map (fun j => if (j =? 0)%nat then 0 else wide1 K e f j) (seq 0 v)]).
  { rewrite <- HR0, <- HR1. reflexivity. }
  destruct ((2 <? e) || (2 <? f)) eqn:E.
  - unfold solve, advance, solved, mnrows. cbn [mrows mcols].
    assert (HL : length M = 2%nat) by now rewrite HM. rewrite HL. destruct (Nat.eqb_spec 2 v); [lia|]. cbn [negb assert_ bind].
    assert (EN : from_matrix (Mat v M) = NoSolution); [|now rewrite EN; cbn [bind lst_undone lst_done filter advance_all mapM concat]; destruct (v - 2)%nat].
    unfold from_matrix, vklu, mnrows. cbn [mrows mcols]. rewrite HL, HM. cbn [bind]. destruct (Nat.leb_spec v 2); [lia|].
    rewrite zsum_zeros, dot_zeros_l. match goal with |- context [existsb ?p ?b] => assert (EX : existsb p b = true) end; [|now rewrite EX].
    apply existsb_exists. exists (-1). split; [|reflexivity]. apply in_app_iff. right. left. unfold column. cbn [map app].
    rewrite nth_zeros, (nth_map_in _ _ _ 0%nat), nth_seq0 by (rewrite ?seq_length; lia). cbn [Nat.eqb]. unfold wide1. cbn [Nat.eqb orb].
    change (Z.of_nat 2) with 2. replace ((2 <=? 2) && (2 <? e) || (K + 1 <=? 2) && (2 <? f)) with true by lia. reflexivity.
  - apply solve_flat; auto. split; auto. rewrite HM. intros row [<-|[<-|[]]]; split.
    + apply repeat_length.
    + intros; apply nth_zeros.
    + now rewrite map_length, seq_length.
    + intros j Hj. destruct (Nat.lt_ge_cases j v) as [L|L]; [|now rewrite nth_overflow by (rewrite map_length, seq_length; auto)].
      rewrite (nth_map_in _ _ _ 0%nat), nth_seq0 by (rewrite ?seq_length; lia). unfold wide1.
      destruct (Nat.eqb_spec j 0); [lia|]. cbn [orb].
      now replace ((2 <=? Z.of_nat j) && (Z.of_nat j <? e) || (K + 1 <=? Z.of_nat j) && (Z.of_nat j <? f)) with false by lia.
Qed.

(** ** together *)
(** no edge, but possibly a loop at vertex 1 *)
Definition one_loop (v : nat) (M : list (list Z)) : Prop :=
  shape v v M /\ forall i j, (i < v)%nat -> (j < v)%nat -> cell M i j = if (i =? 1)%nat && (j =? 1)%nat then 1 else 0.

Theorem any_arguments_proof v k l u : (3 <= v <= 67)%nat -> (Z.of_nat v - k - 1) * u = k * (k - l - 1) ->
  exists ms, run_main (Z.of_nat v) k l u = Ok ms /\ NoDup ms
    /\ forall m, In m ms -> mcols m = v /\ seed (Z.of_nat v) k l u = Ok (Mat v (firstn 2 (mrows m)))
         /\ (adjacency v (mrows m) /\ canonical v (mrows m)
             \/ (k = 0 \/ k = -1 \/ k <= - Z.of_nat v) /\ one_loop v (mrows m)).
Proof.
  intros Hv He. set (e := norm_idx v (l + 2)). set (f := norm_idx v (2 * k - l)). set (K := reach v k).
  assert (HS : seed (Z.of_nat v) k l u = Ok (Mat v (any_rows v K e f))) by (apply seed_any; lia).
  assert (HK := reach_range v k ltac:(lia)). fold K in HK.
  assert (He' : e <= Z.of_nat v) by (unfold e, norm_idx; destruct (Z.ltb_spec (l + 2) 0); lia).
  assert (Hf' : f <= Z.of_nat v) by (unfold f, norm_idx; destruct (Z.ltb_spec (2 * k - l) 0); lia).
  assert (ER : run_main (Z.of_nat v) k l u = solve (Mat v (any_rows v K e f))).
  { unfold run_main, assert_srg. rewrite He, Z.eqb_refl. cbn [assert_ bind]. now rewrite HS. }
  destruct (Z.lt_ge_cases K 1) as [L|L].
  - rewrite ER, solve_zero by (auto; lia). destruct ((2 <? e) || (2 <? f)) eqn:E.
    { exists []. split; [reflexivity|]. split; [constructor|easy]. }
    eexists. split; [reflexivity|]. split; [repeat constructor; easy|]. intros m [<-|[]]. cbn [mcols mrows]. split; auto. split.
    { rewrite HS. reflexivity. }
    set (M := any_rows v K e f ++ repeat (repeat 0 v) (v - 2)).
    assert (HSh : shape v v M).
    { destruct (build_shape 2 v (fun i => match i with O => wide0 K | _ => fun j => if (j =? 0)%nat then wide0 K 1 else wide1 K e f j end)) as [HL HR].
      fold (any_rows v K e f) in HL, HR. split; [unfold M; rewrite app_length, HL, repeat_length; lia|].
      intros row Hr. apply in_app_iff in Hr. destruct Hr as [Hr|Hr]; [auto|apply repeat_spec in Hr; subst row; apply repeat_length]. }
    assert (HC : forall i j, (i < v)%nat -> (j < v)%nat -> cell M i j = if (i =? 1)%nat && (j =? 1)%nat then wide1 K e f 1 else 0).
    { assert (W0 : forall j, wide0 K j = 0) by (intros j; unfold wide0; now replace ((1 <=? Z.of_nat j) && (Z.of_nat j <? K + 1)) with false by lia).
      intros i j Hi Hj. unfold cell, M. destruct (Nat.lt_ge_cases i 2) as [G|G].
      - rewrite app_nth1 by (unfold any_rows, build; now rewrite map_length, seq_length). fold (cell (any_rows v K e f) i j).
        unfold any_rows. rewrite build_cell by lia. destruct i as [|[|i]]; [apply W0| |lia]. cbn [Nat.eqb andb].
        destruct (Nat.eqb_spec j 0) as [->|J0]; [apply W0|]. destruct (Nat.eqb_spec j 1) as [->|J1]; [reflexivity|].
        unfold wide1. destruct (Nat.eqb_spec j 0); [lia|]. cbn [orb].
        now replace ((2 <=? Z.of_nat j) && (Z.of_nat j <? e) || (K + 1 <=? Z.of_nat j) && (Z.of_nat j <? f)) with false by lia.
      - rewrite app_nth2 by (unfold any_rows, build; rewrite map_length, seq_length; auto).
        rewrite nth_repeat_lt by (unfold any_rows, build; rewrite map_length, seq_length; lia). rewrite nth_zeros.
        destruct (Nat.eqb_spec i 1); [lia|reflexivity]. }
    assert (W1 : wide1 K e f 1 = 0 \/ wide1 K e f 1 = 1) by (unfold wide1; case_if; auto). destruct W1 as [W1|W1]; rewrite W1 in HC.
    + left. assert (HZ : forall i j, (i < v)%nat -> (j < v)%nat -> cell M i j = 0) by (intros i j Hi Hj; rewrite HC by auto; now destruct (_ && _)). split.
      * split; auto. split; [|split]; intros; rewrite ?HZ by auto; auto. now left.
      * intros r j j' Hj Hj' _. fold (cell M r j) (cell M r j'). rewrite !HZ by lia. lia.
    + right. split; [apply reach_small; [lia|exact L]|]. split; auto.
  - rewrite any_wide in * by auto.
    assert (D : (v = 67%nat /\ K = 65) \/ (v = 67%nat -> K <> 65)) by lia. destruct D as [[Ev EK]|D].
    + assert (Ek : k = 65 \/ k = -2) by (unfold K, reach, norm_idx in EK; destruct (Z.ltb_spec (k + 1) 0); lia).
      exists []. split; [|split; [constructor|easy]]. subst v. destruct Ek as [->| ->].
      * apply wide_67_65. lia.
      * rewrite ER, EK. apply (minus_two l u). lia.
    + destruct (solve_wide v K e f Hv D ltac:(lia)) as (lst & E & HI). rewrite ER. exists (map (Mat v) lst). split; auto. split.
      * apply FinFun.Injective_map_NoDup; [|apply (li_nd _ _ _ _ HI)]. intros a b Eab. now injection Eab.
      * intros m Hm. apply in_map_iff in Hm. destruct Hm as (N & <- & HN). cbn [mcols mrows].
        destruct (li_level _ _ _ _ HI N HN) as [HL H2]. split; auto. rewrite H2. split; auto. left. split; [now apply level_adjacency|].
        intros r j j' Hj Hj' Hc. apply (lv_canon _ _ _ HL); auto. lia.
Qed.
Theorem outcome_any_proof v k l u : v <= 67 ->
  if (v - k - 1) * u =? k * (k - l - 1) then
    if v <? 3 then run_main v k l u = Raise (if v <? 0 then ValueError else if v <? 2 then IndexError else AssertionError)
    else exists ms, run_main v k l u = Ok ms
  else run_main v k l u = Raise AssertionError.
Proof.
  intros Hv. destruct (Z.eqb_spec ((v - k - 1) * u) (k * (k - l - 1))) as [E|E].
  - destruct (Z.ltb_spec v 3).
    + rewrite few_vertices_proof by auto. now rewrite E, Z.eqb_refl.
    + destruct (any_arguments_proof (Z.to_nat v) k l u) as (ms & R & _); [lia|now rewrite Z2Nat.id by lia|].
      rewrite Z2Nat.id in R by lia. eauto.
  - unfold run_main, assert_srg. destruct (Z.eqb_spec ((v - k - 1) * u) (k * (k - l - 1))); [contradiction|reflexivity].
Qed.
