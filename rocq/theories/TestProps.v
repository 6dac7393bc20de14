(** The tests of tests/test_database.py. *)
From Coq Require Import QArith Qabs Lqa.
From Verif Require Import Np ModelUtil ModelFloat ModelTests Lib Spec AlgSpec FloatSpec TestSpec Graph UtilProps Spectrum DbProps ModelDb Database FloatFacts FloatProps FloatDet MaxFacts Witness.
Local Open Scope Z_scope.

(** ** int8 *)
Lemma i8_mod z : i8 z = (z + 128) mod 256 - 128.
Proof.
  unfold i8, wrap. change (2 * 128) with 256. change (- (128)) with (-128). destruct (Z.leb_spec (-128) z), (Z.ltb_spec z 128); cbn [andb]; try reflexivity.
  rewrite Z.mod_small by lia. lia.
Qed.
Lemma i8_cong z : exists q, i8 z = z + 256 * q.
Proof. rewrite i8_mod. exists (- ((z + 128) / 256)). pose proof (Z.div_mod (z + 128) 256 ltac:(lia)). lia. Qed.
Lemma i8_same a q : i8 (a + 256 * q) = i8 a.
Proof. rewrite !i8_mod. replace (a + 256 * q + 128) with (a + 128 + q * 256) by ring. now rewrite Z.mod_add by lia. Qed.
Lemma i8_eq a b : i8 a = i8 b -> -256 < a - b < 256 -> a = b.
Proof. intros E H. destruct (i8_cong a) as (p & Hp), (i8_cong b) as (q & Hq). lia. Qed.
Lemma i8_sub a b : i8 (i8 a - i8 b) = i8 (a - b).
Proof. destruct (i8_cong a) as (p & ->), (i8_cong b) as (q & ->). replace (a + 256 * p - (b + 256 * q)) with (a - b + 256 * (p - q)) by ring. apply i8_same. Qed.
Lemma i8_add a b : i8 (i8 a + i8 b) = i8 (a + b).
Proof. destruct (i8_cong a) as (p & ->), (i8_cong b) as (q & ->). replace (a + 256 * p + (b + 256 * q)) with (a + b + 256 * (p + q)) by ring. apply i8_same. Qed.

(** ** cells *)
Lemma mat_ext v A B : shape v v A -> shape v v B -> (A = B <-> forall i j, (i < v)%nat -> (j < v)%nat -> cell A i j = cell B i j).
Proof.
  intros [LA RA] [LB RB]. split; [now intros ->|]. intros H. apply (nth_ext _ _ [] []); [lia|]. intros i Hi.
  assert (Ra : length (nth i A []) = v) by (apply RA, nth_In; lia). assert (Rb : length (nth i B []) = v) by (apply RB, nth_In; lia).
  apply (nth_ext _ _ 0 0); [lia|]. intros j Hj. apply H; lia.
Qed.
Lemma rows_equal_iff A B : rows_equal A B = true <-> A = B.
Proof. apply list_eqb_spec. apply list_eqb_spec, Z.eqb_eq. Qed.
Lemma table_shape v (f : nat -> nat -> Z) : shape v v (map (fun i => map (f i) (seq 0 v)) (seq 0 v)).
Proof.
  split; [now rewrite map_length, seq_length|]. intros row H. apply in_map_iff in H as (i & <- & _). now rewrite map_length, seq_length.
Qed.
Lemma table_cell v (f : nat -> nat -> Z) i j : (i < v)%nat -> (j < v)%nat -> cell (map (fun i => map (f i) (seq 0 v)) (seq 0 v)) i j = f i j.
Proof.
  intros Hi Hj. unfold cell. rewrite (nth_indep _ [] (map (f 0%nat) (seq 0 v))) by (rewrite map_length, seq_length; lia).
  rewrite (map_nth (fun i => map (f i) (seq 0 v))), seq_nth by lia.
  rewrite (nth_indep _ 0 (f i 0%nat)) by (rewrite map_length, seq_length; lia). rewrite (map_nth (f (0 + i)%nat)), seq_nth by lia. reflexivity.
Qed.
Lemma table_of v M : shape v v M -> M = map (fun i => map (cell M i) (seq 0 v)) (seq 0 v).
Proof. intros H. apply (mat_ext v); [auto|apply table_shape|]. intros i j Hi Hj. now rewrite table_cell. Qed.
Lemma map2_map {A B C D} (g : B -> C -> D) (f : A -> B) (h : A -> C) l : map2 g (map f l) (map h l) = map (fun x => g (f x) (h x)) l.
Proof. induction l as [|x l IH]; [reflexivity|]. cbn [map map2]. now rewrite IH. Qed.

Definition table (v : nat) (f : nat -> nat -> Z) : list (list Z) := map (fun i => map (f i) (seq 0 v)) (seq 0 v).
Lemma table_ext v f g : (forall i j, (i < v)%nat -> (j < v)%nat -> f i j = g i j) -> table v f = table v g.
Proof. intros H. apply (mat_ext v); try apply table_shape. intros i j Hi Hj. unfold table. rewrite !table_cell by auto. auto. Qed.
Lemma table_eq v f g : table v f = table v g <-> forall i j, (i < v)%nat -> (j < v)%nat -> f i j = g i j.
Proof.
  unfold table. rewrite (mat_ext v) by apply table_shape. split; intros H i j Hi Hj; specialize (H i j Hi Hj); now rewrite !table_cell in * by auto.
Qed.
Lemma scale_table b v f c : np_scale c (b, table v f)
  = (b && (-128 <=? c) && (c <=? 127), table v (fun i j => narrow (b && (-128 <=? c) && (c <=? 127)) (c * f i j)))%bool.
Proof. unfold np_scale, table. cbn [fst snd]. f_equal. rewrite map_map. apply map_ext. intros i. now rewrite map_map. Qed.
Lemma bin_table op b b' v f g : np_bin op (b, table v f) (b', table v g) = ((b && b')%bool, table v (fun i j => narrow (b && b') (op (f i j) (g i j)))).
Proof. unfold np_bin, table. cbn [fst snd]. f_equal. rewrite map2_map. apply map_ext. intros i. now rewrite map2_map. Qed.
Lemma matmul_table b b' v f g : np_matmul (b, table v f) (b', table v g)
  = ((b && b')%bool, table v (fun i j => narrow (b && b') (sumn v (fun w => f i w * g w j)))).
Proof.
  unfold np_matmul, table. cbn [fst snd]. f_equal. rewrite map_map. apply map_ext_in. intros i Hi. rewrite map_length, seq_length.
  apply map_ext_in. intros j Hj. apply in_seq in Hi, Hj. f_equal. rewrite map_map.
  transitivity (dot (map (f i) (seq 0 v)) (map (fun w => g w j) (seq 0 v))); [f_equal|apply dot_map_seq].
  apply map_ext_in. intros w Hw. rewrite (nth_indep _ 0 (g w 0%nat)) by (rewrite map_length, seq_length; lia). rewrite (map_nth (g w)), seq_nth by lia. reflexivity.
Qed.
Lemma identity_table v : np_identity v = (true, table v (fun i j => if (i =? j)%nat then 1 else 0)).
Proof. reflexivity. Qed.
Lemma ones_table v : np_ones v = (true, table v (fun _ _ => 1)).
Proof.
  unfold np_ones, table. f_equal. assert (R : forall A (a : A) n s, repeat a n = map (fun _ => a) (seq s n)).
  { intros A a n. induction n as [|n IH]; intro s; [reflexivity|]. cbn. now rewrite <- IH. }
  rewrite (R _ _ v 0%nat). apply map_ext. intros _. apply R.
Qed.
Lemma const_cell v a c : -128 <= a <= 127 -> -128 <= a + c <= 127 ->
  snd (np_bin Z.add (np_scale a (np_identity v)) (np_scale c (np_ones v))) = table v (fun i j => (if (i =? j)%nat then a else 0) + c).
Proof.
  intros Ha Hac. rewrite identity_table, ones_table, !scale_table, bin_table. cbn [snd].
  replace (-128 <=? a) with true by (symmetry; apply Z.leb_le; lia). replace (a <=? 127) with true by (symmetry; apply Z.leb_le; lia). cbn [andb].
  destruct ((-128 <=? c) && (c <=? 127))%bool eqn:E; apply table_ext; intros i j _ _; cbn [narrow].
  - apply andb_true_iff in E as [E1 E2]. apply Z.leb_le in E1, E2. rewrite !i8_id; destruct (i =? j)%nat; rewrite ?i8_id; lia.
  - rewrite i8_id; destruct (i =? j)%nat; lia.
Qed.

(** ** loops of assertions *)
Lemma mapM_assert {A} (f : A -> bool) l : (exists r, mapM (fun x => assert_ (f x)) l = Ok r) <-> forall x, In x l -> f x = true.
Proof.
  induction l as [|a l IH]; cbn [mapM]; [split; [intros _ x []|eauto]|]. unfold assert_ at 1. destruct (f a) eqn:E; cbn [bind].
  - split.
    + intros (r & H) x [<-|Hx]; [auto|]. apply IH; [|auto]. destruct (mapM _ l); try discriminate. eauto.
    + intros H. destruct (proj2 IH (fun x Hx => H x (or_intror Hx))) as (r & ->). cbn [bind]. eauto.
  - split; [intros (r & H); discriminate|]. intros H. rewrite (H a) in E by now left. discriminate.
Qed.
Lemma mapM_ok {A B} (f : A -> res B) l : (exists r, mapM f l = Ok r) <-> forall x, In x l -> exists y, f x = Ok y.
Proof.
  induction l as [|a l IH]; cbn [mapM]; [split; [intros _ x []|eauto]|]. split.
  - intros (r & H). destruct (f a) as [y| |] eqn:E; try discriminate. cbn [bind] in H. intros x [<-|Hx]; [eauto|]. apply IH; [|auto].
    destruct (mapM f l); try discriminate. eauto.
  - intros H. destruct (H a ltac:(now left)) as (y & ->). cbn [bind]. destruct (proj2 IH (fun x Hx => H x (or_intror Hx))) as (r & ->). cbn [bind]. eauto.
Qed.
Lemma assert_ok b : (exists y, assert_ b = Ok y) <-> b = true.
Proof. unfold assert_. destruct b; split; eauto; [intros (y & H); discriminate|discriminate]. Qed.

(** ** test_srg_matrix_identity *)
Lemma square_bound v M : zero_one v M -> forall i j, (i < v)%nat -> (j < v)%nat -> 0 <= sumn v (fun w => cell M i w * cell M w j) <= Z.of_nat v.
Proof.
  intros [_ HB] i j Hi Hj. split.
  - apply sumn_nonneg. intros w Hw. destruct (HB i w Hi Hw) as [-> | ->], (HB w j Hw Hj) as [-> | ->]; lia.
  - rewrite <- (Z.mul_1_l (Z.of_nat v)), <- sumn_const. apply sumn_le. intros w Hw. destruct (HB i w Hi Hw) as [-> | ->], (HB w j Hw Hj) as [-> | ->]; lia.
Qed.
Lemma first_half v k l u M : (v <= 127)%nat -> zero_one v M -> 0 <= k <= 127 -> 0 <= l <= 127 -> 0 <= u <= 127 ->
  rows_equal (snd (np_bin Z.sub (np_matmul (true, M) (true, M)) (np_scale (l - u) (true, M))))
    (snd (np_bin Z.add (np_scale (k - u) (np_identity v)) (np_scale u (np_ones v)))) = true
  <-> forall i j, (i < v)%nat -> (j < v)%nat ->
     sumn v (fun w => cell M i w * cell M w j) - (l - u) * cell M i j = (if (i =? j)%nat then k - u else 0) + u.
Proof.
  intros Hv HM Hk Hl Hu. rewrite rows_equal_iff, const_cell by lia. pose proof HM as [HS HB].
  rewrite (table_of v M HS) at 1 2 3. fold (table v (cell M)). rewrite matmul_table, scale_table, bin_table. cbn [snd].
  replace (-128 <=? l - u) with true by (symmetry; apply Z.leb_le; lia). replace (l - u <=? 127) with true by (symmetry; apply Z.leb_le; lia).
  cbn [andb narrow]. rewrite table_eq. split; intros H i j Hi Hj; specialize (H i j Hi Hj).
  - rewrite i8_sub in H. pose proof (square_bound v M HM i j Hi Hj) as B. set (s := sumn v _) in *.
    set (c := (if (i =? j)%nat then k - u else 0) + u) in *. assert (C : 0 <= c <= 127) by (unfold c; destruct (i =? j)%nat; lia).
    rewrite <- (i8_id c) in H by lia. apply i8_eq in H; [auto|]. destruct (HB i j Hi Hj) as [-> | ->]; lia.
  - rewrite i8_sub, H. apply i8_id. destruct (i =? j)%nat; lia.
Qed.
Lemma second_half v k l d N : (v <= 127)%nat -> shape v v N -> 1 <= k < Z.of_nat v - 1 -> 0 <= l <= 127 ->
  rows_equal (snd (np_bin Z.sub (np_matmul (false, N) (false, N)) (np_scale d (false, N))))
    (snd (np_bin Z.add (np_scale (Z.of_nat v - k - 1 - (Z.of_nat v - 2 * k + l)) (np_identity v)) (np_scale (Z.of_nat v - 2 * k + l) (np_ones v)))) = true
  <-> forall i j, (i < v)%nat -> (j < v)%nat ->
     sumn v (fun w => cell N i w * cell N w j) - d * cell N i j = (if (i =? j)%nat then k - 1 - l else 0) + (Z.of_nat v - 2 * k + l).
Proof.
  intros Hv HS Hk Hl. rewrite rows_equal_iff, const_cell by lia.
  rewrite (table_of v N HS) at 1 2 3. fold (table v (cell N)). rewrite matmul_table, scale_table, bin_table. cbn [snd andb narrow]. rewrite table_eq.
  split; intros H i j Hi Hj; specialize (H i j Hi Hj); rewrite H; destruct (i =? j)%nat; lia.
Qed.

Lemma product_complement v (a : nat -> nat -> Z) i j : (i < v)%nat -> (j < v)%nat ->
  sumn v (fun w => (1 - a i w - (if (i =? w)%nat then 1 else 0)) * (1 - a w j - (if (w =? j)%nat then 1 else 0)))
  = Z.of_nat v - 2 - sumn v (a i) - sumn v (fun w => a w j) + sumn v (fun w => a i w * a w j) + 2 * a i j + (if (i =? j)%nat then 1 else 0).
Proof.
  intros Hi Hj.
  assert (E : forall w, (w < v)%nat -> (1 - a i w - (if (i =? w)%nat then 1 else 0)) * (1 - a w j - (if (w =? j)%nat then 1 else 0))
    = (1 - a i w - a w j + a i w * a w j) - (if (w =? i)%nat then 1 - a w j else 0) - (if (w =? j)%nat then (1 - a i w - (if (i =? w)%nat then 1 else 0)) else 0)).
  { intros w Hw. rewrite (Nat.eqb_sym i w). destruct (w =? i)%nat, (w =? j)%nat; ring. }
  rewrite (sumn_ext v _ _ E). rewrite !sumn_minus, sumn_plus, !sumn_minus, sumn_const, !sumn_delta by auto.
  destruct (i =? j)%nat; ring.
Qed.
Lemma complement_bits v M : (0 < v)%nat -> zero_one v M -> exists N, complement M = Ok N /\ shape v v N
  /\ forall i j, (i < v)%nat -> (j < v)%nat -> cell N i j = 1 - cell M i j - (if (i =? j)%nat then 1 else 0).
Proof.
  intros Hv [HS HB]. destruct (complement_cell v M Hv HS) as (N & E & HN & HC). exists N. split; [auto|]. split; [auto|].
  intros i j Hi Hj. rewrite HC by auto. destruct (HB i j Hi Hj) as [-> | ->]; reflexivity.
Qed.
Lemma identity_complement v k l u M : zero_one v M -> loopless v M -> (0 < v)%nat ->
  (forall i j, (i < v)%nat -> (j < v)%nat ->
     sumn v (fun w => cell M i w * cell M w j) - (l - u) * cell M i j = (if (i =? j)%nat then k - u else 0) + u) ->
  (forall i j, (i < v)%nat -> (j < v)%nat -> sumn v (cell M i) + sumn v (fun w => cell M w j) = 2 * k) -> srg v k l u M.
Proof.
  intros [HS HB] HL Hv HI HR.
  assert (R : forall i, (i < v)%nat -> sumn v (cell M i) = k).
  { pose (c := sumn v (fun w => cell M w 0%nat)).
    assert (Rr : forall i, (i < v)%nat -> sumn v (cell M i) = 2 * k - c) by (intros i Hi; pose proof (HR i 0%nat Hi Hv); unfold c; lia).
    assert (Rc : forall j, (j < v)%nat -> sumn v (fun w => cell M w j) = c) by (intros j Hj; pose proof (HR 0%nat j Hv Hj); rewrite (Rr 0%nat Hv) in *; lia).
    assert (T : sumn v (fun i => sumn v (cell M i)) = sumn v (fun j => sumn v (fun i => cell M i j))) by apply sumn_swap.
    rewrite (sumn_ext v _ (fun _ => 2 * k - c) Rr), (sumn_ext v _ (fun _ => c) Rc), !sumn_const in T.
    assert (C : 2 * k - c = c) by (apply Z.mul_cancel_r in T; lia). intros i Hi. rewrite Rr by auto. lia. }
  assert (SY : forall i j, (i < v)%nat -> (j < v)%nat -> cell M i j = 1 -> cell M j i = 1).
  { intros i j Hi Hj E. pose proof (HI i i Hi Hi) as D. rewrite HL, Nat.eqb_refl in D by auto.
    pose proof (sumn_tight v (fun w => cell M i w * cell M w i) (cell M i)) as T.
    specialize (T ltac:(intros w Hw; destruct (HB i w Hi Hw) as [-> | ->], (HB w i Hw Hi) as [-> | ->]; lia)).
    specialize (T ltac:(rewrite R by auto; lia) j Hj). cbv beta in T. rewrite E in T. lia. }
  assert (A : adjacency v M).
  { split; [auto|]. split; [auto|]. split; [|auto]. intros i j Hi Hj. destruct (HB i j Hi Hj) as [E|E]; [|rewrite E; symmetry; now apply SY].
    rewrite E. destruct (HB j i Hj Hi) as [F|F]; [auto|]. rewrite (SY j i) in E by auto. lia. }
  now apply srg_identity.
Qed.
Lemma identity_test_proof v k l u mats : (v <= 127)%nat -> 1 <= k < Z.of_nat v - 1 -> 0 <= l <= 127 -> 0 <= u <= 127 ->
  (forall M, In M mats -> zero_one v M /\ loopless v M) ->
  (test_srg_matrix_identity v k l u mats = Ok tt <-> forall M, In M mats -> srg v k l u M).
Proof.
  intros Hv Hk Hl Hu HM.
  set (t1 := fun M => rows_equal (snd (np_bin Z.sub (np_matmul (true, M) (true, M)) (np_scale (l - u) (true, M))))
    (snd (np_bin Z.add (np_scale (k - u) (np_identity v)) (np_scale u (np_ones v))))).
  set (d := Z.of_nat v - 2 - 2 * k + u - (Z.of_nat v - 2 * k + l)).
  set (t2 := fun N => rows_equal (snd (np_bin Z.sub (np_matmul (false, N) (false, N)) (np_scale d (false, N))))
    (snd (np_bin Z.add (np_scale (Z.of_nat v - k - 1 - (Z.of_nat v - 2 * k + l)) (np_identity v)) (np_scale (Z.of_nat v - 2 * k + l) (np_ones v))))).
  assert (T : test_srg_matrix_identity v k l u mats = (_ <- mapM (fun M => assert_ (t1 M)) mats ;; _ <- mapM (fun M => N <- complement M ;; assert_ (t2 N)) mats ;; Ok tt)) by reflexivity.
  rewrite T. clear T.
  assert (S1 : (exists r, mapM (fun M => assert_ (t1 M)) mats = Ok r) <-> forall M, In M mats -> t1 M = true) by apply mapM_assert.
  assert (S2 : (exists r, mapM (fun M => N <- complement M ;; assert_ (t2 N)) mats = Ok r) <-> forall M, In M mats -> exists N, complement M = Ok N /\ t2 N = true).
  { rewrite mapM_ok. split; intros H M Hi; specialize (H M Hi).
    - destruct H as (y & H). destruct (complement M) as [N| |]; try discriminate. cbn [bind] in H. exists N. split; [auto|]. apply assert_ok. eauto.
    - destruct H as (N & -> & E). cbn [bind]. now apply assert_ok. }
  assert (V0 : (0 < v)%nat) by lia.
  transitivity ((forall M, In M mats -> t1 M = true) /\ (forall M, In M mats -> exists N, complement M = Ok N /\ t2 N = true)).
  { rewrite <- S1, <- S2. split.
    - destruct (mapM _ mats) as [r| |]; try discriminate. cbn [bind]. destruct (mapM _ mats) as [r'| |]; try discriminate. intros _. split; eauto.
    - intros [(r & ->) (r' & E)]. cbn [bind]. rewrite E. reflexivity. }
  split.
  - intros [A B] M Hi. destruct (HM M Hi) as [HZ HL]. specialize (A M Hi). unfold t1 in A. rewrite (first_half v k l u M) in A by (auto; lia).
    destruct (B M Hi) as (N & EN & TN). destruct (complement_bits v M V0 HZ) as (N' & EN' & HS & HC).
    rewrite EN in EN'. injection EN' as <-. unfold t2 in TN. rewrite (second_half v k l d N) in TN by auto.
    apply identity_complement; auto. intros i j Hi' Hj. specialize (TN i j Hi' Hj). specialize (A i j Hi' Hj). rewrite HC in TN by auto.
    rewrite (sumn_ext v _ (fun w => (1 - cell M i w - (if (i =? w)%nat then 1 else 0)) * (1 - cell M w j - (if (w =? j)%nat then 1 else 0)))) in TN
      by (intros w Hw; now rewrite !HC by auto).
    rewrite product_complement in TN by auto. unfold d in TN. destruct (i =? j)%nat; lia.
  - intros H. split; intros M Hi; specialize (H M Hi); destruct (HM M Hi) as [HZ HL].
    + unfold t1. rewrite (first_half v k l u M) by (auto; lia). apply srg_identity; [apply H|auto].
    + destruct (complement_srg_proof v k l u M V0 H) as (_ & N & EN & HN & _). exists N. split; [auto|].
      unfold t2. rewrite (second_half v k l d N) by (auto; apply HN). intros i j Hi' Hj.
      pose proof (proj1 (srg_identity v _ _ _ N (proj1 HN)) HN i j Hi' Hj) as E. unfold d. rewrite E. destruct (i =? j)%nat; lia.
Qed.
(** the incidence matrix of the Fano plane with respect to a polarity passes *)
Definition fano : list (list Z) :=
  [[1;1;0;1;0;0;0]; [1;0;1;0;0;0;1]; [0;1;0;0;0;1;1]; [1;0;0;0;1;1;0]; [0;0;0;1;1;0;1]; [0;0;1;1;0;1;0]; [0;1;1;0;1;0;0]].
Lemma identity_test_loops_proof : test_srg_matrix_identity 7 3 1 1 [fano] = Ok tt /\ zero_one 7 fano /\ forall k l u, ~ srg 7 k l u fano.
Proof.
  split; [vm_compute; reflexivity|]. split.
  - split; [split; [reflexivity|]|].
    + intros row H. repeat destruct H as [<-|H]; try reflexivity. destruct H.
    + intros i j Hi Hj. do 7 (destruct i as [|i]; [do 7 (destruct j as [|j]; [unfold bit; cbn; lia|]); lia|]). lia.
  - intros k l u ((_ & _ & _ & HD) & _). specialize (HD 0%nat ltac:(lia)). discriminate.
Qed.

(** ** test_matrix_property *)
Lemma property_test_proof v k l u mats : (v <= 127)%nat -> (forall M, In M mats -> srg v k l u M) ->
  test_matrix_property v k l u mats = Ok tt.
Proof.
  intros Hv H. unfold test_matrix_property.
  assert (X : exists r, mapM (fun M => mapM (fun ri =>
    assert_ (vec_eqb (map (fun r => i8 (i8 (dot (firstn ri r) (map (fun r => nth ri r 0) (firstn ri M))) + i8 (dot (skipn (S ri) r) (skipn (S ri) (nth ri M []))))) (firstn ri M))
       (map (fun e => if e =? 0 then u else l) (map (fun r => nth ri r 0) (firstn ri M))))) (seq 1 (v - 2))) mats = Ok r); [|destruct X as (r & X); cbv zeta; rewrite X; reflexivity].
  apply mapM_ok. intros M HM. specialize (H M HM). apply mapM_assert. intros ri Hri. apply in_seq in Hri.
  pose proof H as (((HL & HR) & HB & HS & HD) & _ & HC).
  unfold vec_eqb. apply (list_eqb_spec Z.eqb Z.eqb_eq). rewrite map_map.
  assert (F : firstn ri M = map (fun i => nth i M []) (seq 0 ri)).
  { apply (nth_ext _ _ [] []); rewrite firstn_length, ?map_length, ?seq_length; [lia|]. intros i Hi. rewrite nth_firstn_lt by lia.
    rewrite (nth_map_in _ _ _ 0%nat) by (rewrite seq_length; lia). now rewrite seq_nth by lia. }
  assert (P : map (fun r => nth ri r 0) (firstn ri M) = map (fun j => cell M j ri) (seq 0 ri)) by (rewrite F, map_map; reflexivity).
  rewrite P, F, !map_map. apply map_ext_in. intros i Hi. apply in_seq in Hi. rewrite i8_add.
  rewrite (row_equation_proof v k l u M ri i H) by lia. fold (cell M i ri).
  assert (E : (if cell M i ri =? 1 then l else u) = (if cell M i ri =? 0 then u else l)) by (destruct (HB i ri ltac:(lia) ltac:(lia)) as [-> | ->]; reflexivity).
  rewrite <- E. apply i8_id. rewrite <- (HC i ri) by lia. unfold common.
  assert (B : 0 <= sumn v (fun w => cell M i w * cell M ri w) <= Z.of_nat v); [|lia]. split.
  - apply sumn_nonneg. intros w Hw. destruct (HB i w ltac:(lia) Hw) as [-> | ->], (HB ri w ltac:(lia) Hw) as [-> | ->]; lia.
  - rewrite <- (Z.mul_1_l (Z.of_nat v)), <- sumn_const. apply sumn_le. intros w Hw. destruct (HB i w ltac:(lia) Hw) as [-> | ->], (HB ri w ltac:(lia) Hw) as [-> | ->]; lia.
Qed.

(** ** test_determinant *)
Lemma i64_mod z : i64 z = (z + 9223372036854775808) mod 18446744073709551616 - 9223372036854775808.
Proof.
  unfold i64, wrap. change (2 * 9223372036854775808) with 18446744073709551616.
  destruct (Z.leb_spec (- (9223372036854775808)) z), (Z.ltb_spec z 9223372036854775808); cbn [andb]; try reflexivity.
  rewrite Z.mod_small by lia. lia.
Qed.
Lemma i64_cong z : exists q, i64 z = z + 18446744073709551616 * q.
Proof.
  rewrite i64_mod. exists (- ((z + 9223372036854775808) / 18446744073709551616)).
  pose proof (Z.div_mod (z + 9223372036854775808) 18446744073709551616 ltac:(lia)). lia.
Qed.
Lemma i64_same a q : i64 (a + 18446744073709551616 * q) = i64 a.
Proof. rewrite !i64_mod. replace (a + 18446744073709551616 * q + 9223372036854775808) with (a + 9223372036854775808 + q * 18446744073709551616) by ring. now rewrite Z.mod_add by lia. Qed.
Lemma i64_range z : -9223372036854775808 <= i64 z < 9223372036854775808.
Proof. rewrite i64_mod. pose proof (Z.mod_pos_bound (z + 9223372036854775808) 18446744073709551616 ltac:(lia)). lia. Qed.
Lemma fold_i64 es : forall p, fold_left (fun p e => i64 (p * e)) es (i64 p) = i64 (p * zprod es).
Proof.
  induction es as [|e es IH]; intro p; cbn [fold_left]; [cbn; now rewrite Z.mul_1_r|]. change (zprod (e :: es)) with (e * zprod es).
  rewrite Z.mul_assoc, <- IH. f_equal. destruct (i64_cong p) as (q & ->).
  replace ((p + 18446744073709551616 * q) * e) with (p * e + 18446744073709551616 * (q * e)) by ring. apply i64_same.
Qed.
Lemma rounded qs es : Forall2 (fun q e => Qabs (q - inject_Z e) < 1 # 2)%Q qs es -> map round_half_even qs = es.
Proof.
  induction 1 as [|q e qs es H _ IH]; [reflexivity|]. cbn [map]. rewrite IH. f_equal. now apply round_abs.
Qed.
Lemma determinant_test_proof rnd sqrt pow eigvals prod v k l u mats : faithful rnd -> faithful_sqrt sqrt -> 1 <= k < Z.of_nat v - 1 ->
  Z.of_nat v <= 2 ^ 20 -> conference (Z.of_nat v) k l u <> 0 ->
  (forall M, In M mats -> srg v k l u M /\ exists es, spectrum v M es /\ Forall2 (fun q e => Qabs (q - inject_Z e) < 1 # 2)%Q (eigvals M) es) ->
  mats <> [] ->
  (test_determinant rnd sqrt pow eigvals prod v k l u mats = Ok tt
   <-> exists d, determinant (Z.of_nat v) k l u = Ok d /\ - 2 ^ 63 <= d < 2 ^ 63).
Proof.
  intros F S Hk Hv Hc HM NE. destruct mats as [|M0 ms] eqn:EM; [easy|]. rewrite <- EM in *.
  assert (I0 : In M0 mats) by (rewrite EM; now left). destruct (HM M0 I0) as [G0 _].
  pose proof (determinant_proof v k l u M0 G0 Hk Hc) as DP. set (d := det v M0) in *. unfold test_determinant.
  rewrite (determinant_float_graph_proof rnd sqrt pow v k l u M0 F S G0 Hk Hv Hc). fold d. cbn [bind].
  apply Z.eqb_neq in Hc as Hc'. rewrite Hc'.
  set (t := fun M => (fold_left (fun p e => i64 (p * e)) (map round_half_even (eigvals M)) 1 =? d)).
  change (mapM _ mats) with (mapM (fun M => assert_ (t M)) mats).
  assert (T : forall M, In M mats -> t M = (i64 d =? d)).
  { intros M Hi. destruct (HM M Hi) as (HG & es & SP & CL). unfold t. rewrite (rounded _ _ CL).
    change 1 with (i64 1) at 1. rewrite fold_i64, Z.mul_1_l. rewrite <- (spectrum_det v M es SP).
    pose proof (determinant_proof v k l u M HG Hk Hc) as DM. rewrite DP in DM.
    apply (f_equal (fun x => match x with Ok z => z | _ => 0 end)) in DM. cbv beta iota in DM. now rewrite <- DM. }
  transitivity (i64 d = d).
  - split.
    + destruct (mapM _ mats) as [r| |] eqn:E; try discriminate. intros _.
      pose proof (proj1 (mapM_assert t mats) (ex_intro _ r E) M0 I0) as X. rewrite T in X by auto. now apply Z.eqb_eq.
    + intros E. destruct (proj2 (mapM_assert t mats)) as (r & ->); [|reflexivity]. intros M Hi. rewrite T by auto. now apply Z.eqb_eq.
  - change (- 2 ^ 63) with (-9223372036854775808). change (2 ^ 63) with 9223372036854775808. split.
    + intros E. exists d. split; [auto|]. rewrite <- E. apply i64_range.
    + intros (d' & E & R). rewrite DP in E. assert (d' = d) by congruence. subst d'. now apply i64_id.
Qed.
Lemma determinant_test_conference_proof rnd sqrt : faithful rnd -> faithful_sqrt sqrt -> forall pow, accurate_pow pow ->
  forall eigvals prod v k l u mats, 1 <= k < Z.of_nat v - 1 -> (v <= 29)%nat -> conference (Z.of_nat v) k l u = 0 -> mats <> [] ->
  (forall M, In M mats -> srg v k l u M /\ (Qabs (prod (eigvals M) - inject_Z (det v M)) < 1 # 2)%Q) ->
  test_determinant rnd sqrt pow eigvals prod v k l u mats = Ok tt.
Proof.
  intros F S pow P eigvals prod v k l u mats Hk Hv Hc NE HM. destruct mats as [|M0 ms] eqn:EM; [easy|]. rewrite <- EM in *.
  assert (I0 : In M0 mats) by (rewrite EM; now left). destruct (HM M0 I0) as [G0 _]. unfold test_determinant.
  rewrite (determinant_float_small_proof rnd sqrt F S pow P v k l u M0 G0 Hk Hv Hc). cbn [bind]. rewrite Hc. cbn [Z.eqb].
  set (t := fun M => round_half_even (prod (eigvals M)) =? det v M0).
  change (mapM _ mats) with (mapM (fun M => assert_ (t M)) mats).
  destruct (proj2 (mapM_assert t mats)) as (r & ->); [|reflexivity]. intros M Hi. destruct (HM M Hi) as [HG HP].
  unfold t. rewrite (round_abs _ _ HP), (det_conference v k l u M HG Hk Hc), (det_conference v k l u M0 G0 Hk Hc). apply Z.eqb_refl.
Qed.

(** ** on the shipped matrices *)
Definition entry_smallb (e : (nat * Z * Z * Z) * list (list Z)) : bool :=
  let '((v, k, l, u), ms) := e in
  (v <=? 127)%nat && (1 <=? k) && (k <? Z.of_nat v - 1) && (0 <=? l) && (l <=? 127) && (0 <=? u) && (u <=? 127)
  && (if conference (Z.of_nat v) k l u =? 0 then (v <=? 29)%nat
      else match determinant (Z.of_nat v) k l u with Ok d => (- 2 ^ 63 <=? d) && (d <? 2 ^ 63) | _ => false end).
Lemma database_small v k l u sols : get_solutions v k l u = Ok sols ->
  v = Z.of_nat (Z.to_nat v) /\ entry_smallb ((Z.to_nat v, k, l, u), []) = true.
Proof.
  assert (P : forallb (fun e => entry_smallb (fst e, [])) database = true) by (vm_compute; reflexivity).
  intros H. apply get_solutions_in in H. destruct H as (e & n & Hin & He & -> & _). rewrite forallb_forall in P.
  specialize (P e Hin). rewrite He in P. rewrite Nat2Z.id. auto.
Qed.
Lemma srg_zero_one v k l u M : srg v k l u M -> zero_one v M /\ loopless v M.
Proof. intros ((A & B & _ & D) & _). split; [split; auto|exact D]. Qed.
Lemma shipped_tests_proof v k l u sols : get_solutions v k l u = Ok sols ->
  test_matrix_property (Z.to_nat v) k l u (map mrows sols) = Ok tt /\ test_srg_matrix_identity (Z.to_nat v) k l u (map mrows sols) = Ok tt.
Proof.
  intros H. destruct (database_small v k l u sols H) as [Ev B]. unfold entry_smallb in B. rewrite !andb_true_iff in B.
  destruct B as [[[[[[[B1 B2] B3] B4] B5] B6] B7] _]. apply Nat.leb_le in B1. apply Z.leb_le in B2, B4, B5, B6, B7. apply Z.ltb_lt in B3.
  assert (G : forall M, In M (map mrows sols) -> srg (Z.to_nat v) k l u M).
  { intros M HM. apply in_map_iff in HM as (m & <- & Hm). now apply (database_sound_proof v k l u sols m). }
  split; [now apply property_test_proof|]. apply identity_test_proof; auto; try lia. intros M HM. apply (srg_zero_one _ k l u). auto.
Qed.
Lemma shipped_determinant_proof rnd sqrt pow eigvals prod v k l u sols : faithful rnd -> faithful_sqrt sqrt -> accurate_pow pow ->
  get_solutions v k l u = Ok sols ->
  (conference v k l u <> 0 -> forall m, In m sols ->
    exists es, spectrum (Z.to_nat v) (mrows m) es /\ Forall2 (fun q e => Qabs (q - inject_Z e) < 1 # 2)%Q (eigvals (mrows m)) es) ->
  (conference v k l u = 0 -> forall m, In m sols -> (Qabs (prod (eigvals (mrows m)) - inject_Z (det (Z.to_nat v) (mrows m))) < 1 # 2)%Q) ->
  sols <> [] -> test_determinant rnd sqrt pow eigvals prod (Z.to_nat v) k l u (map mrows sols) = Ok tt.
Proof.
  intros F S P H CL CF NE. destruct (database_small v k l u sols H) as [Ev B]. unfold entry_smallb in B. rewrite !andb_true_iff in B.
  destruct B as [[[[[[[B1 B2] B3] B4] B5] B6] B7] B8]. apply Nat.leb_le in B1. apply Z.leb_le in B2, B4, B5, B6, B7. apply Z.ltb_lt in B3.
  assert (NE' : map mrows sols <> []) by (destruct sols; [easy|discriminate]). rewrite <- Ev in B8.
  destruct (Z.eqb_spec (conference v k l u) 0) as [C|C].
  - apply Nat.leb_le in B8. apply (determinant_test_conference_proof rnd sqrt F S pow P); auto; [now rewrite <- Ev|].
    intros M HM. apply in_map_iff in HM as (m & <- & Hm). split; [now apply (database_sound_proof v k l u sols m)|auto].
  - apply determinant_test_proof; auto; [rewrite <- Ev; lia|now rewrite <- Ev| |].
    + intros M HM. apply in_map_iff in HM as (m & <- & Hm). split; [now apply (database_sound_proof v k l u sols m)|].
      now apply CL.
    + rewrite <- Ev. destruct (determinant v k l u) as [d| |]; try discriminate. exists d. split; [auto|].
      apply andb_true_iff in B8 as [X Y]. apply Z.leb_le in X. apply Z.ltb_lt in Y. auto.
Qed.

(** ** a graph on which [test_determinant] fails: the 7 x 7 rook's graph *)
Definition rook7 : list (list Z) := map (unpack 49)
  [279293268598848;418922587754528;488737247332368;523644577121288;541098242015748;549825074462978;554188490686593;
   283656955371584;144010321072160;74187003922448;39275345347592;21819516060164;13091601416450;8727644094593;
   283691046674496;141862568988704;70948330145808;35491210724360;17762651013636;8898371158274;4466231230593;
   283691313012800;141845789675552;70923028006928;35461647172616;17730956755460;8865611546882;4432938942593;
   283691315093568;141845658587168;70922830333968;35461416207368;17730709144068;8865355612418;4432678846593;
   283691315109824;141845657563040;70922828789648;35461414402952;17730707209604;8865353612930;4432676814593;
   283691315109951;141845657555039;70922828777583;35461414388855;17730707194491;8865353597309;4432676798718].
Lemma rook7_srg : srg 49 12 5 2 rook7.
Proof. apply packed_srgb_ok. vm_compute. reflexivity. Qed.
Lemma determinant_test_fails_proof : exists v k l u G, srg v k l u G /\ 1 <= k < Z.of_nat v - 1 /\ conference (Z.of_nat v) k l u <> 0
  /\ forall rnd sqrt pow eigvals prod, faithful rnd -> faithful_sqrt sqrt ->
     (exists es, spectrum v G es /\ Forall2 (fun q e => Qabs (q - inject_Z e) < 1 # 2)%Q (eigvals G) es) ->
     test_determinant rnd sqrt pow eigvals prod v k l u [G] <> Ok tt.
Proof.
  exists 49%nat, 12, 5, 2, rook7. split; [exact rook7_srg|]. split; [lia|]. split; [discriminate|].
  intros rnd sqrt pow eigvals prod F S CL T. apply determinant_test_proof in T; auto; try discriminate; try lia.
  - destruct T as (d & E & B). assert (H : determinant (Z.of_nat 49) 12 5 2 = Ok 201326592000000000000) by (vm_compute; reflexivity).
    rewrite H in E. apply (f_equal (fun x => match x with Ok z => z | _ => 0 end)) in E. cbv beta iota in E. subst d.
    change (2 ^ 63) with 9223372036854775808 in B. lia.
  - intros M [<-|[]]. split; [exact rook7_srg|auto].
Qed.
(** the Petersen graph meets the hypotheses *)
Definition petersen_eigvals (M : list (list Z)) : list Q := map inject_Z [3; 1; 1; 1; 1; 1; -2; -2; -2; -2].
Lemma petersen_eigvals_ok : exists es, spectrum 10 petersen es
  /\ Forall2 (fun q e => Qabs (q - inject_Z e) < 1 # 2)%Q (petersen_eigvals petersen) es.
Proof.
  destruct (eig_spectrum_proof 10 3 0 1 petersen petersen_srg ltac:(lia) ltac:(discriminate)) as (es & E & _ & SP).
  assert (H : eig (Z.of_nat 10) 3 0 1 = Ok [(3, 1); (1, 5); (-2, 4)]) by reflexivity.
  rewrite H in E. assert (es = [(3, 1); (1, 5); (-2, 4)]) by congruence. subst es.
  exists (with_multiplicity [(3, 1); (1, 5); (-2, 4)]). split; [exact SP|]. unfold petersen_eigvals. cbn.
  repeat (constructor; [reflexivity|]). constructor.
Qed.
