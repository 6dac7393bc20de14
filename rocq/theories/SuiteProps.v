(** What the tests of the repository can and cannot find. *)
From Verif Require Import Np ModelGauss Model ModelDebug ModelSort ModelUtil ModelDb Database Spec SortSpec Lib Graph BitFacts ModelTests TestSpec TestProps DbProps ModelSuite SortProps SortWitness MaxFacts Levels AnyFacts.
From Coq Require Import ZifyBool ZifyNat.

(** ** test_matrix_property *)
Lemma row_sum v M r i : adjacency v M -> (i < r < v)%nat ->
  dot (firstn r (nth i M [])) (map (fun j => cell M j r) (seq 0 r))
    + dot (skipn (S r) (nth i M [])) (skipn (S r) (nth r M [])) = common v M i r.
Proof.
  intros ((HL & HR) & HB & HS & HD) Hir.
  assert (Li : length (nth i M []) = v) by (apply HR, nth_In; lia).
  assert (Lr : length (nth r M []) = v) by (apply HR, nth_In; lia).
  unfold common. rewrite (sumn_split v r) by lia. f_equal.
  - replace (firstn r (nth i M [])) with (map (fun j => cell M i j) (seq 0 r)).
    + rewrite dot_map_seq. apply sumn_ext. intros j Hj. rewrite (HS j r) by lia. reflexivity.
    + apply (nth_ext _ _ 0 0); rewrite ?firstn_length, ?map_length, ?seq_length; [lia|]. intros j Hj.
      rewrite (nth_map_in _ _ _ 0%nat) by (rewrite seq_length; lia). rewrite seq_nth by lia. now rewrite nth_firstn_lt by lia.
  - replace (v - r)%nat with (S (v - S r)) by lia. rewrite (sumn_split (S (v - S r)) 1) by lia. rewrite sumn_S, sumn_0, Nat.add_0_r.
    rewrite HD, Z.mul_0_r, !Z.add_0_l by lia. replace (S (v - S r) - 1)%nat with (v - S r)%nat by lia.
    assert (Q : forall row, length row = v -> skipn (S r) row = map (fun j => nth (S r + j) row 0) (seq 0 (v - S r))).
    { intros row Hrow. apply (nth_ext _ _ 0 0); rewrite ?skipn_length, ?map_length, ?seq_length; [lia|]. intros j Hj.
      rewrite (nth_map_in _ _ _ 0%nat) by (rewrite seq_length; lia). rewrite seq_nth by lia. now rewrite nth_skipn_add. }
    rewrite !Q by auto. rewrite dot_map_seq. apply sumn_ext. intros j Hj. unfold cell. now replace (r + (1 + j))%nat with (S r + j)%nat by lia.
Qed.
Lemma common_bound v M i j : adjacency v M -> (i < v)%nat -> (j < v)%nat -> 0 <= common v M i j <= Z.of_nat v.
Proof.
  intros (_ & HB & _) Hi Hj. unfold common. split.
  - apply sumn_nonneg. intros w Hw. destruct (HB i w Hi Hw) as [-> | ->], (HB j w Hj Hw) as [-> | ->]; lia.
  - rewrite <- (Z.mul_1_l (Z.of_nat v)), <- sumn_const. apply sumn_le. intros w Hw. destruct (HB i w Hi Hw) as [-> | ->], (HB j w Hj Hw) as [-> | ->]; lia.
Qed.
Lemma mapM_unit {A} (f : A -> res (list unit)) l : (_ <- mapM f l ;; Ok tt) = Ok tt <-> forall x, In x l -> exists y, f x = Ok y.
Proof.
  rewrite <- mapM_ok. split.
  - destruct (mapM f l); [eauto|discriminate|discriminate].
  - intros (r & ->). reflexivity.
Qed.
Lemma map_eq_iff {A B} (f g : A -> B) l : map f l = map g l <-> forall x, In x l -> f x = g x.
Proof.
  split; [|apply map_ext_in]. induction l as [|a l IH]; intros H x Hx; [easy|]. injection H as H1 H2. destruct Hx as [<-|Hx]; auto.
Qed.
Lemma property_iff_proof v k l u mats : (v <= 127)%nat -> (forall M, In M mats -> adjacency v M) ->
  (test_matrix_property v k l u mats = Ok tt <->
   forall M, In M mats -> forall i r, (i < r < v - 1)%nat -> common v M i r = if cell M i r =? 1 then l else u).
Proof.
  intros Hv HM. unfold test_matrix_property. rewrite mapM_unit.
  assert (K : forall M, In M mats -> ((exists y, mapM (fun ri =>
    let mr := firstn ri M in
    let pivot := map (fun r => nth ri r 0) mr in
    let lu := map (fun e => if e =? 0 then u else l) pivot in
    let solution := skipn (S ri) (nth ri M []) in
    assert_ (vec_eqb (map (fun r => i8 (i8 (dot (firstn ri r) pivot) + i8 (dot (skipn (S ri) r) solution))) mr) lu)) (seq 1 (v - 2)) = Ok y)
    <-> forall i r, (i < r < v - 1)%nat -> common v M i r = if cell M i r =? 1 then l else u)).
  2:{ split; intros H M Hi; specialize (H M Hi); now apply K. }
  intros M Hi. specialize (HM M Hi). pose proof HM as ((HL & HR) & HB & HS & HD). cbv zeta. rewrite mapM_assert.
  transitivity (forall r, (1 <= r < v - 1)%nat -> forall i, (i < r)%nat -> common v M i r = if cell M i r =? 1 then l else u).
  2:{ split; [|auto]; intros H; [intros i r Hir|intros r Hr i Hir]; apply H; lia. }
  assert (E : forall r, In r (seq 1 (v - 2)) <-> (1 <= r < v - 1)%nat) by (intros r; rewrite in_seq; lia).
  assert (Q : forall r, (1 <= r < v - 1)%nat -> (vec_eqb (map (fun r0 => i8 (i8 (dot (firstn r r0) (map (fun r1 => nth r r1 0) (firstn r M))) + i8 (dot (skipn (S r) r0) (skipn (S r) (nth r M []))))) (firstn r M))
      (map (fun e => if e =? 0 then u else l) (map (fun r1 => nth r r1 0) (firstn r M))) = true
    <-> forall i, (i < r)%nat -> common v M i r = if cell M i r =? 1 then l else u)).
  2:{ split; intros H r Hr; [apply Q|apply E in Hr; apply Q]; auto; apply H; auto. now apply E. }
  intros r Hr. unfold vec_eqb. rewrite (list_eqb_spec Z.eqb Z.eqb_eq).
  assert (F : firstn r M = map (fun i => nth i M []) (seq 0 r)).
  { apply (nth_ext _ _ [] []); rewrite firstn_length, ?map_length, ?seq_length; [lia|]. intros i Hi'. rewrite nth_firstn_lt by lia.
    rewrite (nth_map_in _ _ _ 0%nat) by (rewrite seq_length; lia). now rewrite seq_nth by lia. }
  assert (P : map (fun r0 => nth r r0 0) (firstn r M) = map (fun j => cell M j r) (seq 0 r)) by (rewrite F, map_map; reflexivity).
  rewrite P, F, !map_map, map_eq_iff.
  transitivity (forall i, In i (seq 0 r) -> common v M i r = if cell M i r =? 1 then l else u).
  2:{ split; intros H i Hi'; apply H; [apply in_seq; lia|apply in_seq in Hi'; lia]. }
  assert (X : forall i, In i (seq 0 r) -> i8 (i8 (dot (firstn r (nth i M [])) (map (fun j => cell M j r) (seq 0 r))) + i8 (dot (skipn (S r) (nth i M [])) (skipn (S r) (nth r M [])))) = common v M i r
     /\ (if cell M i r =? 0 then u else l) = (if cell M i r =? 1 then l else u)).
  { intros i Hi'. apply in_seq in Hi'. rewrite i8_add, (row_sum v) by (auto; lia). split.
    - pose proof (common_bound v M i r HM ltac:(lia) ltac:(lia)). apply i8_id. lia.
    - destruct (HB i r ltac:(lia) ltac:(lia)) as [-> | ->]; reflexivity. }
  split; intros H i Hi'; specialize (H i Hi'); destruct (X i Hi') as [X1 X2]; [rewrite <- X2, <- X1|rewrite X1, X2]; exact H.
Qed.

(** for a regular graph the last vertex is determined by the others *)
Lemma last_vertex v k l u M : adjacency v M -> (forall i, (i < v)%nat -> degree v M i = k) ->
  (Z.of_nat v - k - 1) * u = k * (k - l - 1) ->
  (forall i r, (i < r < v - 1)%nat -> common v M i r = if cell M i r =? 1 then l else u) -> srg v k l u M.
Proof.
  intros HA Hk HE H. pose proof HA as ((HL & HR) & HB & HS & HD).
  assert (SY : forall i j, common v M i j = common v M j i) by (intros i j; unfold common; apply sumn_ext; intros; ring).
  assert (T : forall i r, (i < v - 1)%nat -> (r < v - 1)%nat -> i <> r -> common v M i r = if cell M i r =? 1 then l else u).
  { intros i r Hi Hr N. destruct (Nat.lt_ge_cases i r) as [L|L]; [apply H; lia|]. rewrite SY, (HS i r) by lia. apply H. lia. }
  assert (LV : forall i, (i < v - 1)%nat -> common v M i (v - 1) = if cell M i (v - 1) =? 1 then l else u).
  { intros i Hi.
    assert (S1 : sumn v (fun j => common v M i j) = k * k).
    { unfold common. rewrite sumn_swap. rewrite (sumn_ext v _ (fun w => k * cell M i w)).
      - rewrite sumn_scale. change (k * degree v M i = k * k). now rewrite Hk by lia.
      - intros w Hw. rewrite sumn_scale. rewrite (sumn_ext v _ (fun j => cell M w j)) by (intros; now rewrite HS by auto).
        change (cell M i w * degree v M w = k * cell M i w). rewrite Hk by auto. ring. }
    assert (S2 : common v M i i = k).
    { unfold common. rewrite <- (Hk i) by lia. unfold degree. apply sumn_ext. intros w Hw. destruct (HB i w ltac:(lia) Hw) as [-> | ->]; reflexivity. }
    assert (S3 : sumn v (fun j => (l - u) * cell M i j + u) = (l - u) * k + u * Z.of_nat v).
    { rewrite sumn_plus, sumn_scale, sumn_const. change ((l - u) * degree v M i + u * Z.of_nat v = (l - u) * k + u * Z.of_nat v). now rewrite Hk by lia. }
    set (g := fun j => common v M i j - ((l - u) * cell M i j + u)).
    assert (S4 : sumn v g = k * k - ((l - u) * k + u * Z.of_nat v)) by (unfold g; rewrite sumn_minus, S3; f_equal; exact S1).
    replace v with (S (v - 1)) in S4 at 1 by lia. rewrite sumn_S in S4.
    assert (S5 : sumn (v - 1) g = g i).
    { rewrite <- (sumn_delta (v - 1) i g) by auto. apply sumn_ext. intros j Hj. destruct (Nat.eqb_spec j i) as [->|N]; [reflexivity|].
      unfold g. rewrite T by auto. destruct (HB i j ltac:(lia) ltac:(lia)) as [-> | ->]; cbn [Z.eqb Pos.eqb]; ring. }
    rewrite S5 in S4. unfold g in S4. rewrite S2, HD in S4 by lia.
    destruct (HB i (v - 1)%nat ltac:(lia) ltac:(lia)) as [E | E]; rewrite E in *; cbn [Z.eqb Pos.eqb]; nia. }
  split; [exact HA|]. split; [exact Hk|]. intros i j Hi Hj N.
  destruct (Nat.eq_dec i (v - 1)) as [->|Ni].
  - rewrite SY, (HS (v - 1)%nat j) by lia. apply LV. lia.
  - destruct (Nat.eq_dec j (v - 1)) as [->|Nj]; [apply LV; lia|]. apply T; lia.
Qed.
Lemma property_regular_proof v k l u mats : (v <= 127)%nat -> (Z.of_nat v - k - 1) * u = k * (k - l - 1) ->
  (forall M, In M mats -> adjacency v M /\ forall i, (i < v)%nat -> degree v M i = k) ->
  (test_matrix_property v k l u mats = Ok tt <-> forall M, In M mats -> srg v k l u M).
Proof.
  intros Hv HE HM. rewrite property_iff_proof by (auto; intros M Hi; apply HM; auto).
  split; intros H M Hi; specialize (H M Hi).
  - destruct (HM M Hi). now apply last_vertex.
  - intros i r Hir. apply H; lia.
Qed.
(** a star passes *)
Definition star5 : list (list Z) := [[0;0;0;0;1]; [0;0;0;0;1]; [0;0;0;0;1]; [0;0;0;0;1]; [1;1;1;1;0]].
Lemma star5_proof : adjacency 5 star5 /\ (forall k l, test_matrix_property 5 k l 1 [star5] = Ok tt) /\ forall k l u, ~ srg 5 k l u star5.
Proof.
  assert (A : adjacency 5 star5).
  { split; [split; [reflexivity|]; intros row H; repeat (destruct H as [<-|H]; [reflexivity|]); easy|].
    split; [|split].
    - intros i j Hi Hj. do 5 (destruct i; [do 5 (destruct j; [cbv; auto|]); lia|]). lia.
    - intros i j Hi Hj. do 5 (destruct i; [do 5 (destruct j; [reflexivity|]); lia|]). lia.
    - intros i Hi. do 5 (destruct i; [reflexivity|]). lia. }
  split; [exact A|]. split; [intros; reflexivity|].
  intros k l u (_ & D & _). pose proof (D 0%nat ltac:(lia)) as D0. pose proof (D 4%nat ltac:(lia)) as D4. cbv in D0, D4. congruence.
Qed.

(** ** tests/test_solver.py *)
Lemma mapM_assert_cases {A} (f : A -> bool) l : mapM (fun x => assert_ (f x)) l = Ok (map (fun _ => tt) l) \/ mapM (fun x => assert_ (f x)) l = Raise AssertionError.
Proof.
  induction l as [|a l IH]; [now left|]. cbn [mapM map]. destruct (f a); cbn [assert_ bind]; [|now right].
  destruct IH as [-> | ->]; [left|right]; reflexivity.
Qed.
Lemma combine_nth_error {A B} (x : list A) (y : list B) p : In p (combine x y) <-> exists i, nth_error x i = Some (fst p) /\ nth_error y i = Some (snd p).
Proof.
  revert y; induction x as [|a x IH]; intros y.
  - split; [easy|]. intros (i & H & _). destruct i; discriminate.
  - destruct y as [|b y].
    + split; [easy|]. intros (i & _ & H). destruct i; discriminate.
    + cbn [combine]. split.
      * intros [<-|H]; [exists 0%nat; auto|]. apply IH in H. destruct H as (i & H). exists (S i). exact H.
      * intros (i & H1 & H2). destruct i; cbn in H1, H2; [left; destruct p; cbn in *; congruence|]. right. apply IH. eauto.
Qed.
Lemma test_solve_proof v k l u out db : main_output v k l u = Ok out ->
  ((forall i m m', nth_error out i = Some m -> nth_error db i = Some m' -> m = m') -> test_solve v k l u db = Ok tt)
  /\ (~ (forall i m m', nth_error out i = Some m -> nth_error db i = Some m' -> m = m') -> test_solve v k l u db = Raise AssertionError).
Proof.
  intros H. unfold main_output, run_main in H. inv_bind H. inv_bind E. inv_bind E. unfold test_solve. 
  rewrite E1. cbn [bind]. rewrite E. cbn [bind]. injection H as ->.
  pose proof (mapM_assert (fun p : mat * mat => mat_eqb (fst p) (snd p)) (combine out db)) as M.
  assert (X : (forall x, In x (combine out db) -> mat_eqb (fst x) (snd x) = true) <-> forall i m m', nth_error out i = Some m -> nth_error db i = Some m' -> m = m').
  { split.
    - intros F i m m' Hm Hm'. apply mat_eqb_iff. apply (F (m, m')). apply combine_nth_error. exists i. auto.
    - intros F p Hp. apply combine_nth_error in Hp. destruct Hp as (i & P1 & P2). apply mat_eqb_iff. eauto. }
  rewrite <- X, <- M. clear M X. split.
  - intros (r' & ->). reflexivity.
  - intros N. destruct (mapM_assert_cases (fun p : mat * mat => mat_eqb (fst p) (snd p)) (combine out db)) as [C|C].
    + exfalso. apply N. eauto.
    + rewrite C. reflexivity.
Qed.
Lemma expected_rows_ok db : (forall m, In m db -> (3 <= length (mrows m))%nat) ->
  mapM (fun exp => if (mnrows exp <=? 2)%nat then Raise IndexError else Ok (skipn 3 (nth 2 (mrows exp) []))) db
  = Ok (map (fun m => skipn 3 (nth 2 (mrows m) [])) db).
Proof.
  induction db as [|m db IH]; intros H; [reflexivity|]. cbn [mapM map]. unfold mnrows at 1. pose proof (H m (or_introl eq_refl)).
  replace (length (mrows m) <=? 2)%nat with false by lia. cbn [bind]. rewrite IH by (intros; apply H; now right). reflexivity.
Qed.
Lemma test_solve_question_proof v k l u s Q xs db : seed v k l u = Ok s -> from_matrix s = Ok Q -> solve_question Q = Ok xs ->
  (forall m, In m db -> (3 <= length (mrows m))%nat) ->
  ((exists m, In m db /\ In (skipn 3 (nth 2 (mrows m) [])) xs) -> test_solve_question v k l u db = Ok tt)
  /\ (~ (exists m, In m db /\ In (skipn 3 (nth 2 (mrows m) [])) xs) -> test_solve_question v k l u db = Raise AssertionError).
Proof.
  intros E1 E2 E3 H. unfold test_solve_question. rewrite expected_rows_ok by auto. cbn [bind]. rewrite E1. cbn [bind]. rewrite E2. cbn [bind]. rewrite E3. cbn [bind].
  set (t := existsb _ xs).
  assert (X : t = true <-> exists m, In m db /\ In (skipn 3 (nth 2 (mrows m) [])) xs).
  { unfold t. rewrite existsb_exists. split.
    - intros (x & Hx & T). apply existsb_exists in T. destruct T as (y & Hy & T). apply (list_eqb_spec Z.eqb Z.eqb_eq) in T. subst y.
      apply in_map_iff in Hy. destruct Hy as (m & <- & Hm). eauto.
    - intros (m & Hm & Hx). exists (skipn 3 (nth 2 (mrows m) [])). split; auto. apply existsb_exists. eexists. split; [apply in_map_iff; eauto|]. now apply (list_eqb_spec Z.eqb Z.eqb_eq). }
  rewrite <- X. destruct t; split; auto; [congruence|discriminate].
Qed.
Lemma shipped_suite_proof v k l u sols : get_solutions v k l u = Ok sols -> v < 20 ->
  test_solve v k l u sols = Ok tt /\ test_solve_question v k l u sols = Ok tt.
Proof.
  intros H Hv. split.
  - apply (test_solve_proof v k l u sols sols); [apply database_rerun_proof; auto|]. intros i m m' H1 H2. congruence.
  - destruct (test_question_proof v k l u sols H Hv) as (s & Q & xs & E1 & E2 & E3 & NE & HI).
    apply (test_solve_question_proof v k l u s Q xs); auto.
    + intros m Hm. pose proof (database_sound_proof v k l u sols m H Hm) as D. destruct (database_small v k l u sols H) as [Ev B]. unfold entry_smallb in B. destruct D as (_ & ((HL & _) & _) & _). lia.
    + destruct sols as [|m sols]; [easy|]. exists m. split; [now left|]. apply HI. now left.
Qed.
Lemma test_sort_suite_proof argsort : argsorts argsort -> stable_upto 12 argsort ->
  test_maximize argsort test9_in test9_out = Ok tt /\ test_maximize argsort test13_in test13_out = Ok tt /\ test2 = Ok tt.
Proof.
  intros A S. destruct (test_sort_proof argsort A S) as [E1 E2]. unfold test_maximize. rewrite E1, E2. cbn [bind].
  assert (X : forall M, list_eqb vec_eqb M M = true) by (intros M; apply (list_eqb_spec vec_eqb (list_eqb_spec Z.eqb Z.eqb_eq)); reflexivity).
  rewrite !X. auto.
Qed.
