(** Facts about the specification: finite sums, relabelling, counting. *)
From Verif Require Import Np ModelGauss Spec Lib BitFacts.
From Coq Require Import ZifyBool ZifyNat Sorting.Permutation.

(** ** sums *)
Lemma sumn_ext n f g : (forall i, (i < n)%nat -> f i = g i) -> sumn n f = sumn n g.
Proof. intros H. unfold sumn. apply zsum_map_ext. intros i Hi. apply in_seq in Hi. apply H. lia. Qed.
Lemma sumn_S n f : sumn (S n) f = sumn n f + f n.
Proof. unfold sumn. rewrite seq_S, map_app, zsum_app. cbn [map]. rewrite zsum_cons. unfold zsum at 2. simpl. lia. Qed.
Lemma sumn_0 f : sumn 0 f = 0.
Proof. reflexivity. Qed.
Lemma sumn_plus n f g : sumn n (fun i => f i + g i) = sumn n f + sumn n g.
Proof. induction n; [reflexivity|]. rewrite !sumn_S. lia. Qed.
Lemma sumn_minus n f g : sumn n (fun i => f i - g i) = sumn n f - sumn n g.
Proof. induction n; [reflexivity|]. rewrite !sumn_S. lia. Qed.
Lemma sumn_scale n c f : sumn n (fun i => c * f i) = c * sumn n f.
Proof. induction n; [rewrite !sumn_0; lia|]. rewrite !sumn_S. lia. Qed.
Lemma sumn_const n c : sumn n (fun _ => c) = c * Z.of_nat n.
Proof. induction n; [rewrite !sumn_0; lia|]. rewrite !sumn_S. lia. Qed.
Lemma sumn_zero n f : (forall i, (i < n)%nat -> f i = 0) -> sumn n f = 0.
Proof. intros H. rewrite (sumn_ext n f (fun _ => 0)) by auto. rewrite sumn_const. lia. Qed.
Lemma sumn_le n f g : (forall i, (i < n)%nat -> f i <= g i) -> sumn n f <= sumn n g.
Proof.
  induction n as [|n IH]; intros H; [rewrite !sumn_0; lia|]. rewrite !sumn_S. pose proof (H n ltac:(lia)).
  assert (sumn n f <= sumn n g) by (apply IH; intros; apply H; lia). lia.
Qed.
Lemma sumn_nonneg n f : (forall i, (i < n)%nat -> 0 <= f i) -> 0 <= sumn n f.
Proof. intros H. rewrite <- (sumn_zero n (fun _ => 0)) by auto. now apply sumn_le. Qed.
Lemma sumn_tight n f g : (forall i, (i < n)%nat -> f i <= g i) -> sumn n g <= sumn n f ->
  forall i, (i < n)%nat -> f i = g i.
Proof.
  induction n as [|n IH]; intros H Hs i Hi; [lia|]. rewrite !sumn_S in Hs.
  assert (H' : forall i, (i < n)%nat -> f i <= g i) by (intros; apply H; lia).
  pose proof (sumn_le n f g H') as Hl. pose proof (H n ltac:(lia)).
  destruct (Nat.eq_dec i n) as [->|]; [lia|]. apply IH; auto; lia.
Qed.
Lemma sumn_swap n m (f : nat -> nat -> Z) :
  sumn n (fun i => sumn m (fun j => f i j)) = sumn m (fun j => sumn n (fun i => f i j)).
Proof. unfold sumn. apply zsum_swap. Qed.
Lemma sumn_delta n k (f : nat -> Z) : (k < n)%nat -> sumn n (fun i => if (i =? k)%nat then f i else 0) = f k.
Proof.
  induction n as [|n IH]; intros H; [lia|]. rewrite sumn_S. destruct (Nat.eqb_spec n k) as [->|].
  - rewrite sumn_zero; [lia|]. intros i Hi. destruct (Nat.eqb_spec i k); [lia|auto].
  - rewrite IH by lia. lia.
Qed.
(** leaving one index out *)
Lemma sumn_except n k (f : nat -> Z) : (k < n)%nat -> sumn n (fun i => if (i =? k)%nat then 0 else f i) = sumn n f - f k.
Proof.
  intros H. pose proof (sumn_delta n k f H) as E.
  enough (sumn n (fun i => if (i =? k)%nat then 0 else f i) + sumn n (fun i => if (i =? k)%nat then f i else 0) = sumn n f) by lia.
  rewrite <- sumn_plus. apply sumn_ext. intros i _. destruct (i =? k)%nat; lia.
Qed.
Lemma sumn_split n a f : (a <= n)%nat -> sumn n f = sumn a f + sumn (n - a) (fun i => f (a + i)%nat).
Proof.
  intros H. replace n with (a + (n - a))%nat at 1 by lia. generalize (n - a)%nat as m. clear.
  induction m as [|m IH]; [rewrite Nat.add_0_r, sumn_0; lia|].
  rewrite Nat.add_succ_r, !sumn_S, IH. lia.
Qed.

Lemma relabelling_perm v f : relabelling v f -> Permutation (map f (seq 0 v)) (seq 0 v).
Proof.
  intros [H1 H2]. apply NoDup_Permutation_bis.
  - assert (G : forall l, NoDup l -> (forall i, In i l -> (i < v)%nat) -> NoDup (map f l)).
    { induction 1 as [|a l Ha Hl IH]; intros Hb; simpl; constructor.
      - intros Hin. apply in_map_iff in Hin. destruct Hin as (b & E & Hin).
        apply H2 in E; [congruence| |]; apply Hb; [now right|now left].
      - apply IH. intros i Hi. apply Hb. now right. }
    apply G; [apply seq_NoDup|]. intros i Hi. apply in_seq in Hi. lia.
  - now rewrite map_length, !seq_length.
  - intros a Ha. apply in_map_iff in Ha. destruct Ha as (i & <- & Hi). apply in_seq in Hi.
    apply in_seq. specialize (H1 i). lia.
Qed.
Lemma sumn_relabel v f g : relabelling v f -> sumn v (fun i => g (f i)) = sumn v g.
Proof.
  intros H. unfold sumn. apply zsum_perm. rewrite <- (map_map f g). apply Permutation_map. now apply relabelling_perm.
Qed.

(** ** matrices from functions *)
Definition build (v c : nat) (g : nat -> nat -> Z) : list (list Z) := map (fun i => map (g i) (seq 0 c)) (seq 0 v).
Lemma build_shape v c g : shape v c (build v c g).
Proof.
  split; [unfold build; now rewrite map_length, seq_length|]. intros row Hr. apply in_map_iff in Hr.
  destruct Hr as (i & <- & _). now rewrite map_length, seq_length.
Qed.
Lemma build_row v c g i : (i < v)%nat -> nth i (build v c g) [] = map (g i) (seq 0 c).
Proof. intros H. unfold build. rewrite (nth_map_in _ _ _ 0%nat) by now rewrite seq_length. now rewrite nth_seq0. Qed.
Lemma build_cell v c g i j : (i < v)%nat -> (j < c)%nat -> cell (build v c g) i j = g i j.
Proof.
  intros Hi Hj. unfold cell. rewrite build_row by auto. rewrite (nth_map_in _ _ _ 0%nat) by now rewrite seq_length.
  now rewrite nth_seq0.
Qed.
Lemma matrix_ext v c M N : shape v c M -> shape v c N ->
  (forall i j, (i < v)%nat -> (j < c)%nat -> cell M i j = cell N i j) -> M = N.
Proof.
  intros [L1 S1] [L2 S2] H. apply (nth_ext _ _ [] []); [lia|]. intros i Hi.
  assert (In (nth i M []) M) by (apply nth_In; lia). assert (In (nth i N []) N) by (apply nth_In; lia).
  apply nth_ext0; [rewrite S1, S2; auto|]. intros j Hj. rewrite S1 in Hj by auto. apply H; lia.
Qed.

Definition relabel (v : nat) (f : nat -> nat) (M : list (list Z)) : list (list Z) :=
  build v v (fun i j => cell M (f i) (f j)).

Lemma relabel_cell v f M i j : (i < v)%nat -> (j < v)%nat -> cell (relabel v f M) i j = cell M (f i) (f j).
Proof. intros Hi Hj. unfold relabel. now rewrite build_cell. Qed.
Lemma relabel_isomorphic v f M : relabelling v f -> isomorphic v M (relabel v f M).
Proof. intros H. exists f. split; auto. intros i j Hi Hj. now apply relabel_cell. Qed.
Lemma relabel_adjacency v f M : relabelling v f -> adjacency v M -> adjacency v (relabel v f M).
Proof.
  intros Hf (Hs & Hb & Hsym & Hd). destruct Hf as [Hf _]. split; [apply build_shape|]. split; [|split].
  - intros i j Hi Hj. rewrite relabel_cell by auto. auto.
  - intros i j Hi Hj. rewrite !relabel_cell by auto. auto.
  - intros i Hi. rewrite relabel_cell by auto. auto.
Qed.
Lemma relabel_degree v f M i : relabelling v f -> (i < v)%nat -> degree v (relabel v f M) i = degree v M (f i).
Proof.
  intros Hf Hi. unfold degree. rewrite <- (sumn_relabel v f (fun w => cell M (f i) w) Hf).
  apply sumn_ext. intros j Hj. now apply relabel_cell.
Qed.
Lemma relabel_common v f M i j : relabelling v f -> (i < v)%nat -> (j < v)%nat ->
  common v (relabel v f M) i j = common v M (f i) (f j).
Proof.
  intros Hf Hi Hj. unfold common. rewrite <- (sumn_relabel v f (fun w => cell M (f i) w * cell M (f j) w) Hf).
  apply sumn_ext. intros w Hw. now rewrite !relabel_cell.
Qed.
Lemma relabel_srg v k l u f M : relabelling v f -> srg v k l u M -> srg v k l u (relabel v f M).
Proof.
  intros Hf (Ha & Hd & Hc). pose proof Hf as [H1 H2]. split; [now apply relabel_adjacency|]. split.
  - intros i Hi. rewrite relabel_degree by auto. auto.
  - intros i j Hi Hj Hne. rewrite relabel_common, relabel_cell by auto. apply Hc; auto.
Qed.

(** ** rows *)
Lemma zsum_row v M i : shape v v M -> (i < v)%nat -> zsum (nth i M []) = degree v M i.
Proof.
  intros [HL Hs] Hi. unfold degree, sumn, cell. rewrite (zsum_sum (nth i M [])).
  rewrite Hs by (apply nth_In; lia). reflexivity.
Qed.
Lemma dot_rows v M i j : shape v v M -> (i < v)%nat -> (j < v)%nat -> dot (nth i M []) (nth j M []) = common v M i j.
Proof.
  intros [HL Hs] Hi Hj. unfold common, sumn, cell. rewrite dot_sum by (rewrite !Hs; auto; apply nth_In; lia).
  rewrite Hs by (apply nth_In; lia). reflexivity.
Qed.
Lemma common_sym v M i j : common v M i j = common v M j i.
Proof. apply sumn_ext. intros; lia. Qed.
Lemma common_self v M i : adjacency v M -> (i < v)%nat -> common v M i i = degree v M i.
Proof.
  intros (_ & Hb & _) Hi. apply sumn_ext. intros w Hw. destruct (Hb i w Hi Hw) as [->| ->]; lia.
Qed.
Lemma adjacency_row_bits v M i : adjacency v M -> (i < v)%nat -> length (nth i M []) = v /\ bits (nth i M []).
Proof.
  intros ((HL & Hs) & Hb & _) Hi. assert (Hin : In (nth i M []) M) by (apply nth_In; lia). split; auto.
  intros a Ha. apply (In_nth _ _ 0) in Ha. destruct Ha as (j & Hj & <-). rewrite Hs in Hj by auto. apply Hb; auto.
Qed.
Lemma degree_range v M i : adjacency v M -> (i < v)%nat -> 0 <= degree v M i < Z.of_nat v.
Proof.
  intros (_ & Hb & _ & Hd) Hi. unfold degree. split.
  - apply sumn_nonneg. intros w Hw. destruct (Hb i w Hi Hw); lia.
  - assert (H : sumn v (fun w => cell M i w) <= sumn v (fun w => if (w =? i)%nat then 0 else 1)).
    { apply sumn_le. intros w Hw. destruct (Nat.eqb_spec w i) as [->|]; [rewrite Hd; lia|]. destruct (Hb i w Hi Hw); lia. }
    rewrite (sumn_except v i (fun _ => 1)) in H by auto. rewrite sumn_const in H. lia.
Qed.

(** ** counting paths of length two *)
Lemma common_total v M i : adjacency v M -> (i < v)%nat ->
  sumn v (fun j => common v M i j) = sumn v (fun w => cell M i w * degree v M w).
Proof.
  intros (_ & _ & Hs & _) Hi. unfold common. rewrite sumn_swap. apply sumn_ext. intros w Hw.
  rewrite (sumn_ext v _ (fun j => cell M i w * cell M w j)) by (intros j Hj; now rewrite (Hs j w)).
  rewrite sumn_scale. reflexivity.
Qed.

(** the allowed number of common neighbours, over all other vertices *)
Definition allow (l u : Z) (M : list (list Z)) (i j : nat) : Z := if cell M i j =? 1 then l else u.
Lemma allow_total v M l u i : adjacency v M -> (i < v)%nat ->
  sumn v (fun j => if (j =? i)%nat then 0 else allow l u M i j)
  = degree v M i * l + (Z.of_nat v - degree v M i - 1) * u.
Proof.
  intros (_ & Hb & _ & Hd) Hi.
  rewrite (sumn_ext v _ (fun j => if (j =? i)%nat then 0 else (l - u) * cell M i j + u)).
  2:{ intros j Hj. destruct (Nat.eqb_spec j i); auto. unfold allow. destruct (Hb i j Hi Hj) as [->| ->]; simpl; lia. }
  rewrite (sumn_except v i (fun j => (l - u) * cell M i j + u)) by auto.
  rewrite sumn_plus, sumn_scale, sumn_const, Hd by auto. unfold degree.
  change (fun w => cell M i w) with (cell M i). ring.
Qed.

Theorem srg_equation v k l u M : (1 <= v)%nat -> srg v k l u M -> (Z.of_nat v - k - 1) * u = k * (k - l - 1).
Proof.
  intros Hv (Ha & Hd & Hc). assert (H0 : (0 < v)%nat) by lia.
  pose proof (common_total v M 0 Ha H0) as E. pose proof (allow_total v M l u 0 Ha H0) as E2.
  rewrite Hd in E2 by auto.
  rewrite (sumn_ext v (fun w => cell M 0 w * degree v M w) (fun w => k * cell M 0 w)) in E by (intros w Hw; rewrite Hd by auto; lia).
  rewrite sumn_scale in E. change (sumn v (cell M 0)) with (degree v M 0) in E. rewrite Hd in E by auto.
  pose proof (sumn_except v 0 (fun j => common v M 0 j) H0) as E3. cbv beta in E3.
  rewrite common_self, Hd in E3 by auto.
  rewrite (sumn_ext v _ (fun j => if (j =? 0)%nat then 0 else common v M 0 j)) in E2.
  2:{ intros j Hj. destruct (Nat.eqb_spec j 0); auto. unfold allow. rewrite Hc; auto. }
  lia.
Qed.

(** a vertex of a graph that stays below the parameters everywhere *)
Section weak.
  Variables (v : nat) (k l u : Z) (M : list (list Z)).
  Hypothesis Ha : adjacency v M.
  Hypothesis Heq : (Z.of_nat v - k - 1) * u = k * (k - l - 1).
  Hypothesis Hdeg : forall i, (i < v)%nat -> degree v M i <= k.
  Hypothesis Hcom : forall i j, (i < v)%nat -> (j < v)%nat -> i <> j -> common v M i j <= allow l u M i j.

  (** shortage of common neighbours at [i] in terms of shortage of degrees *)
  Lemma shortage i : (i < v)%nat ->
    sumn v (fun j => if (j =? i)%nat then 0 else allow l u M i j - common v M i j)
    = (k - degree v M i) * (k - 1 - l + u) + sumn v (fun w => cell M i w * (k - degree v M w)).
  Proof.
    intros Hi. pose proof (common_total v M i Ha Hi) as E. pose proof (allow_total v M l u i Ha Hi) as E2.
    pose proof (sumn_except v i (fun j => common v M i j) Hi) as E3. cbv beta in E3. rewrite common_self in E3 by auto.
    assert (E4 : sumn v (fun j => if (j =? i)%nat then 0 else allow l u M i j - common v M i j)
       = sumn v (fun j => if (j =? i)%nat then 0 else allow l u M i j) - sumn v (fun j => if (j =? i)%nat then 0 else common v M i j)).
    { rewrite <- sumn_minus. apply sumn_ext. intros j Hj. destruct (j =? i)%nat; lia. }
    assert (E5 : sumn v (fun w => cell M i w * (k - degree v M w))
       = k * degree v M i - sumn v (fun w => cell M i w * degree v M w)).
    { unfold degree at 2. rewrite <- sumn_scale, <- sumn_minus. apply sumn_ext. intros; lia. }
    rewrite E4, E2, E3, E5, E. nia.
  Qed.

  (** a vertex all of whose pairs are exact has only neighbours of full degree *)
  Lemma exact_neighbours i : (i < v)%nat -> degree v M i = k ->
    (forall j, (j < v)%nat -> j <> i -> common v M i j = allow l u M i j) ->
    forall w, (w < v)%nat -> cell M i w = 1 -> degree v M w = k.
  Proof.
    intros Hi Hk He w Hw Hc. pose proof (shortage i Hi) as E. rewrite Hk, Z.sub_diag, Z.mul_0_l in E.
    rewrite sumn_zero in E.
    2:{ intros j Hj. destruct (Nat.eqb_spec j i); auto. rewrite He by auto. lia. }
    assert (Hn : forall x, (x < v)%nat -> 0 <= cell M i x * (k - degree v M x)).
    { intros x Hx. destruct Ha as (_ & Hb & _). specialize (Hdeg x Hx). destruct (Hb i x Hi Hx) as [->| ->]; lia. }
    assert (H : (fun x : nat => 0) w = cell M i w * (k - degree v M w)).
    { apply (sumn_tight v (fun _ => 0) (fun x => cell M i x * (k - degree v M x))); auto. rewrite sumn_const. lia. }
    cbv beta in H. rewrite Hc in H. lia.
  Qed.

  (** full degrees everywhere make the graph strongly regular *)
  Lemma regular_exact : (forall i, (i < v)%nat -> degree v M i = k) -> srg v k l u M.
  Proof.
    intros Hr. split; auto. split; auto. intros i j Hi Hj Hne. fold (allow l u M i j).
    pose proof (shortage i Hi) as E. rewrite Hr, Z.sub_diag, Z.mul_0_l in E by auto.
    rewrite (sumn_zero v (fun w => cell M i w * _)) in E by (intros w Hw; rewrite Hr by auto; lia).
    pose proof (sumn_tight v (fun j => 0) (fun j => if (j =? i)%nat then 0 else allow l u M i j - common v M i j)) as T.
    cbv beta in T. specialize (T ltac:(intros x Hx; destruct (Nat.eqb_spec x i); [lia|]; specialize (Hcom i x Hi Hx); lia)).
    rewrite E, sumn_const in T. specialize (T ltac:(lia) j Hj). destruct (Nat.eqb_spec j i); [lia|]. lia.
  Qed.
End weak.

(** ** the matrix identity [A A - (l-u) A = (k-u) I + u J] *)
Theorem srg_identity v k l u M : adjacency v M ->
  (srg v k l u M <-> forall i j, (i < v)%nat -> (j < v)%nat ->
     sumn v (fun w => cell M i w * cell M w j) - (l - u) * cell M i j = (if (i =? j)%nat then k - u else 0) + u).
Proof.
  intros Ha. pose proof Ha as (Hs & Hb & Hsym & Hd).
  assert (E : forall i j, (i < v)%nat -> (j < v)%nat -> sumn v (fun w => cell M i w * cell M w j) = common v M i j).
  { intros i j Hi Hj. apply sumn_ext. intros w Hw. now rewrite (Hsym w j). }
  split.
  - intros (_ & Hk & Hc) i j Hi Hj. rewrite E by auto. destruct (Nat.eqb_spec i j) as [<-|Hne].
    + rewrite common_self, Hk, Hd by auto. lia.
    + rewrite Hc by auto. destruct (Hb i j Hi Hj) as [->| ->]; simpl; lia.
  - intros H. split; auto. split.
    + intros i Hi. specialize (H i i Hi Hi). rewrite E, Nat.eqb_refl, common_self, Hd in H by auto. lia.
    + intros i j Hi Hj Hne. specialize (H i j Hi Hj). rewrite E in H by auto. destruct (Nat.eqb_spec i j); [easy|].
      destruct (Hb i j Hi Hj) as [E1|E1]; rewrite E1 in *; simpl; lia.
Qed.

(** ** canonical relabelling *)
Definition swap2 (a b i : nat) : nat := if (i =? a)%nat then b else if (i =? b)%nat then a else i.
Lemma swap2_relabelling v a b : (a < v)%nat -> (b < v)%nat -> relabelling v (swap2 a b).
Proof.
  intros Ha Hb. split.
  - intros i Hi. unfold swap2. destruct (i =? a)%nat, (i =? b)%nat; auto.
  - intros i j _ _. unfold swap2. destruct (Nat.eqb_spec i a), (Nat.eqb_spec i b), (Nat.eqb_spec j a), (Nat.eqb_spec j b); lia.
Qed.
Lemma relabelling_compose v f g : relabelling v f -> relabelling v g -> relabelling v (fun i => f (g i)).
Proof. intros [F1 F2] [G1 G2]. split; auto. Qed.
Lemma relabelling_id v : relabelling v (fun i => i).
Proof. split; auto. Qed.

Lemma pack0_app x y : pack0 (x ++ y) = pack0 x * 2 ^ Z.of_nat (length y) + pack0 y.
Proof.
  induction x as [|a x IH]; [simpl; lia|]. cbn [app pack0]. rewrite IH, app_length, Nat2Z.inj_add, Z.pow_add_r by lia. lia.
Qed.
Lemma pack0_lex p x y : bits x -> bits y -> length x = length y ->
  pack0 (p ++ 0 :: x) < pack0 (p ++ 1 :: y).
Proof.
  intros Hx Hy HL. rewrite !pack0_app. cbn [pack0 length]. rewrite HL.
  pose proof (pack0_range x Hx). pose proof (pack0_range y Hy). rewrite HL in *. lia.
Qed.

Lemma firstn_ext_nth {A} (d : A) n x y : (n <= length x)%nat -> (n <= length y)%nat ->
  (forall i, (i < n)%nat -> nth i x d = nth i y d) -> firstn n x = firstn n y.
Proof.
  revert x y. induction n as [|n IH]; intros [|a x] [|b y] H1 H2 H; simpl in *; try lia; auto.
  f_equal; [apply (H 0%nat); lia|]. apply IH; try lia. intros i Hi. apply (H (S i)). lia.
Qed.
Lemma firstn_nth_skipn {A} (d : A) n x : (n < length x)%nat -> x = firstn n x ++ nth n x d :: skipn (S n) x.
Proof. revert x. induction n as [|n IH]; intros [|a x] H; simpl in *; try lia; auto. f_equal. apply IH. lia. Qed.

Lemma concat_bits M : (forall row, In row M -> bits row) -> bits (concat M).
Proof. intros H a Ha. apply in_concat in Ha. destruct Ha as (r & Hr & Har). now apply (H r). Qed.
Lemma bits_app x y : bits x -> bits y -> bits (x ++ y).
Proof. intros Hx Hy a Ha. apply in_app_iff in Ha. destruct Ha; auto. Qed.
Lemma concat_length_eq v (M N : list (list Z)) : (forall r, In r M -> length r = v) -> (forall r, In r N -> length r = v) ->
  length M = length N -> length (concat M) = length (concat N).
Proof.
  revert N. induction M as [|a M IH]; intros [|b N] H1 H2 HL; simpl in *; try lia; auto.
  rewrite !app_length, (H1 a), (H2 b), (IH N) by auto. lia.
Qed.

(** a larger row after equal rows makes the row-major number larger *)
Lemma concat_lex v (M N : list (list Z)) r j : shape v v M -> shape v v N ->
  (forall row, In row M -> bits row) -> (forall row, In row N -> bits row) ->
  (r < v)%nat -> (j < v)%nat ->
  (forall i c, (i < r)%nat -> (c < v)%nat -> cell M i c = cell N i c) ->
  (forall c, (c < j)%nat -> cell M r c = cell N r c) ->
  cell M r j = 0 -> cell N r j = 1 -> pack0 (concat M) < pack0 (concat N).
Proof.
  intros [LM SM] [LN SN] BM BN Hr Hj Hrows Hrow HM HN.
  assert (InM : forall i, (i < v)%nat -> In (nth i M []) M) by (intros; apply nth_In; lia).
  assert (InN : forall i, (i < v)%nat -> In (nth i N []) N) by (intros; apply nth_In; lia).
  rewrite (firstn_nth_skipn (@nil Z) r M), (firstn_nth_skipn (@nil Z) r N) by lia.
  rewrite !concat_app. cbn [concat].
  rewrite (firstn_nth_skipn 0 j (nth r M [])), (firstn_nth_skipn 0 j (nth r N [])) by (first [rewrite SM by auto; auto|rewrite SN by auto; auto]).
  fold (cell M r j) (cell N r j). rewrite HM, HN.
  assert (E1 : firstn r M = firstn r N).
  { apply (firstn_ext_nth (@nil Z)); try lia. intros i Hi. apply nth_ext0; [rewrite SM, SN; auto; first [apply InM|apply InN]; lia|].
    intros c Hc. apply Hrows; auto. rewrite SM in Hc; auto. apply InM. lia. }
  assert (E2 : firstn j (nth r M []) = firstn j (nth r N [])).
  { apply (firstn_ext_nth 0); [rewrite SM; auto; lia|rewrite SN; auto; lia|]. intros c Hc. now apply Hrow. }
  rewrite E1, E2, <- !app_assoc, <- !app_comm_cons, !app_assoc.
  apply pack0_lex.
  - apply bits_app; [|apply concat_bits; intros row Hin; apply BM; rewrite <- (firstn_skipn (S r) M); apply in_app_iff; now right].
    intros a Ha. apply (BM (nth r M [])); auto. rewrite <- (firstn_skipn (S j) (nth r M [])). apply in_app_iff. now right.
  - apply bits_app; [|apply concat_bits; intros row Hin; apply BN; rewrite <- (firstn_skipn (S r) N); apply in_app_iff; now right].
    intros a Ha. apply (BN (nth r N [])); auto. rewrite <- (firstn_skipn (S j) (nth r N [])). apply in_app_iff. now right.
  - rewrite !app_length, !skipn_length, (SM (nth r M [])), (SN (nth r N [])) by auto. f_equal.
    apply (concat_length_eq v).
    + intros x Hx. apply SM. rewrite <- (firstn_skipn (S r) M). apply in_app_iff. now right.
    + intros x Hx. apply SN. rewrite <- (firstn_skipn (S r) N). apply in_app_iff. now right.
    + rewrite !skipn_length. lia.
Qed.

(** canonical or improvable: a finite search *)
Lemma canonical_dec v M : (forall i j, (i < v)%nat -> (j < v)%nat -> bit (cell M i j)) ->
  canonical v M \/ exists r j j', (r < j < j')%nat /\ (j' < v)%nat
    /\ (forall i, (i < r)%nat -> cell M i j = cell M i j') /\ cell M r j = 0 /\ cell M r j' = 1.
Proof.
  intros Hb.
  set (bad := fun t : nat * nat * nat => let '(r, j, j') := t in
     (r <? j)%nat && (j <? j')%nat && forallb (fun i => cell M i j =? cell M i j') (seq 0 r) && (cell M r j <? cell M r j')).
  set (all := list_prod (list_prod (seq 0 v) (seq 0 v)) (seq 0 v)).
  destruct (existsb bad all) eqn:E.
  - right. apply existsb_exists in E. destruct E as (((r, j), j') & Hin & Hbad). unfold bad in Hbad.
    rewrite !andb_true_iff in Hbad. destruct Hbad as (((H1 & H2) & H3) & H4).
    apply in_prod_iff in Hin. destruct Hin as [Hin H5]. apply in_prod_iff in Hin. destruct Hin as [H6 H7].
    apply in_seq in H5, H6, H7. rewrite forallb_forall in H3. exists r, j, j'.
    split; [lia|]. split; [lia|]. split.
    + intros i Hi. specialize (H3 i). rewrite in_seq in H3. specialize (H3 ltac:(lia)). lia.
    + destruct (Hb r j) as [E|E]; [lia|lia| |]; destruct (Hb r j') as [E'|E']; lia.
  - left. rewrite existsb_none in E. intros r j j' Hj Hj' He.
    destruct (Z_lt_le_dec (cell M r j) (cell M r j')) as [H|H]; auto. exfalso.
    specialize (E (r, j, j')). assert (Hin : In (r, j, j') all).
    { unfold all. apply in_prod_iff. split; [apply in_prod_iff; split|]; apply in_seq; lia. }
    specialize (E Hin). unfold bad in E.
    assert (forallb (fun i => cell M i j =? cell M i j') (seq 0 r) = true).
    { apply forallb_forall. intros i Hi. apply in_seq in Hi. rewrite He by lia. lia. }
    rewrite H0 in E. lia.
Qed.

Theorem canonical_exists v G : adjacency v G -> exists f, relabelling v f /\ canonical v (relabel v f G).
Proof.
  intros HG.
  set (B := 2 ^ Z.of_nat (length (concat (relabel v (fun i => i) G)))).
  assert (Hrange : forall f, relabelling v f -> 0 <= pack0 (concat (relabel v f G)) < B).
  { intros f Hf. pose proof (relabel_adjacency v f G Hf HG) as HA.
    assert (HB : bits (concat (relabel v f G))).
    { apply concat_bits. intros row Hr. apply (In_nth _ _ []) in Hr. destruct Hr as (i & Hi & <-).
      apply (adjacency_row_bits v); auto. destruct HA as ((HL & _) & _). lia. }
    pose proof (pack0_range _ HB) as Hp. unfold B.
    rewrite (concat_length_eq v _ (relabel v f G)); auto; try apply build_shape.
    destruct (build_shape v v (fun i j => cell G i j)), (build_shape v v (fun i j => cell G (f i) (f j))).
    unfold relabel. congruence. }
  assert (IH : forall n f, relabelling v f -> B - pack0 (concat (relabel v f G)) <= Z.of_nat n ->
     exists f', relabelling v f' /\ canonical v (relabel v f' G)).
  { induction n as [|n IH]; intros f Hf Hn; [specialize (Hrange f Hf); lia|].
    pose proof (relabel_adjacency v f G Hf HG) as HA. pose proof HA as (HS & Hb & Hsym & Hd).
    destruct (canonical_dec v (relabel v f G) Hb) as [Hc|(r & j & j' & Hj & Hj' & He & E0 & E1)]; [now exists f|].
    assert (Hf' : relabelling v (fun i => f (swap2 j j' i))) by (apply relabelling_compose; auto; apply swap2_relabelling; lia).
    apply (IH _ Hf').
    enough (pack0 (concat (relabel v f G)) < pack0 (concat (relabel v (fun i => f (swap2 j j' i)) G))) by lia.
    pose proof (relabel_adjacency v _ G Hf' HG) as HA'.
    assert (Hcell : forall a b, (a < v)%nat -> (b < v)%nat ->
       cell (relabel v (fun i => f (swap2 j j' i)) G) a b = cell (relabel v f G) (swap2 j j' a) (swap2 j j' b)).
    { intros a b Hal Hbl. destruct (swap2_relabelling v j j') as [Hsw _]; [lia|lia|]. rewrite !relabel_cell; auto. }
    assert (Hrow : forall row M, adjacency v M -> In row M -> bits row).
    { intros row M HAM Hr. apply (In_nth _ _ []) in Hr. destruct Hr as (i & Hi & <-).
      apply (adjacency_row_bits v); auto. destruct HAM as ((HL & _) & _). lia. }
    apply (concat_lex v _ _ r j); try lia; auto; try apply build_shape; eauto.
    - intros i c Hi Hcv. rewrite Hcell by lia. unfold swap2.
      destruct (Nat.eqb_spec i j); [lia|]. destruct (Nat.eqb_spec i j'); [lia|].
      destruct (Nat.eqb_spec c j) as [->|]; [now apply He|]. destruct (Nat.eqb_spec c j') as [->|]; [|auto].
      symmetry. now apply He.
    - intros c Hc. rewrite Hcell by lia. unfold swap2.
      destruct (Nat.eqb_spec r j); [lia|]. destruct (Nat.eqb_spec r j'); [lia|].
      destruct (Nat.eqb_spec c j); [lia|]. destruct (Nat.eqb_spec c j'); [lia|]. reflexivity.
    - rewrite Hcell by lia. unfold swap2. rewrite Nat.eqb_refl.
      destruct (Nat.eqb_spec r j); [lia|]. destruct (Nat.eqb_spec r j'); [lia|]. exact E1. }
  apply (IH (Z.to_nat B) (fun i => i)); [apply relabelling_id|].
  specialize (Hrange _ (relabelling_id v)). lia.
Qed.
