(** Proofs about srg/sorter.py [swap], srg/utils.py, srg/pprint.py [compose]
    and the database names. *)
From Coq Require Import String Ascii DecimalString DecimalZ DecimalPos.
From Verif Require Import Np ModelGauss Model ModelSort ModelUtil Spec QSpec SortSpec Lib Graph PartProps SortFacts MaxFacts.
From Coq Require Import ZifyBool ZifyNat Sorting.Permutation.
Open Scope list_scope.
Open Scope Z_scope.

(** ** swap *)
Lemma swap_cols_nth v i j a : (i < v)%nat -> (j < v)%nat -> (a < v)%nat -> nth a (swap_cols v i j) 0%nat = swap2 i j a.
Proof.
  intros Hi Hj Ha. unfold swap_cols, swap2. rewrite !nth_set_nth, set_nth_length, seq_length, seq_nth by auto.
  destruct (Nat.eqb_spec a j), (Nat.eqb_spec a i), (Nat.ltb_spec a v); simpl; lia.
Qed.
Lemma swap_cols_length v i j : length (swap_cols v i j) = v.
Proof. unfold swap_cols. now rewrite !set_nth_length, seq_length. Qed.
Lemma swap_cols_lt v i j k : (i < v)%nat -> (j < v)%nat -> In k (swap_cols v i j) -> (k < v)%nat.
Proof.
  intros Hi Hj Hk. destruct (In_nth _ _ 0%nat Hk) as (a & Ha & <-). rewrite swap_cols_length in Ha.
  rewrite swap_cols_nth by auto. now apply swap2_relabelling.
Qed.
Lemma swap2_invol i j a : swap2 i j (swap2 i j a) = a.
Proof.
  unfold swap2. destruct (Nat.eqb_spec a i) as [->|]; [|destruct (Nat.eqb_spec a j) as [->|]].
  - destruct (Nat.eqb_spec j i); auto. now rewrite Nat.eqb_refl.
  - now rewrite Nat.eqb_refl.
  - destruct (Nat.eqb_spec a i); [lia|]. destruct (Nat.eqb_spec a j); lia.
Qed.
Lemma swap_proof v M i j : shape v v M -> (i < v)%nat -> (j < v)%nat ->
  exists N, swap M i j = Ok N /\ shape v v N
    /\ (forall a b, (a < v)%nat -> (b < v)%nat -> cell N a b = cell M (exchange i j a) (exchange i j b))
    /\ swap N i j = Ok M.
Proof.
  intros HM Hi Hj. assert (HL : length M = v) by apply HM.
  assert (HS : forall P, shape v v P -> swap P i j = Ok (reindex (swap_cols v i j) P) /\ shape v v (reindex (swap_cols v i j) P)
     /\ forall a b, (a < v)%nat -> (b < v)%nat -> cell (reindex (swap_cols v i j) P) a b = cell P (exchange i j a) (exchange i j b)).
  { intros P HP. assert (LP : length P = v) by apply HP. unfold swap. rewrite LP.
    destruct (Nat.leb_spec v i); [lia|]. destruct (Nat.leb_spec v j); [lia|]. split; [reflexivity|].
    assert (HK : forall k, In k (swap_cols v i j) -> (k < length P)%nat) by (intros k Hk; rewrite LP; now apply (swap_cols_lt v i j)).
    split.
    - pose proof (reindex_shape _ P HK) as H1. now rewrite swap_cols_length in H1.
    - intros a b Ha Hb. rewrite reindex_cell; rewrite ?swap_cols_length; auto. now rewrite !swap_cols_nth. }
  destruct (HS M HM) as (E1 & S1 & C1). destruct (HS _ S1) as (E2 & S2 & C2).
  eexists. split; [exact E1|]. split; [auto|]. split; [auto|]. rewrite E2. f_equal. apply (matrix_ext v v); auto.
  intros a b Ha Hb. rewrite C2, C1; auto; try (now apply (swap2_relabelling v i j)).
  change exchange with swap2. now rewrite !swap2_invol.
Qed.
Lemma swap_range_proof v M i j : shape v v M -> (v <= i \/ v <= j)%nat -> swap M i j = Raise IndexError.
Proof.
  intros [HL _] H. unfold swap. rewrite HL. destruct (Nat.leb_spec v i), (Nat.leb_spec v j); auto. lia.
Qed.
Lemma trace_sumn v M : length M = v -> trace M = sumn v (fun a => cell M a a).
Proof. intros <-. reflexivity. Qed.
Lemma swap_verify_proof v M i j : symmetric v M -> sumn v (fun a => cell M a a) = 0 -> (i < v)%nat -> (j < v)%nat ->
  swap_and_verify M i j = swap M i j.
Proof.
  intros [HM HS] HT Hi Hj. destruct (swap_proof v M i j HM Hi Hj) as (N & E & HN & HC & _).
  unfold swap_and_verify. rewrite E. cbn [bind].
  assert (T : trace N = 0).
  { rewrite (trace_sumn v) by apply HN. rewrite <- HT.
    rewrite <- (sumn_relabel v (exchange i j) (fun a => cell M a a) (swap2_relabelling v i j Hi Hj)). apply sumn_ext. auto. }
  rewrite T. cbn [assert_ bind Z.eqb].
  rewrite (symmetricb_true v N); auto. split; auto. intros a b Ha Hb. rewrite !HC by auto. apply HS; now apply (swap2_relabelling v i j).
Qed.

(** ** complement *)
Lemma invert_cell v M : (0 < v)%nat -> shape v v M -> exists J, invert M = Ok J /\ shape v v J
  /\ forall i j, (i < v)%nat -> (j < v)%nat -> cell J i j = if cell M i j =? 0 then 1 else 0.
Proof.
  intros Hv [HL HR]. unfold invert.
  assert (HN : length (concat M) <> 0%nat).
  { destruct M as [|r M]; simpl in *; [lia|]. rewrite app_length, (HR r) by now left. lia. }
  destruct (Nat.eqb_spec (length (concat M)) 0); [contradiction|]. eexists. split; [reflexivity|]. split.
  - split; [now rewrite map_length|]. intros row Hr. apply in_map_iff in Hr. destruct Hr as (r & <- & Hr). rewrite map_length. auto.
  - intros i j Hi Hj. unfold cell. rewrite (nth_map_in _ _ _ (@nil Z)) by lia.
    rewrite (nth_map_in _ _ _ 0); [reflexivity|]. rewrite HR; [auto|]. apply nth_In. lia.
Qed.
Lemma map2_seq_nth {A B} (f : nat -> A -> B) l d d' i : (i < length l)%nat ->
  nth i (map2 f (seq 0 (length l)) l) d' = f i (nth i l d).
Proof.
  assert (G : forall l s i, (i < length l)%nat -> nth i (map2 f (seq s (length l)) l) d' = f (s + i)%nat (nth i l d)).
  { clear. induction l as [|a l IH]; intros s i Hi; simpl in *; [lia|]. destruct i as [|i]; [f_equal; lia|].
    rewrite IH by lia. f_equal. lia. }
  intros H. now rewrite G.
Qed.
Lemma map2_seq_length {A B} (f : nat -> A -> B) l : length (map2 f (seq 0 (length l)) l) = length l.
Proof.
  assert (G : forall l s, length (map2 f (seq s (length l)) l) = length l); [|apply G].
  clear. induction l as [|a l IH]; intros s; simpl; auto.
Qed.
Lemma complement_cell v M : (0 < v)%nat -> shape v v M -> exists N, complement M = Ok N /\ shape v v N
  /\ forall i j, (i < v)%nat -> (j < v)%nat ->
       cell N i j = (if cell M i j =? 0 then 1 else 0) - (if Nat.eqb i j then 1 else 0).
Proof.
  intros Hv HM. destruct (invert_cell v M Hv HM) as (J & E & [HL HR] & HC). unfold complement. rewrite E. cbn [bind].
  eexists. split; [reflexivity|]. split.
  - split; [now rewrite map2_seq_length|]. intros row Hr. destruct (In_nth _ _ (@nil Z) Hr) as (i & Hi & <-).
    rewrite map2_seq_length in Hi. rewrite (map2_seq_nth _ J (@nil Z)) by auto. rewrite map2_seq_length. apply HR, nth_In. auto.
  - intros i j Hi Hj. unfold cell at 1. rewrite (map2_seq_nth _ J (@nil Z)) by lia.
    rewrite (map2_seq_nth _ _ 0) by (rewrite HR; [auto|apply nth_In; lia]). f_equal. apply HC; auto.
Qed.
Lemma complement_adjacency v M : (0 < v)%nat -> adjacency v M -> exists N, complement M = Ok N /\ adjacency v N
  /\ forall i j, (i < v)%nat -> (j < v)%nat -> cell N i j = if Nat.eqb i j then 0 else 1 - cell M i j.
Proof.
  intros Hv (HM & HB & HS & HD). destruct (complement_cell v M Hv HM) as (N & E & HN & HC).
  assert (HC' : forall i j, (i < v)%nat -> (j < v)%nat -> cell N i j = if Nat.eqb i j then 0 else 1 - cell M i j).
  { intros i j Hi Hj. rewrite HC by auto. destruct (Nat.eqb_spec i j) as [->|].
    - rewrite HD by auto. reflexivity.
    - destruct (HB i j Hi Hj) as [-> | ->]; reflexivity. }
  exists N. split; auto. split; [|auto]. split; [auto|]. split; [|split].
  - intros i j Hi Hj. rewrite HC' by auto. destruct (i =? j)%nat; [now left|]. destruct (HB i j Hi Hj) as [-> | ->]; unfold bit; lia.
  - intros i j Hi Hj. rewrite !HC' by auto. rewrite (Nat.eqb_sym j i). destruct (i =? j)%nat; auto. rewrite HS; auto.
  - intros i Hi. rewrite HC' by auto. now rewrite Nat.eqb_refl.
Qed.
Lemma complement_srg_proof v k l u M : (0 < v)%nat -> srg v k l u M ->
  let '(v', k', l', u') := complement_vklu (Z.of_nat v) k l u in
  v' = Z.of_nat v /\ exists N, complement M = Ok N /\ srg v k' l' u' N /\ complement N = Ok M.
Proof.
  intros Hv (HA & HK & HCM). unfold complement_vklu. split; auto. pose proof HA as (HM & HB & HS & HD).
  destruct (complement_adjacency v M Hv HA) as (N & E & HN & HC). exists N. split; auto. split; [split; [auto|split]|].
  - intros i Hi. unfold degree.
    rewrite (sumn_ext v _ (fun w => (1 - cell M i w) - (if (w =? i)%nat then 1 else 0))).
    + rewrite sumn_minus, sumn_minus, sumn_const, (sumn_delta v i (fun _ => 1)) by auto.
      assert (HK' : sumn v (cell M i) = k) by exact (HK i Hi). lia.
    + intros w Hw. rewrite HC by auto. rewrite (Nat.eqb_sym i w). destruct (Nat.eqb_spec w i) as [->|]; [rewrite HD by auto|]; lia.
  - intros i j Hi Hj Hij. unfold common.
    assert (E1 : sumn v (fun w => cell N i w * cell N j w) =
      sumn v (fun w => 1 - cell M i w - cell M j w + cell M i w * cell M j w) - (1 - cell M i j) - (1 - cell M j i)).
    { rewrite (sumn_ext v (fun w => cell N i w * cell N j w)
        (fun w => if (w =? j)%nat then 0 else if (w =? i)%nat then 0 else 1 - cell M i w - cell M j w + cell M i w * cell M j w)).
      - rewrite (sumn_except v j) by auto. rewrite (sumn_except v i) by auto.
        destruct (Nat.eqb_spec j i); [lia|]. rewrite !HD by auto. lia.
      - intros w Hw. rewrite !HC by auto. rewrite (Nat.eqb_sym i w), (Nat.eqb_sym j w).
        destruct (w =? i)%nat, (w =? j)%nat; lia. }
    rewrite E1. rewrite sumn_plus, sumn_minus, sumn_minus, sumn_const.
    assert (K1 : sumn v (cell M i) = k) by exact (HK i Hi). assert (K2 : sumn v (cell M j) = k) by exact (HK j Hj).
    pose proof (HCM i j Hi Hj Hij) as K3. unfold common in K3.
    rewrite K1, K2, K3, (HS j i) by auto. rewrite HC by auto. destruct (Nat.eqb_spec i j); [lia|].
    destruct (HB i j Hi Hj) as [-> | ->]; [change (0 =? 1) with false; change (1 - 0 =? 1) with true|change (1 =? 1) with true; change (1 - 1 =? 1) with false]; cbv iota.
    all: lia.
  - destruct (complement_adjacency v N Hv HN) as (P & EP & HP & HCP). rewrite EP. f_equal.
    apply (matrix_ext v v); [apply HP|auto|]. intros i j Hi Hj. rewrite HCP, HC by auto.
    destruct (Nat.eqb_spec i j) as [->|]; [now rewrite HD|lia].
Qed.
Lemma complement_vklu_involution v k l u :
  let '(v', k', l', u') := complement_vklu v k l u in complement_vklu v' k' l' u' = (v, k, l, u).
Proof. unfold complement_vklu. repeat f_equal; lia. Qed.
Lemma complement_equation v k l u : (v - k - 1) * u = k * (k - l - 1) ->
  let '(v', k', l', u') := complement_vklu v k l u in (v' - k' - 1) * u' = k' * (k' - l' - 1).
Proof. unfold complement_vklu. intros H. nia. Qed.

(** ** eigenvalues *)
Lemma eig_proof v k l u D : 0 < D -> (l - u) ^ 2 + 4 * (k - u) = D ^ 2 ->
  exists r s f g, eig v k l u = Ok [(k, 1); (r, f); (s, g)]
    /\ r + s = l - u /\ r * s = u - k /\ s < r
    /\ forall f' g', f' + g' = v - 1 -> k + f' * r + g' * s = 0 -> f = f' /\ g = g'.
Proof.
  intros HD HE. unfold eig. rewrite HE.
  destruct (Z.ltb_spec (D ^ 2) 0); [nia|].
  replace (Z.sqrt (D ^ 2)) with D by (rewrite Z.pow_2_r, Z.sqrt_square; lia).
  destruct (Z.eqb_spec D 0); [lia|].
  assert (PAR : exists r, (l - u) + D = 2 * r).
  { destruct (Z.Even_or_Odd ((l - u) + D)) as [[r Hr]|[r Hr]]; [eauto|]. exfalso.
    assert (E : ((l - u) + D) * (D - (l - u)) = 4 * (k - u)) by nia.
    replace (D - (l - u)) with (2 * (r - (l - u)) + 1) in E by lia. rewrite Hr in E. lia. }
  destruct PAR as (r & Hr). set (s := (l - u) - r).
  assert (Hs : (l - u) - D = 2 * s) by (unfold s; lia).
  rewrite Hr, Hs. rewrite !(Z.mul_comm 2 r), !(Z.mul_comm 2 s). rewrite !Z.quot_mul by lia.
  eexists r, s, _, _. split; [reflexivity|]. split; [unfold s; lia|]. split; [nia|]. split; [lia|].
  intros f g Hfg HT. unfold conference.
  assert (ED : D = r - s) by lia.
  assert (EL : l - u = r + s) by (unfold s; lia).
  assert (EK : k = - (f * r + g * s)) by lia. clear - Hfg ED EL EK HD.
  assert (E1 : (v - 1) * D - (2 * k + (v - 1) * (l - u)) = f * (2 * D)) by (rewrite <- Hfg, ED, EL, EK; ring).
  assert (E2 : (v - 1) * D + (2 * k + (v - 1) * (l - u)) = g * (2 * D)) by (rewrite <- Hfg, ED, EL, EK; ring).
  rewrite E1, E2. rewrite !Z.quot_mul by lia. auto.
Qed.
Lemma eig_refuted_proof : exists v k l u, admissible (Z.to_nat v) k l u /\ 0 <= v
  /\ (l - u) ^ 2 + 4 * (k - u) = 5 ^ 2 /\ conference v k l u <> 0
  /\ exists r s f g, eig v k l u = Ok [(k, 1); (r, f); (s, g)] /\ 1 + f + g <> v /\ k + f * r + g * s <> 0.
Proof.
  exists 22, 9, 4, 3. split; [unfold admissible; lia|]. split; [lia|]. split; [reflexivity|]. split; [discriminate|].
  eexists _, _, _, _. split; [reflexivity|]. split; discriminate.
Qed.

(** ** compose *)
Lemma compose_proof {A} (f : A -> A) fs : exists h, compose (f :: fs) = Ok h
  /\ forall x, h x = f (fold_right (fun g y => g y) x fs).
Proof.
  unfold compose. eexists. split; [reflexivity|]. revert f. induction fs as [|g fs IH]; intros f x; simpl; auto.
  rewrite IH. reflexivity.
Qed.

(** ** names *)
Definition wordlike (s : string) : Prop := forall c, In c (list_ascii_of_string s) -> c <> underscore.
Lemma split_cons s : exists w ws, split s = w :: ws.
Proof. destruct s as [|c s]; simpl; [eauto|]. destruct (Ascii.eqb c underscore); [eauto|]. destruct (split s); eauto. Qed.
Lemma split_word s t : wordlike s -> split (s ++ String underscore t) = s :: split t.
Proof.
  induction s as [|c s IH]; intros H; simpl.
  - reflexivity.
  - destruct (Ascii.eqb_spec c underscore) as [E|E]; [exfalso; eapply (H c); simpl; auto|].
    rewrite IH; auto. intros d Hd. apply H. simpl. auto.
Qed.
Lemma split_last s : wordlike s -> split s = [s].
Proof.
  induction s as [|c s IH]; intros H; simpl; auto.
  destruct (Ascii.eqb_spec c underscore) as [E|E]; [exfalso; eapply (H c); simpl; auto|].
  rewrite IH; auto. intros d Hd. apply H. simpl. auto.
Qed.
Lemma uint_word d : wordlike (NilEmpty.string_of_uint d).
Proof.
  unfold wordlike. induction d; simpl; intros c Hc; try (destruct Hc as [<-|Hc]; [discriminate|]); auto; contradiction.
Qed.
Lemma str_word z : wordlike (str z).
Proof.
  unfold str, NilZero.string_of_int, NilZero.string_of_uint.
  assert (G : forall d, wordlike (match d with Decimal.Nil => "0"%string | _ => NilEmpty.string_of_uint d end)).
  { intros d. destruct d; try apply uint_word. intros c [<-|[]]. discriminate. }
  destruct (Z.to_int z) as [d|d]; [apply G|]. intros c [<-|Hc]; [discriminate|]. revert c Hc. apply G.
Qed.
Ltac read_digit := change (digit_of "0"%char) with (Some 0); change (digit_of "1"%char) with (Some 1); change (digit_of "2"%char) with (Some 2); change (digit_of "3"%char) with (Some 3); change (digit_of "4"%char) with (Some 4); change (digit_of "5"%char) with (Some 5); change (digit_of "6"%char) with (Some 6); change (digit_of "7"%char) with (Some 7); change (digit_of "8"%char) with (Some 8); change (digit_of "9"%char) with (Some 9); cbv iota beta.
Lemma more_digits_acc d : forall p, more_digits (Z.pos p) (NilEmpty.string_of_uint d) = Ok (Z.pos (Pos.of_uint_acc d p)).
Proof.
  induction d; intros p; [reflexivity|..]; cbn [NilEmpty.string_of_uint more_digits Pos.of_uint_acc]; read_digit; rewrite <- IHd; f_equal; lia.
Qed.
Lemma more_digits_uint d : more_digits 0 (NilEmpty.string_of_uint d) = Ok (Z.of_uint d).
Proof.
  induction d; [reflexivity|exact IHd|..]; cbn [NilEmpty.string_of_uint more_digits]; read_digit; apply (more_digits_acc d).
Qed.
Lemma digits_first_uint d : digits_first (NilZero.string_of_uint d) = Ok (Z.of_uint d).
Proof.
  pose proof (more_digits_uint d) as H. destruct d; [reflexivity|..]; exact H.
Qed.
Lemma uint_head d : exists c s, NilZero.string_of_uint d = String c s /\ blank c = false /\ Ascii.eqb c "-" = false /\ Ascii.eqb c "+" = false.
Proof. destruct d; cbn; eauto 8. Qed.
Lemma int_of_str z : int_of (str z) = Ok z.
Proof.
  rewrite <- (of_to z) at 2. unfold str, NilZero.string_of_int. destruct (Z.to_int z) as [d|d].
  - pose proof (digits_first_uint d) as H. destruct (uint_head d) as (c & s & E & E1 & E2 & E3). rewrite E in *. cbn [int_of].
    rewrite E1, E2, E3, H. reflexivity.
  - cbn [int_of]. change (blank "-") with false. change (Ascii.eqb "-" "-") with true. cbv iota. rewrite digits_first_uint. reflexivity.
Qed.
Lemma name_round_trip v k l u : extract_vklu (problem_name v k l u) = Ok [v; k; l; u].
Proof.
  unfold extract_vklu, problem_name.
  assert (A : forall a b c : string, ((a ++ b) ++ c = a ++ (b ++ c))%string).
  { intros a b c. induction a as [|x a IH]; simpl; congruence. }
  change ("problem_" ++ str v ++ "_" ++ str k ++ "_" ++ str l ++ "_" ++ str u)%string
    with ("problem" ++ String underscore (str v ++ String underscore (str k ++ String underscore (str l ++ String underscore (str u)))))%string.
  rewrite split_word by (intros c Hc; simpl in Hc; intuition (subst; discriminate)).
  rewrite !split_word by apply str_word. rewrite split_last by apply str_word.
  cbn [tl mapM]. rewrite !int_of_str. reflexivity.
Qed.
Lemma name_injective v k l u v' k' l' u' : problem_name v k l u = problem_name v' k' l' u' -> (v, k, l, u) = (v', k', l', u').
Proof.
  intros E. assert (H : extract_vklu (problem_name v k l u) = extract_vklu (problem_name v' k' l' u')) by now rewrite E.
  rewrite !name_round_trip in H. congruence.
Qed.
