(** Rows of bits and their integer keys: [pack], [dec2bin]. *)
From Verif Require Import Np ModelGauss Spec Lib.
From Coq Require Import ZifyBool ZifyNat.

(** the row of width [C] with key [k] *)
Fixpoint row_of (C : nat) (k : Z) : list Z :=
  match C with
  | O => []
  | S C' => Z.b2z (Z.testbit k (Z.of_nat C')) :: row_of C' k
  end.

Lemma row_of_length C k : length (row_of C k) = C.
Proof. induction C; simpl; auto. Qed.

Lemma row_of_bits C k : bits (row_of C k).
Proof.
  induction C as [|C IH]; intros a; simpl; [easy|].
  intros [<-|H]; [|now apply IH]. destruct (Z.testbit _ _); [now right|now left].
Qed.

Lemma row_of_mod C k n : (C <= n)%nat -> row_of C (k mod 2 ^ Z.of_nat n) = row_of C k.
Proof.
  induction C as [|C IH]; intros H; simpl; auto. f_equal; [|apply IH; lia].
  rewrite Z.mod_pow2_bits_low; auto; lia.
Qed.

(** the ideal key *)
Fixpoint pack0 (x : list Z) : Z :=
  match x with
  | [] => 0
  | a :: t => a * 2 ^ Z.of_nat (length t) + pack0 t
  end.

Lemma bits_cons a x : bits (a :: x) -> bit a /\ bits x.
Proof. intros H. split; [apply H; now left|intros b Hb; apply H; now right]. Qed.

Lemma pack0_range x : bits x -> 0 <= pack0 x < 2 ^ Z.of_nat (length x).
Proof.
  induction x as [|a x IH]; intros H; [simpl; lia|].
  apply bits_cons in H. destruct H as [Ha Hx]. specialize (IH Hx).
  cbn [pack0 length]. rewrite Nat2Z.inj_succ, Z.pow_succ_r by lia.
  destruct Ha as [->| ->]; lia.
Qed.

Lemma pow63 n : (n <= 63)%nat -> 2 ^ Z.of_nat n <= 9223372036854775808.
Proof. intros H. change 9223372036854775808 with (2 ^ 63). apply Z.pow_le_mono_r; lia. Qed.

Lemma pack_pack0 x : bits x -> (length x <= 63)%nat -> pack x = pack0 x.
Proof.
  induction x as [|a x IH]; intros H Hl; [reflexivity|].
  pose proof (pack0_range _ H) as Hr. pose proof (pow63 _ Hl) as Hp.
  apply bits_cons in H. destruct H as [Ha Hx]. simpl in Hl.
  cbn [pack]. rewrite IH by (auto; lia). pose proof (pack0_range _ Hx) as Hrx.
  cbn [pack0] in *. rewrite Z.shiftl_mul_pow2 by lia.
  rewrite (i64_id (a * _)) by (destruct Ha as [->| ->]; lia).
  rewrite i64_id by lia. lia.
Qed.

Lemma row_of_pack0_high C x a n : bits x -> (C <= length x)%nat -> (length x <= n)%nat ->
  row_of C (a * 2 ^ Z.of_nat n + pack0 x) = row_of C (pack0 x).
Proof.
  intros Hx HC Hn.
  rewrite <- (row_of_mod C (a * 2 ^ Z.of_nat n + pack0 x) n) by lia.
  rewrite Z.add_comm, Z.mod_add by (apply Z.pow_nonzero; lia).
  now apply row_of_mod; lia.
Qed.

Lemma row_of_pack0 x : bits x -> row_of (length x) (pack0 x) = x.
Proof.
  induction x as [|a x IH]; intros H; [reflexivity|].
  apply bits_cons in H. destruct H as [Ha Hx].
  cbn [length row_of pack0]. f_equal.
  - pose proof (pack0_range _ Hx) as Hr.
    assert (E : Z.testbit (a * 2 ^ Z.of_nat (length x) + pack0 x) (Z.of_nat (length x)) = (a =? 1)).
    { rewrite Z.testbit_eqb by lia.
      rewrite Z.div_add_l by (apply Z.pow_nonzero; lia).
      rewrite Z.div_small by lia. destruct Ha as [->| ->]; reflexivity. }
    rewrite E. destruct Ha as [->| ->]; reflexivity.
  - rewrite row_of_pack0_high by (auto; lia). auto.
Qed.

Lemma row_of_pack x : bits x -> (length x <= 63)%nat -> row_of (length x) (pack x) = x.
Proof. intros. rewrite pack_pack0 by auto. now apply row_of_pack0. Qed.

Lemma pack_range x : bits x -> (length x <= 63)%nat -> 0 <= pack x < 2 ^ Z.of_nat (length x).
Proof. intros. rewrite pack_pack0 by auto. now apply pack0_range. Qed.

Lemma pack0_row_of C k : 0 <= k < 2 ^ Z.of_nat C -> pack0 (row_of C k) = k.
Proof.
  revert k; induction C as [|C IH]; intros k H; [simpl in *; lia|].
  cbn [row_of pack0]. rewrite row_of_length.
  rewrite Nat2Z.inj_succ, Z.pow_succ_r in H by lia.
  assert (Hp : 0 < 2 ^ Z.of_nat C) by (apply Z.pow_pos_nonneg; lia).
  rewrite Z.testbit_spec' by lia.
  rewrite <- (row_of_mod C k C) by lia.
  rewrite IH by (apply Z.mod_pos_bound; lia).
  assert (E : k / 2 ^ Z.of_nat C = 0 \/ k / 2 ^ Z.of_nat C = 1).
  { assert (0 <= k / 2 ^ Z.of_nat C) by (apply Z.div_pos; lia).
    assert (k / 2 ^ Z.of_nat C < 2) by (apply Z.div_lt_upper_bound; lia). lia. }
  pose proof (Z.div_mod k (2 ^ Z.of_nat C) ltac:(lia)) as D.
  destruct E as [E|E]; rewrite E in *; [change (0 mod 2) with 0|change (1 mod 2) with 1]; lia.
Qed.

Lemma pack_row_of C k : (C <= 63)%nat -> 0 <= k < 2 ^ Z.of_nat C -> pack (row_of C k) = k.
Proof.
  intros HC Hk. rewrite pack_pack0; auto using row_of_bits, pack0_row_of.
  now rewrite row_of_length.
Qed.

Lemma pack_inj x y : bits x -> bits y -> length x = length y -> (length x <= 63)%nat ->
  pack x = pack y -> x = y.
Proof.
  intros Hx Hy Hl H63 E. rewrite <- (row_of_pack x), <- (row_of_pack y) by (auto; lia).
  now rewrite Hl, E.
Qed.

(** packing columns: with exactly 64 bits the key may be negative but is
    still injective *)
Lemma pack_inj64 x y : bits x -> bits y -> length x = length y -> (length x <= 64)%nat ->
  pack x = pack y -> x = y.
Proof.
  intros Hx Hy Hl H64 E. destruct (Nat.le_gt_cases (length x) 63) as [H|H]; [now apply pack_inj|].
  destruct x as [|a x], y as [|b y]; simpl in *; try lia.
  apply bits_cons in Hx, Hy. destruct Hx as [Ha Hx], Hy as [Hb Hy].
  assert (Lx : length x = 63%nat) by lia. assert (Ly : length y = 63%nat) by lia.
  rewrite Lx, Ly in E. rewrite !pack_pack0 in E by (auto; lia).
  pose proof (pack0_range _ Hx) as Rx. pose proof (pack0_range _ Hy) as Ry.
  rewrite Lx in Rx. rewrite Ly in Ry. change (2 ^ Z.of_nat 63) with 9223372036854775808 in *.
  change (Z.of_nat 63) with 63 in *.
  assert (S0 : i64 (Z.shiftl 0 63) = 0) by reflexivity.
  assert (S1 : i64 (Z.shiftl 1 63) = -9223372036854775808) by reflexivity.
  destruct Ha as [-> | ->], Hb as [-> | ->]; rewrite ?S0, ?S1 in E;
  rewrite !i64_id in E by lia; try lia; f_equal;
  apply pack_inj; auto; try lia; rewrite !pack_pack0; auto; lia.
Qed.

(** an entry with 64 or more entries behind it does not reach the key *)
Lemma shift_lost c n : (64 <= n)%nat -> i64 (Z.shiftl c (Z.of_nat n)) = 0.
Proof.
  intros HL. rewrite Z.shiftl_mul_pow2 by lia. unfold i64, wrap.
  replace (Z.of_nat n) with (64 + Z.of_nat (n - 64)) by lia. rewrite Z.pow_add_r by lia.
  set (d := c * (2 ^ 64 * 2 ^ Z.of_nat (n - 64))).
  assert (Hd : d = (c * 2 ^ Z.of_nat (n - 64)) * (2 * 9223372036854775808))
    by (unfold d; change (2 ^ 64) with (2 * 9223372036854775808); ring).
  destruct (Z.leb_spec (- (9223372036854775808)) d), (Z.ltb_spec d 9223372036854775808); cbn [andb].
  1: { rewrite Hd in *. set (q := c * 2 ^ Z.of_nat (n - 64)) in *. assert (q = 0) by lia. lia. }
  all: rewrite Z.add_comm, Hd, Z.mod_add by lia; reflexivity.
Qed.
Lemma pack_lost a b x : (64 <= length x)%nat -> pack (a :: x) = pack (b :: x).
Proof. intros HL. cbn [pack]. now rewrite !shift_lost by auto. Qed.
(** so with 65 entries the key determines all but the first *)
Lemma pack_inj65 a x y : bits x -> bits y -> length x = 64%nat -> length y = 64%nat ->
  pack (a :: x) = pack (a :: y) -> x = y.
Proof.
  intros Hx Hy Lx Ly. destruct x as [|b x], y as [|c y]; simpl length in *; try lia.
  change (i64 (pack (b :: x) + i64 (Z.shiftl a (Z.of_nat (length (b :: x))))) = i64 (pack (c :: y) + i64 (Z.shiftl a (Z.of_nat (length (c :: y))))) -> b :: x = c :: y).
  assert (Lx1 : length (b :: x) = 64%nat) by exact Lx. assert (Ly1 : length (c :: y) = 64%nat) by exact Ly.
  rewrite Lx1, Ly1, (shift_lost a 64) by lia. rewrite !Z.add_0_r. intros E.
  assert (R : forall d z, i64 (pack (d :: z)) = pack (d :: z)).
  { intros d z. apply i64_id. cbn [pack]. set (w := pack z + _). clearbody w. unfold i64, wrap.
    destruct (Z.leb_spec (- (9223372036854775808)) w), (Z.ltb_spec w 9223372036854775808); cbn [andb]; [lia|..];
      pose proof (Z.mod_pos_bound (w + 9223372036854775808) (2 * 9223372036854775808) ltac:(lia)); lia. }
  rewrite !R in E. apply pack_inj64; auto; rewrite ?Lx1, ?Ly1; lia.
Qed.

(** ** dec2bin *)
Lemma row_of_snoc C k : row_of (S C) k = row_of C (Z.div2 k) ++ [Z.b2z (Z.odd k)].
Proof.
  induction C as [|C IH].
  - cbn [row_of app Z.of_nat]. now rewrite Z.bit0_odd.
  - change (row_of (S (S C)) k) with (Z.b2z (Z.testbit k (Z.of_nat (S C))) :: row_of (S C) k).
    rewrite IH. cbn [row_of app]. f_equal.
    f_equal. rewrite Z.div2_spec, Z.shiftr_spec by lia. f_equal. lia.
Qed.

Lemma pos_bits_length_pos p : (1 <= length (pos_bits p))%nat.
Proof. destruct p; simpl; rewrite ?app_length; simpl; lia. Qed.

Lemma pad_left_snoc C x a : pad_left (S C) (x ++ [a]) = pad_left C x ++ [a].
Proof.
  unfold pad_left. rewrite app_length. simpl length.
  replace (S C - (length x + 1))%nat with (C - length x)%nat by lia.
  now rewrite app_assoc.
Qed.

Lemma pad_left_pos_bits p : forall C, (length (pos_bits p) <= C)%nat ->
  pad_left C (pos_bits p) = row_of C (Zpos p).
Proof.
  induction p as [p IH|p IH|]; intros C H.
  - cbn [pos_bits] in *. rewrite app_length in H. simpl in H.
    destruct C as [|C]; [lia|]. rewrite pad_left_snoc, row_of_snoc, IH by lia. reflexivity.
  - cbn [pos_bits] in *. rewrite app_length in H. simpl in H.
    destruct C as [|C]; [lia|]. rewrite pad_left_snoc, row_of_snoc, IH by lia. reflexivity.
  - simpl in H. destruct C as [|C]; [lia|]. clear H.
    change (pos_bits 1) with ([] ++ [1]). rewrite pad_left_snoc, row_of_snoc.
    change (Z.div2 1) with 0. simpl Z.odd. f_equal.
    unfold pad_left. simpl. rewrite app_nil_r, Nat.sub_0_r.
    induction C as [|C IH]; simpl; auto. rewrite IH, Z.testbit_0_l. reflexivity.
Qed.

Lemma pos_bits_range p : 2 ^ (Z.of_nat (length (pos_bits p)) - 1) <= Zpos p < 2 ^ Z.of_nat (length (pos_bits p)).
Proof.
  induction p as [p IH|p IH|]; cbn [pos_bits]; try rewrite app_length; simpl length.
  - pose proof (pos_bits_length_pos p).
    replace (Z.of_nat (length (pos_bits p) + 1)) with (Z.succ (Z.of_nat (length (pos_bits p)))) by lia.
    rewrite Z.pow_succ_r by lia.
    replace (Z.succ (Z.of_nat (length (pos_bits p))) - 1) with (Z.succ (Z.of_nat (length (pos_bits p)) - 1)) by lia.
    rewrite Z.pow_succ_r by lia. lia.
  - pose proof (pos_bits_length_pos p).
    replace (Z.of_nat (length (pos_bits p) + 1)) with (Z.succ (Z.of_nat (length (pos_bits p)))) by lia.
    rewrite Z.pow_succ_r by lia.
    replace (Z.succ (Z.of_nat (length (pos_bits p))) - 1) with (Z.succ (Z.of_nat (length (pos_bits p)) - 1)) by lia.
    rewrite Z.pow_succ_r by lia. lia.
  - simpl. lia.
Qed.

Lemma dec2bin_length C k : 0 < k < 2 ^ Z.of_nat C -> (length (dec2bin k) <= C)%nat.
Proof.
  intros H. destruct k as [|p|p]; try lia. simpl dec2bin.
  pose proof (pos_bits_range p) as R. pose proof (pos_bits_length_pos p).
  destruct (Nat.le_gt_cases (length (pos_bits p)) C) as [?|G]; auto.
  assert (2 ^ Z.of_nat C <= 2 ^ (Z.of_nat (length (pos_bits p)) - 1)) by (apply Z.pow_le_mono_r; lia).
  lia.
Qed.
Lemma dec2bin_length_high C k : 2 ^ (Z.of_nat C - 1) <= k < 2 ^ Z.of_nat C -> (1 <= C)%nat ->
  length (dec2bin k) = C.
Proof.
  intros H HC. assert (0 < 2 ^ (Z.of_nat C - 1)) by (apply Z.pow_pos_nonneg; lia).
  pose proof (dec2bin_length C k ltac:(lia)).
  destruct k as [|p|p]; try lia. simpl dec2bin in *.
  pose proof (pos_bits_range p) as R.
  destruct (Nat.lt_ge_cases (length (pos_bits p)) C) as [G|?]; try lia.
  assert (2 ^ Z.of_nat (length (pos_bits p)) <= 2 ^ (Z.of_nat C - 1)) by (apply Z.pow_le_mono_r; lia).
  lia.
Qed.
Lemma pad_left_dec2bin C k : 0 < k < 2 ^ Z.of_nat C -> pad_left C (dec2bin k) = row_of C k.
Proof.
  intros H. pose proof (dec2bin_length C k H). destruct k as [|p|p]; try lia.
  now apply pad_left_pos_bits.
Qed.

Lemma row_of_first C k : 0 <= k < 2 ^ Z.of_nat C -> (1 <= C)%nat ->
  nth 0 (row_of C k) 0 = 1 -> 2 ^ (Z.of_nat C - 1) <= k.
Proof.
  intros H HC. destruct C as [|C]; [lia|]. cbn [row_of nth].
  rewrite Z.testbit_spec' by lia. intros E.
  replace (Z.of_nat (S C) - 1) with (Z.of_nat C) by lia.
  destruct (Z.lt_ge_cases k (2 ^ Z.of_nat C)) as [L|L]; auto.
  rewrite Z.div_small in E by lia. simpl in E. lia.
Qed.

(** ** subtraction of a contained row *)
Lemma land_sub_ldiff m k : Z.land m k = m -> k - m = Z.ldiff k m.
Proof.
  intros H. apply Z.sub_nocarry_ldiff. apply Z.bits_inj_0. intros n.
  rewrite Z.ldiff_spec. assert (E : Z.testbit (Z.land m k) n = Z.testbit m n) by now rewrite H.
  rewrite Z.land_spec in E. destruct (Z.testbit m n), (Z.testbit k n); simpl in *; congruence.
Qed.

Lemma land_le m k : 0 <= m -> 0 <= k -> Z.land m k = m -> m <= k.
Proof.
  intros Hm Hk H. pose proof (land_sub_ldiff _ _ H) as E.
  assert (0 <= Z.ldiff k m) by (apply Z.ldiff_nonneg; auto). lia.
Qed.

Lemma row_of_sub C m k : Z.land m k = m -> row_of C k = vadd (row_of C m) (row_of C (k - m)).
Proof.
  intros H. rewrite (land_sub_ldiff _ _ H).
  induction C as [|C IH]; [reflexivity|].
  unfold vadd in *. cbn [row_of map2]. rewrite <- IH. f_equal.
  rewrite Z.ldiff_spec.
  assert (E : Z.testbit (Z.land m k) (Z.of_nat C) = Z.testbit m (Z.of_nat C)) by now rewrite H.
  rewrite Z.land_spec in E.
  destruct (Z.testbit m _), (Z.testbit k _); simpl in *; congruence.
Qed.

Lemma row_of_0 C : row_of C 0 = repeat 0 C.
Proof. induction C as [|C IH]; simpl; auto. now rewrite IH, Z.testbit_0_l. Qed.

Lemma row_of_nonzero C k : 0 < k < 2 ^ Z.of_nat C -> exists j, (j < C)%nat /\ nth j (row_of C k) 0 = 1.
Proof.
  intros H. destruct (existsb (fun j => nth j (row_of C k) 0 =? 1) (seq 0 C)) eqn:E.
  - apply existsb_exists in E. destruct E as (j & Hj & E). apply in_seq in Hj.
    exists j. split; lia.
  - exfalso. assert (R : row_of C k = repeat 0 C).
    { apply nth_ext0; rewrite row_of_length; [now rewrite repeat_length|].
      intros i Hi. rewrite nth_repeat_lt by auto.
      assert (Hb : bit (nth i (row_of C k) 0)).
      { apply row_of_bits with (C := C) (k := k). apply nth_In. rewrite row_of_length; auto. }
      destruct Hb as [Hb|Hb]; auto.
      rewrite existsb_none in E. specialize (E i). rewrite Hb in E.
      rewrite in_seq in E. specialize (E ltac:(lia)). discriminate. }
    rewrite <- row_of_0 in R. apply (f_equal pack0) in R.
    rewrite !pack0_row_of in R by lia. lia.
Qed.
