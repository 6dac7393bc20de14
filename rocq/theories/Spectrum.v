(** The spectrum of a strongly regular graph and what [eig] and [determinant]
    return for its parameters. *)
From Coq Require Import Znumtheory.
From Verif Require Import Np Model ModelSort ModelUtil Spec AlgSpec Lib Graph SolveFacts Check SolverProps Witness UtilProps LinAlg Det.

(** ** integers as an integral domain *)
Notation zs := (sm Z 0 Z.add).
Lemma zs_sumn n f : zs n f = sumn n f.
Proof. induction n; [reflexivity|]. rewrite sumn_S, <- IHn. reflexivity. Qed.
Lemma Zdom a b : a * b = 0 -> a = 0 \/ b = 0.
Proof. apply Z.mul_eq_0. Qed.
Definition zfactor := factor Z 0 Z.add Z.mul.
Definition zquasi := quasi Z 0 Z.add Z.mul.
Lemma zfactor_exists n E c : c <> 0 -> zquasi n E c -> exists m W C d, zfactor n E c m W C d.
Proof. apply (quasi_factor Z 0 1 Z.add Z.mul Z.sub Z.opp InitialRing.Zth Zdom Z.eq_dec). Qed.
Lemma zfactor_trace n E c m W C d : zfactor n E c m W C d -> sumn n (fun i => E i i) = c * Z.of_nat m.
Proof.
  intro F. rewrite <- zs_sumn, (factor_trace Z 0 1 Z.add Z.mul Z.sub Z.opp InitialRing.Zth Zdom n E c m W C d F).
  rewrite zs_sumn. apply sumn_const.
Qed.

(** ** the numbers a + b sqrt d for a d that is not a square *)
Lemma square_quotient d b : b <> 0 -> forall a, a * a = d * (b * b) -> exists x, x * x = d.
Proof.
  intros Hb a H. assert (Hg : Z.gcd a b <> 0) by (intro E; apply Z.gcd_eq_0_r in E; auto).
  destruct (Z.gcd_divide_l a b) as (a' & Ea), (Z.gcd_divide_r a b) as (b' & Eb).
  set (g := Z.gcd a b) in *.
  assert (GC : Z.gcd a' b' = 1).
  { assert (E : g = Z.gcd a' b' * g).
    { unfold g at 1. rewrite Ea, Eb, Z.gcd_mul_mono_r. f_equal. apply Z.abs_eq, Z.gcd_nonneg. }
    nia. }
  assert (RP : rel_prime b' a').
  { apply rel_prime_sym. pose proof (Zgcd_is_gcd a' b') as Z1. rewrite GC in Z1. exact Z1. }
  assert (E : a' * a' = d * (b' * b')) by (rewrite Ea, Eb in H; apply (Z.mul_reg_r _ _ (g * g)); nia).
  assert (D1 : (b' | 1)).
  { apply (Gauss b' a' 1); [|auto]. rewrite Z.mul_1_r. apply (Gauss b' a' a'); [exists (d * b'); lia|auto]. }
  exists a'. assert (b' = 1 \/ b' = -1) by (apply Z.divide_1_r; auto). nia.
Qed.

Section Quad.
  Variable d : Z.
  Hypothesis nsq : forall x, x * x <> d.
  Definition qadd (x y : Z * Z) := (fst x + fst y, snd x + snd y).
  Definition qsub (x y : Z * Z) := (fst x - fst y, snd x - snd y).
  Definition qopp (x : Z * Z) := (- fst x, - snd x).
  Definition qmul (x y : Z * Z) := (fst x * fst y + d * snd x * snd y, fst x * snd y + snd x * fst y).
  Lemma qth : ring_theory (0, 0) (1, 0) qadd qmul qsub qopp eq.
  Proof.
    split; intros; unfold qadd, qsub, qopp, qmul; repeat match goal with x : (Z * Z)%type |- _ => destruct x end; cbn [fst snd];
      apply (f_equal2 pair); ring.
  Qed.
  Lemma norm_0 a b : a * a - d * (b * b) = 0 -> a = 0 /\ b = 0.
  Proof.
    intro H. destruct (Z.eq_dec b 0) as [->|Hb]; [split; [nia|auto]|]. exfalso.
    destruct (square_quotient d b Hb a) as (x & Hx); [lia|]. now apply (nsq x).
  Qed.
  Lemma qdom x y : qmul x y = (0, 0) -> x = (0, 0) \/ y = (0, 0).
  Proof.
    destruct x as [a b], y as [c e]. unfold qmul. cbn [fst snd]. intro H. injection H as H1 H2.
    assert (N : (a * a - d * (b * b)) * (c * c - d * (e * e)) = 0).
    { transitivity ((a * c + d * b * e) * (a * c + d * b * e) - d * ((a * e + b * c) * (a * e + b * c))); [ring|].
      rewrite H1, H2. lia. }
    apply Z.mul_eq_0 in N. destruct N as [N|N]; apply norm_0 in N; destruct N as [-> ->]; auto.
  Qed.
  Lemma qdec (x y : Z * Z) : {x = y} + {x <> y}.
  Proof. decide equality; apply Z.eq_dec. Qed.
  Lemma qs_pair n f : sm (Z * Z) (0, 0) qadd n f = (sumn n (fun i => fst (f i)), sumn n (fun i => snd (f i))).
  Proof. induction n; [reflexivity|]. cbn [sm]. rewrite IHn. unfold qadd. cbn [fst snd]. now rewrite !sumn_S. Qed.
End Quad.

(** ** strongly regular graphs *)
Section Graph.
  Variables (v : nat) (k l u : Z) (G : list (list Z)).
  Hypothesis HG : srg v k l u G.
  Hypothesis Hk : 1 <= k < Z.of_nat v - 1.
  Let V := Z.of_nat v.
  Let A := cell G.
  Let delta (i j : nat) : Z := if (i =? j)%nat then 1 else 0.

  Lemma sp_deg i : (i < v)%nat -> sumn v (A i) = k.
  Proof. intro Hi. destruct HG as (_ & Hd & _). now apply Hd. Qed.
  Lemma sp_sym i j : (i < v)%nat -> (j < v)%nat -> A i j = A j i.
  Proof. destruct HG as ((_ & _ & Hs & _) & _). apply Hs. Qed.
  Lemma sp_bit i j : (i < v)%nat -> (j < v)%nat -> A i j = 0 \/ A i j = 1.
  Proof. destruct HG as ((_ & Hb & _) & _). apply Hb. Qed.
  Lemma sp_deg' j : (j < v)%nat -> sumn v (fun i => A i j) = k.
  Proof. intro Hj. rewrite <- (sp_deg j Hj). apply sumn_ext. intros i Hi. now apply sp_sym. Qed.
  Lemma sp_AA i j : (i < v)%nat -> (j < v)%nat ->
    sumn v (fun w => A i w * A w j) = (l - u) * A i j + delta i j * (k - u) + u.
  Proof.
    intros Hi Hj. pose proof (proj1 (srg_identity v k l u G (proj1 HG)) HG i j Hi Hj) as H. fold A in H.
    unfold delta. destruct (i =? j)%nat; lia.
  Qed.
  Lemma sp_count : k * k = (l - u) * k + (k - u) + u * V.
  Proof.
    assert (H0 : (0 < v)%nat) by lia.
    pose proof (assert_srg_proof v k l u G H0 HG) as H. unfold assert_srg, assert_ in H.
    destruct (Z.eqb_spec ((Z.of_nat v - k - 1) * u) (k * (k - l - 1))) as [E|]; [|discriminate]. fold V in E. lia.
  Qed.
  Lemma sp_l : l <= k - 1 /\ u <= k /\ 0 <= u.
  Proof.
    assert (H0 : (0 < v)%nat) by lia. destruct HG as ((_ & Hb & Hs & Hz) & Hd & Hc).
    assert (P : forall c, (forall i, (i < v)%nat -> cell G 0 i = 0 \/ cell G 0 i = 1) ->
              (exists j, (j < v)%nat /\ j <> 0%nat /\ cell G 0 j = c) \/ (forall j, (j < v)%nat -> j <> 0%nat -> cell G 0 j <> c)).
    { intros c _. clear - c. induction v as [|n [(j & Hj & H)|H]]; [right; lia|left; exists j; split; [lia|auto]|].
      destruct (Z.eq_dec (cell G 0 n) c) as [E|E]; [destruct n; [right; lia|left; exists (S n); split; [lia|split; [lia|auto]]]|].
      right. intros j Hj Hn. destruct (Nat.eq_dec j n) as [->|]; [auto|apply H; lia]. }
    specialize (Hd 0%nat H0). unfold degree in Hd.
    assert (B0 : forall i, (i < v)%nat -> cell G 0 i = 0 \/ cell G 0 i = 1) by (intros; apply Hb; auto).
    assert (CM : forall j, (j < v)%nat -> j <> 0%nat -> 0 <= common v G 0 j <= k - cell G 0 j).
    { intros j Hj Hn. unfold common. split.
      - apply sumn_nonneg. intros w Hw. destruct (Hb 0%nat w H0 Hw) as [-> | ->], (Hb j w Hj Hw) as [-> | ->]; lia.
      - enough (sumn v (fun w => cell G 0 w * cell G j w) + cell G 0 j <= k) by lia.
        rewrite <- (sumn_delta v j (fun w => cell G 0 w)), <- sumn_plus by auto. rewrite <- Hd. apply sumn_le. intros w Hw.
        destruct (Nat.eqb_spec w j) as [->|]; [rewrite Hz by auto; lia|].
        destruct (Hb 0%nat w H0 Hw) as [-> | ->], (Hb j w Hj Hw) as [-> | ->]; lia. }
    split.
    - destruct (P 1 B0) as [(j & Hj & Hn & E)|N].
      + specialize (CM j Hj Hn). rewrite Hc in CM by auto. rewrite E in CM. cbn in CM. lia.
      + exfalso. rewrite sumn_zero in Hd; [lia|]. intros i Hi. destruct (Nat.eq_dec i 0) as [->|Hn]; [now apply Hz|].
        destruct (B0 i Hi) as [|E]; [auto|]. exfalso. now apply (N i).
    - destruct (P 0 B0) as [(j & Hj & Hn & E)|N].
      + specialize (CM j Hj Hn). rewrite Hc in CM by auto. rewrite E in CM. cbn in CM. lia.
      + exfalso. rewrite (sumn_ext v _ (fun i => if (i =? 0)%nat then 0 else 1)) in Hd.
        * rewrite (sumn_except v 0 (fun _ => 1)), sumn_const in Hd by auto. lia.
        * intros i Hi. destruct (Nat.eqb_spec i 0) as [->|Hn]; [now apply Hz|].
          destruct (B0 i Hi) as [E|]; [|auto]. exfalso. now apply (N i).
  Qed.

  (** matrices [a A + b I + c J] *)
  Definition comb (a b c : Z) (i j : nat) : Z := a * A i j + b * delta i j + c.
  Lemma comb_mul a b c a' b' c' i j : (i < v)%nat -> (j < v)%nat ->
    sumn v (fun w => comb a b c i w * comb a' b' c' w j)
    = a * a' * ((l - u) * A i j + delta i j * (k - u) + u) + (a * b' + b * a') * A i j + b * b' * delta i j
      + (a * c' * k + c * a' * k + b * c' + c * b' + c * c' * V).
  Proof.
    intros Hi Hj. unfold comb.
    assert (D1 : forall f, sumn v (fun w => delta i w * f w) = f i).
    { intro f. rewrite (sumn_ext v _ (fun w => if (w =? i)%nat then f w else 0)); [now apply sumn_delta|].
      intros w _. unfold delta. rewrite Nat.eqb_sym. destruct (w =? i)%nat; lia. }
    assert (D2 : forall f, sumn v (fun w => f w * delta w j) = f j).
    { intro f. rewrite (sumn_ext v _ (fun w => if (w =? j)%nat then f w else 0)); [now apply sumn_delta|].
      intros w _. unfold delta. destruct (w =? j)%nat; lia. }
    assert (D3 : sumn v (fun w => delta w j) = 1) by (rewrite <- (D2 (fun _ => 1)); apply sumn_ext; intros; ring).
    rewrite (sumn_ext v _ (fun w => a * a' * (A i w * A w j) + a * b' * (A i w * delta w j) + a * c' * A i w
      + b * a' * (delta i w * A w j) + b * b' * (delta i w * delta w j) + b * c' * (delta i w * 1)
      + c * a' * A w j + c * b' * delta w j + c * c')) by (intros; ring).
    rewrite !sumn_plus, !sumn_scale, sp_AA, (D2 (A i)), (D2 (delta i)), D3, sp_deg, sp_deg', sumn_const by auto.
    rewrite (D1 (fun w => A w j)), (D1 (fun _ => 1)).
    unfold V. ring.
  Qed.
  Lemma comb_trace a b c : sumn v (fun i => comb a b c i i) = (b + c) * V.
  Proof.
    unfold comb, V. rewrite <- sumn_const. apply sumn_ext. intros i Hi. destruct HG as ((_ & _ & _ & Hz) & _).
    unfold A. rewrite Hz by auto. unfold delta. rewrite Nat.eqb_refl. ring.
  Qed.

  (** if the discriminant is not a square, this is a conference graph *)
  Lemma sp_conference d : d = (l - u) ^ 2 + 4 * (k - u) -> (forall x, x * x <> d) -> conference V k l u = 0.
  Proof.
    intros Ed nsq. unfold conference. set (a := l - u) in *.
    pose (E := fun i j => (comb (2 * V) (- a * V) (- (2 * k - a)) i j, comb 0 V (-1) i j)).
    assert (VP : V <> 0) by (unfold V; lia).
    assert (HE : quasi (Z * Z) (0, 0) qadd (qmul d) v E (0, 2 * V)).
    { intros i j Hi Hj. rewrite qs_pair. unfold qmul, E. cbn [fst snd]. f_equal.
      - rewrite sumn_plus.
        rewrite (sumn_ext v (fun w => d * comb 0 V (-1) i w * comb 0 V (-1) w j)
          (fun w => d * (comb 0 V (-1) i w * comb 0 V (-1) w j))) by (intros; ring).
        rewrite sumn_scale, !comb_mul by auto. fold a. unfold comb.
        pose proof sp_count as SC. fold a in SC.
        assert (SZ : u * V - (k * k - a * k - (k - u)) = 0) by lia. rewrite Ed.
        match goal with |- ?L = ?R => enough (X : L - R = 4 * V * (u * V - (k * k - a * k - (k - u)))) by (rewrite SZ, (Z.mul_0_r (4 * V)) in X; now apply Z.sub_move_0_r) end.
        ring.
      - rewrite sumn_plus, !comb_mul by auto. fold a. unfold comb. ring. }
    assert (C0 : (0, 2 * V) <> (0, 0)) by (intro X; apply (f_equal snd) in X; cbn [snd] in X; lia).
    destruct (quasi_factor (Z * Z) (0, 0) (1, 0) qadd (qmul d) qsub qopp (qth d) (qdom d nsq) qdec v E (0, 2 * V) C0 HE)
      as (m & W & C & e & F).
    pose proof (factor_trace (Z * Z) (0, 0) (1, 0) qadd (qmul d) qsub qopp (qth d) (qdom d nsq) v E (0, 2 * V) m W C e F) as T.
    rewrite !qs_pair in T. cbn [fst snd] in T. unfold E in T. cbn [fst snd] in T. apply (f_equal fst) in T. cbn [fst] in T. rename T into T1.
    rewrite comb_trace, sumn_const in T1. fold V. fold a. nia.
  Qed.

  (** otherwise: *)
  Variables (r s : Z).
  Hypothesis Hsum : r + s = l - u.
  Hypothesis Hprod : r * s = u - k.
  Hypothesis Hrs : s < r.
  Lemma sp_kk : u * V = (k - r) * (k - s).
  Proof. pose proof sp_count. nia. Qed.
  Definition E0 := comb 0 0 1.
  Definition E1 := comb V (- V * s) (- (k - s)).
  Definition E2 := comb V (- V * r) (- (k - r)).
  Lemma V_pos : 0 < V.
  Proof. unfold V. lia. Qed.
  Ltac poly q := apply Z.sub_move_0_r; transitivity (q * (u * V - (k - r) * (k - s)));
    [replace (k - u) with (- (r * s)) by lia; replace (l - u) with (r + s) by lia; ring|rewrite sp_kk; ring].
  Lemma q0 : zquasi v E0 V.
  Proof. intros i j Hi Hj. rewrite zs_sumn. unfold E0. rewrite comb_mul by auto. unfold comb. ring. Qed.
  Lemma q1 : zquasi v E1 (V * (r - s)).
  Proof. intros i j Hi Hj. rewrite zs_sumn. unfold E1. rewrite comb_mul by auto. unfold comb. poly V. Qed.
  Lemma q2 : zquasi v E2 (V * (s - r)).
  Proof. intros i j Hi Hj. rewrite zs_sumn. unfold E2. rewrite comb_mul by auto. unfold comb. poly V. Qed.
  Definition orth (E F : nat -> nat -> Z) : Prop := forall i j, (i < v)%nat -> (j < v)%nat -> zs v (fun w => E i w * F w j) = 0.
  Lemma o01 : orth E0 E1.
  Proof. intros i j Hi Hj. rewrite zs_sumn. unfold E0, E1. rewrite comb_mul by auto. ring. Qed.
  Lemma o02 : orth E0 E2.
  Proof. intros i j Hi Hj. rewrite zs_sumn. unfold E0, E2. rewrite comb_mul by auto. ring. Qed.
  Lemma o10 : orth E1 E0.
  Proof. intros i j Hi Hj. rewrite zs_sumn. unfold E0, E1. rewrite comb_mul by auto. ring. Qed.
  Lemma o20 : orth E2 E0.
  Proof. intros i j Hi Hj. rewrite zs_sumn. unfold E0, E2. rewrite comb_mul by auto. ring. Qed.
  Lemma o12 : orth E1 E2.
  Proof. intros i j Hi Hj. rewrite zs_sumn. unfold E1, E2. rewrite comb_mul by auto. poly V. Qed.
  Lemma o21 : orth E2 E1.
  Proof. intros i j Hi Hj. rewrite zs_sumn. unfold E1, E2. rewrite comb_mul by auto. poly V. Qed.
  Lemma a0 : orth (comb 1 (- k) 0) E0.
  Proof. intros i j Hi Hj. rewrite zs_sumn. unfold E0. rewrite comb_mul by auto. ring. Qed.
  Lemma a1 : orth (comb 1 (- r) 0) E1.
  Proof. intros i j Hi Hj. rewrite zs_sumn. unfold E1. rewrite comb_mul by auto. poly 1. Qed.
  Lemma a2 : orth (comb 1 (- s) 0) E2.
  Proof. intros i j Hi Hj. rewrite zs_sumn. unfold E2. rewrite comb_mul by auto. poly 1. Qed.

  Lemma off E c m W C d E' c' m' W' C' d' : zfactor v E c m W C d -> zfactor v E' c' m' W' C' d' -> orth E E' ->
    forall a b, (a < m)%nat -> (b < m')%nat -> sumn v (fun i => C a i * W' i b) = 0.
  Proof.
    intros F F' O a b Ha Hb. rewrite <- zs_sumn. apply (f_right _ _ _ _ _ _ _ _ _ _ _ F (fun i => W' i b)); [|auto].
    intros i Hi. apply (f_left _ _ _ _ _ _ _ _ _ _ _ F' (E i)); [|auto]. intros j Hj. now apply O.
  Qed.
  Lemma eigen x E c m W C d : zfactor v E c m W C d -> orth (comb 1 (- x) 0) E ->
    forall i a, (i < v)%nat -> (a < m)%nat -> sumn v (fun w => A i w * W w a) = x * W i a.
  Proof.
    intros F O i a Hi Ha. enough (sumn v (fun w => comb 1 (- x) 0 i w * W w a) = 0) as H.
    - unfold comb in H. rewrite (sumn_ext v _ (fun w => A i w * W w a - (if (w =? i)%nat then x * W w a else 0))) in H.
      + rewrite sumn_minus, (sumn_delta v i (fun w => x * W w a)) in H by auto. lia.
      + intros w _. unfold delta. rewrite Nat.eqb_sym. destruct (w =? i)%nat; ring.
    - rewrite <- zs_sumn. apply (f_left _ _ _ _ _ _ _ _ _ _ _ F (comb 1 (- x) 0 i)); [|auto]. intros j Hj. now apply O.
  Qed.

  Theorem sp_spectrum : exists f g : nat, 1 + Z.of_nat f + Z.of_nat g = V /\ k + Z.of_nat f * r + Z.of_nat g * s = 0
    /\ spectrum v G (k :: repeat r f ++ repeat s g).
  Proof.
    pose proof V_pos as VP.
    destruct (zfactor_exists v E0 V ltac:(lia) q0) as (m0 & W0 & C0 & d0 & F0).
    destruct (zfactor_exists v E1 (V * (r - s)) ltac:(nia) q1) as (f & W1 & C1 & d1 & F1).
    destruct (zfactor_exists v E2 (V * (s - r)) ltac:(nia) q2) as (g & W2 & C2 & d2 & F2).
    pose proof (zfactor_trace _ _ _ _ _ _ _ F0) as T0. pose proof (zfactor_trace _ _ _ _ _ _ _ F1) as T1.
    pose proof (zfactor_trace _ _ _ _ _ _ _ F2) as T2.
    unfold E0 in T0. unfold E1 in T1. unfold E2 in T2. rewrite comb_trace in T0, T1, T2.
    assert (M0 : m0 = 1%nat) by nia.
    assert (M1 : - (V * s) - (k - s) = (r - s) * Z.of_nat f) by (apply (Z.mul_reg_l _ _ V); [lia|]; rewrite <- (Z.mul_comm V) in T1; lia).
    assert (M2 : - (V * r) - (k - r) = (s - r) * Z.of_nat g) by (apply (Z.mul_reg_l _ _ V); [lia|]; rewrite <- (Z.mul_comm V) in T2; lia).
    assert (S1 : 1 + Z.of_nat f + Z.of_nat g = V) by (apply (Z.mul_reg_l _ _ (r - s)); [lia|]; lia).
    assert (S2 : k + Z.of_nat f * r + Z.of_nat g * s = 0).
    { apply (Z.mul_reg_l _ _ (r - s)); [lia|]. rewrite Z.mul_0_r.
      replace ((r - s) * (k + Z.of_nat f * r + Z.of_nat g * s))
        with ((r - s) * k + r * ((r - s) * Z.of_nat f) - s * ((s - r) * Z.of_nat g)) by ring.
      rewrite <- M1, <- M2. ring. }
    exists f, g. split; [auto|]. split; [auto|].
    assert (Hv : v = (1 + f + g)%nat) by (unfold V in S1; lia). subst m0.
    split; [cbn [length]; rewrite app_length, !repeat_length; lia|].
    pose (Pf := fun i j => if (j <? 1)%nat then W0 i 0%nat else if (j <? 1 + f)%nat then W1 i (j - 1)%nat else W2 i (j - 1 - f)%nat).
    pose (Qf := fun j i => if (j <? 1)%nat then C0 0%nat i else if (j <? 1 + f)%nat then C1 (j - 1)%nat i else C2 (j - 1 - f)%nat i).
    pose (dg := fun j => if (j <? 1)%nat then d0 * V else if (j <? 1 + f)%nat then d1 * (V * (r - s)) else d2 * (V * (s - r))).
    exists (map (fun i => map (Pf i) (seq 0 v)) (seq 0 v)).
    assert (CP : forall i j, (i < v)%nat -> (j < v)%nat -> cell (map (fun i => map (Pf i) (seq 0 v)) (seq 0 v)) i j = Pf i j).
    { intros i j Hi Hj. unfold cell. rewrite (nth_indep _ [] (map (Pf 0%nat) (seq 0 v))) by (rewrite map_length, seq_length; auto).
      rewrite (map_nth (fun i => map (Pf i) (seq 0 v))), seq_nth by auto.
      rewrite (nth_indep _ 0 (Pf (0 + i)%nat 0%nat)) by (rewrite map_length, seq_length; auto). rewrite map_nth, seq_nth by auto. reflexivity. }
    assert (QP : forall a b, (a < v)%nat -> (b < v)%nat -> sumn v (fun i => Qf a i * Pf i b) = if (a =? b)%nat then dg a else 0).
    { intros a b Ha Hb. unfold Qf, Pf, dg.
      destruct (Nat.ltb_spec a 1) as [A1|A1]; [|destruct (Nat.ltb_spec a (1 + f)) as [A2|A2]];
      (destruct (Nat.ltb_spec b 1) as [B1|B1]; [|destruct (Nat.ltb_spec b (1 + f)) as [B2|B2]]).
      - destruct (Nat.eqb_spec a b); [|lia]. rewrite <- zs_sumn. rewrite (f_orth _ _ _ _ _ _ _ _ _ _ _ F0) by lia. reflexivity.
      - destruct (Nat.eqb_spec a b); [lia|]. apply (off _ _ _ _ _ _ _ _ _ _ _ _ F0 F1 o01); lia.
      - destruct (Nat.eqb_spec a b); [lia|]. apply (off _ _ _ _ _ _ _ _ _ _ _ _ F0 F2 o02); lia.
      - destruct (Nat.eqb_spec a b); [lia|]. apply (off _ _ _ _ _ _ _ _ _ _ _ _ F1 F0 o10); lia.
      - rewrite <- zs_sumn. rewrite (f_orth _ _ _ _ _ _ _ _ _ _ _ F1) by lia.
        destruct (Nat.eqb_spec (a - 1) (b - 1)), (Nat.eqb_spec a b); try lia.
      - destruct (Nat.eqb_spec a b); [lia|]. apply (off _ _ _ _ _ _ _ _ _ _ _ _ F1 F2 o12); lia.
      - destruct (Nat.eqb_spec a b); [lia|]. apply (off _ _ _ _ _ _ _ _ _ _ _ _ F2 F0 o20); lia.
      - destruct (Nat.eqb_spec a b); [lia|]. apply (off _ _ _ _ _ _ _ _ _ _ _ _ F2 F1 o21); lia.
      - rewrite <- zs_sumn. rewrite (f_orth _ _ _ _ _ _ _ _ _ _ _ F2) by lia.
        destruct (Nat.eqb_spec (a - 1 - f) (b - 1 - f)), (Nat.eqb_spec a b); try lia. }
    split; [|split].
    - split; [now rewrite map_length, seq_length|]. intros row Hr. apply in_map_iff in Hr. destruct Hr as (i & <- & _).
      now rewrite map_length, seq_length.
    - rewrite det_fdet, (fdet_ext v _ Pf CP). intro Z0.
      pose proof (fdet_mul v Qf Pf) as M. rewrite Z0, Z.mul_0_r in M.
      rewrite (fdet_ext v _ (fun a b => if (a =? b)%nat then dg a else 0) QP), fdet_diag in M.
      revert M. apply zprod_nonzero. intros x Hx. apply in_map_iff in Hx. destruct Hx as (j & <- & _). unfold dg.
      pose proof (f_d _ _ _ _ _ _ _ _ _ _ _ F0). pose proof (f_d _ _ _ _ _ _ _ _ _ _ _ F1). pose proof (f_d _ _ _ _ _ _ _ _ _ _ _ F2).
      assert (V * (r - s) <> 0 /\ V * (s - r) <> 0) as [N1 N2] by nia.
      destruct (j <? 1)%nat; [|destruct (j <? 1 + f)%nat]; apply Z.neq_mul_0; (split; [assumption|]); [lia|assumption|assumption].
    - intros i j Hi Hj. rewrite CP by auto.
      rewrite (sumn_ext v _ (fun w => A i w * Pf w j)) by (intros w Hw; now rewrite CP).
      unfold Pf. destruct (Nat.ltb_spec j 1) as [A1|A1]; [|destruct (Nat.ltb_spec j (1 + f)) as [A2|A2]].
      + replace j with 0%nat by lia. cbn [nth]. apply (eigen k _ _ _ _ _ _ F0 a0); lia.
      + destruct j as [|j]; [lia|]. cbn [nth]. rewrite app_nth1 by (rewrite repeat_length; lia).
        rewrite (nth_indep _ 0 r), nth_repeat by (rewrite repeat_length; lia). apply (eigen r _ _ _ _ _ _ F1 a1); lia.
      + destruct j as [|j]; [lia|]. cbn [nth]. rewrite app_nth2 by (rewrite repeat_length; lia). rewrite repeat_length.
        rewrite (nth_indep _ 0 s), nth_repeat by (rewrite repeat_length; lia). apply (eigen s _ _ _ _ _ _ F2 a2); lia.
  Qed.
End Graph.

(** ** what the code computes *)
Lemma spectrum_det n M es : spectrum n M es -> det n M = zprod es.
Proof.
  intros (L & P & _ & HP & H). rewrite det_fdet in *. apply (Z.mul_reg_r _ _ (fdet n (cell P))); [auto|].
  rewrite <- fdet_mul.
  rewrite (fdet_ext n _ (fun i j => sumn n (fun w => cell P i w * (if (w =? j)%nat then nth w es 0 else 0)))).
  - rewrite fdet_mul, fdet_diag, Z.mul_comm. f_equal. f_equal. apply (nth_ext _ _ 0 0); [now rewrite map_length, seq_length|].
    intros i Hi. rewrite map_length, seq_length in Hi.
    rewrite (nth_indep _ 0 (nth 0 es 0)) by (rewrite map_length, seq_length; auto).
    rewrite (map_nth (fun i => nth i es 0)), seq_nth by auto. reflexivity.
  - intros i j Hi Hj. rewrite H by auto.
    rewrite (sumn_ext n _ (fun w => if (w =? j)%nat then cell P i w * nth w es 0 else 0)).
    + rewrite (sumn_delta n j (fun w => cell P i w * nth w es 0)) by auto. ring.
    + intros w _. destruct (w =? j)%nat; ring.
Qed.
Lemma zprod_app a b : zprod (a ++ b) = zprod a * zprod b.
Proof. induction a; cbn [app]; [unfold zprod at 2; cbn [fold_right]; ring|]. rewrite !zprod_cons, IHa. ring. Qed.
Lemma zprod_repeat x n : zprod (repeat x n) = x ^ Z.of_nat n.
Proof. induction n; [reflexivity|]. cbn [repeat]. rewrite zprod_cons, IHn, Nat2Z.inj_succ, Z.pow_succ_r by lia. reflexivity. Qed.

Lemma square_dec d : (exists D, 0 <= D /\ d = D ^ 2) \/ forall x, x * x <> d.
Proof.
  destruct (Z.eq_dec (Z.sqrt d * Z.sqrt d) d) as [E|E].
  - left. exists (Z.sqrt d). split; [apply Z.sqrt_nonneg|]. rewrite Z.pow_2_r. auto.
  - right. intros x Hx. apply E. rewrite <- Hx. rewrite <- (Z.abs_square x), Z.sqrt_square by lia. reflexivity.
Qed.

Lemma eig_graph_proof v k l u G : srg v k l u G -> 1 <= k < Z.of_nat v - 1 -> conference (Z.of_nat v) k l u <> 0 ->
  exists es, eig (Z.of_nat v) k l u = Ok es /\ (forall e m, In (e, m) es -> 0 <= m) /\ spectrum v G (with_multiplicity es)
    /\ determinant (Z.of_nat v) k l u = Ok (zprod (with_multiplicity es)).
Proof.
  intros HG Hk Hc.
  destruct (square_dec ((l - u) ^ 2 + 4 * (k - u))) as [(D & HD & ED)|N].
  2:{ exfalso. apply Hc. apply (sp_conference v k l u G HG Hk _ eq_refl N). }
  destruct (sp_l v k l u G HG Hk) as (Hl & Hu & Hu0).
  assert (DP : 0 < D) by nia.
  destruct (eig_proof (Z.of_nat v) k l u D DP ED) as (r & s & f' & g' & EE & Hs & Hp & Hrs & U).
  destruct (sp_spectrum v k l u G HG Hk r s Hs Hp Hrs) as (f & g & S1 & S2 & SP).
  destruct (U (Z.of_nat f) (Z.of_nat g)) as [-> ->]; [lia|lia|].
  assert (WM : with_multiplicity [(k, 1); (r, Z.of_nat f); (s, Z.of_nat g)] = k :: repeat r f ++ repeat s g).
  { unfold with_multiplicity. cbn [map concat fst snd]. rewrite !Nat2Z.id, app_nil_r. reflexivity. }
  exists [(k, 1); (r, Z.of_nat f); (s, Z.of_nat g)]. split; [auto|]. split; [|split].
  - intros e m [H|[H|[H|[]]]]; injection H as <- <-; lia.
  - now rewrite WM.
  - unfold determinant. rewrite EE, WM. cbn [bind fold_left fst snd]. rewrite zprod_cons, zprod_app, !zprod_repeat. f_equal. ring.
Qed.
Lemma determinant_proof v k l u G : srg v k l u G -> 1 <= k < Z.of_nat v - 1 -> conference (Z.of_nat v) k l u <> 0 ->
  determinant (Z.of_nat v) k l u = Ok (det v G).
Proof.
  intros HG Hk Hc. destruct (eig_graph_proof v k l u G HG Hk Hc) as (es & _ & _ & SP & ->). f_equal. symmetry. now apply spectrum_det.
Qed.

(** ** parameters no graph has *)
Lemma spectrum_length v k l u G es : srg v k l u G -> 1 <= k < Z.of_nat v - 1 -> conference (Z.of_nat v) k l u <> 0 ->
  eig (Z.of_nat v) k l u = Ok es -> length (with_multiplicity es) = v.
Proof.
  intros HG Hk Hc E. destruct (eig_graph_proof v k l u G HG Hk Hc) as (es' & E' & _ & (L & _) & _). congruence.
Qed.
Lemma infeasible_proof v k l u : 1 <= k < Z.of_nat v - 1 -> conference (Z.of_nat v) k l u <> 0 ->
  (forall es, eig (Z.of_nat v) k l u = Ok es -> length (with_multiplicity es) <> v) -> forall G, ~ srg v k l u G.
Proof.
  intros Hk Hc H G HG. destruct (eig_graph_proof v k l u G HG Hk Hc) as (es & E & _ & (L & _) & _). now apply (H es).
Qed.
Lemma no_22_9_4_3 G : ~ srg 22 9 4 3 G.
Proof.
  apply infeasible_proof; [lia|discriminate|]. intros es E. vm_compute in E. injection E as <-. vm_compute. discriminate.
Qed.
Lemma prints_without_graph_proof : exists v k l u, admissible v k l u /\ (v <= 67)%nat /\ (forall G, ~ srg v k l u G)
  /\ exists ms, run_main (Z.of_nat v) k l u = Ok ms /\ ms <> [].
Proof.
  exists 22%nat, 9, 4, 3. split; [unfold admissible; lia|]. split; [lia|]. split; [exact no_22_9_4_3|].
  destruct (solve_well_formed 22 9 4 3 ltac:(unfold admissible; lia) ltac:(lia)) as (ms & E & _). exists ms. split; [exact E|].
  assert (B : In bad_22_9_4_3 ms).
  { apply (run_main_found 22 9 4 3 bad_22_9_4_3 ms E); [lia|reflexivity|reflexivity|vm_compute; reflexivity|exact bad_22_found]. }
  intros ->. exact B.
Qed.
Lemma main_rejects_proof v k l u : (v - k - 1) * u <> k * (k - l - 1) -> main_output v k l u = Raise AssertionError.
Proof.
  intros H. unfold main_output, run_main, assert_srg. apply Z.eqb_neq in H. rewrite H. reflexivity.
Qed.
Lemma rejected_proof v k l u : main_output (Z.of_nat v) k l u = Raise AssertionError ->
  (3 <= v <= 67)%nat -> 1 <= k -> forall G, ~ srg v k l u G.
Proof.
  intros E Hv Hk G HG. destruct (solve_complete v k l u G Hv Hk HG) as (ms & m & E' & _).
  unfold main_output in E. rewrite E' in E. discriminate.
Qed.
Lemma eig_spectrum_proof v k l u G : srg v k l u G -> 1 <= k < Z.of_nat v - 1 -> conference (Z.of_nat v) k l u <> 0 ->
  exists es, eig (Z.of_nat v) k l u = Ok es /\ (forall e m, In (e, m) es -> 0 <= m) /\ spectrum v G (with_multiplicity es).
Proof. intros HG Hk Hc. destruct (eig_graph_proof v k l u G HG Hk Hc) as (es & A & B & C & _). eauto. Qed.
