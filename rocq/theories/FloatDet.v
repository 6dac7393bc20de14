(** [eig] and [determinant] in floating point on conference graphs. *)
From Coq Require Import QArith Qabs Qpower Qround Lqa.
From Verif Require Import Np ModelUtil ModelFloat Spec AlgSpec FloatSpec FloatFacts FloatProps Graph UtilProps Det Spectrum DetRing CharPoly ModelDb DbProps.
Local Open Scope Q_scope.

(** ** the determinant of a conference graph *)
Lemma det_neg n M N : (forall i j, (i < n)%nat -> (j < n)%nat -> cell N i j = (- cell M i j)%Z) ->
  det n N = ((-1) ^ Z.of_nat n * det n M)%Z.
Proof.
  intros H. rewrite !det_fdet.
  transitivity (fdet n (fun i j => sumn n (fun w => ((if (i =? w)%nat then -1 else 0) * cell M w j)%Z))).
  - apply fdet_ext. intros i j Hi Hj. rewrite H by auto.
    rewrite (sumn_ext n _ (fun w => if (w =? i)%nat then (- cell M w j)%Z else 0%Z)); [now rewrite sumn_delta|].
    intros w Hw. rewrite Nat.eqb_sym. destruct (w =? i)%nat; lia.
  - rewrite fdet_mul. f_equal. rewrite (fdet_diag n (fun _ => (-1)%Z)). generalize 0%nat. induction n as [|n IH]; intro a; [reflexivity|].
    cbn [seq map]. change (zprod (?x :: ?t)) with (x * zprod t)%Z. rewrite IH by (intros; apply H; lia).
    rewrite Nat2Z.inj_succ, Z.pow_succ_r by lia. reflexivity.
Qed.
Lemma det_conference v k l u G : srg v k l u G -> (1 <= k < Z.of_nat v - 1)%Z -> conference (Z.of_nat v) k l u = 0%Z ->
  det v G = (2 * u ^ (2 * u + 1))%Z.
Proof.
  intros HG Hk Hc. destruct (char_conference_proof v k l u G HG Hk Hc) as (El & Ek & Ev & P). specialize (P 0%Z).
  rewrite (det_neg v G) in P.
  - rewrite Ev in P. assert (U : (1 <= u)%Z) by lia.
    replace (4 * u + 1)%Z with (1 + 2 * (2 * u))%Z in P by ring.
    rewrite Z.pow_add_r, Z.pow_mul_r in P by lia. change ((-1) ^ 2)%Z with 1%Z in P. rewrite Z.pow_1_l in P by lia.
    replace (0 * 0 + 0 - u)%Z with (- u)%Z in P by ring. rewrite Z.pow_mul_r in P by lia.
    replace ((- u) ^ 2)%Z with (u ^ 2)%Z in P by ring. rewrite <- Z.pow_mul_r in P by lia.
    rewrite Z.pow_add_r, Z.pow_1_r by lia. lia.
  - intros i j Hi Hj. rewrite char_cell by auto. destruct (i =? j)%nat; lia.
Qed.

(** ** round *)
Lemma round_close q n : inject_Z n - (1 # 2) < q -> q < inject_Z n + (1 # 2) -> round_half_even q = n.
Proof.
  intros A B. unfold round_half_even. cbv zeta. destruct (Qlt_le_dec q (inject_Z n)) as [C|C].
  - assert (E : Qfloor q = (n - 1)%Z).
    { apply floor_unique; unfold Z.sub; rewrite inject_Z_plus; change (inject_Z (- (1))) with (- (1)); lra. }
    rewrite E. assert (X : (q - inject_Z (n - 1) ?= 1 # 2) = Gt).
    { apply Qgt_alt. unfold Z.sub. rewrite inject_Z_plus. change (inject_Z (- (1))) with (- (1)). lra. }
    rewrite X. lia.
  - assert (E : Qfloor q = n) by (apply floor_unique; [exact C|lra]). rewrite E.
    assert (X0 : q - inject_Z n < 1 # 2) by lra.
    assert (X : (q - inject_Z n ?= 1 # 2) = Lt) by (now apply -> Qlt_alt).
    now rewrite X.
Qed.
Lemma round_abs q n : Qabs (q - inject_Z n) < 1 # 2 -> round_half_even q = n.
Proof.
  intros H. apply Qabs_Qlt_condition in H as [A B]. apply round_close.
  - apply (Qplus_lt_l _ _ (- inject_Z n)). eapply Qle_lt_trans; [|exact A]. apply Qle_lteq. right. ring.
  - apply (Qplus_lt_l _ _ (- inject_Z n)). eapply Qlt_le_trans; [exact B|]. apply Qle_lteq. right. ring.
Qed.

Section Contracts.
  Variables (rnd sq : Q -> Q).
  Hypothesis F : faithful rnd.
  Hypothesis S : faithful_sqrt sq.

  Lemma eig_float_conference_proof v k l u G : srg v k l u G -> (1 <= k < Z.of_nat v - 1)%Z -> (Z.of_nat v < 2 ^ 53)%Z ->
    conference (Z.of_nat v) k l u = 0%Z ->
    exists r s m, eig_float rnd sq (Z.of_nat v) k l u = Ok [(PInt k, 1%Z); (PFloat r, m); (PFloat s, m)]
      /\ (2 * m = Z.of_nat v - 1)%Z /\ is_double r /\ is_double s /\ 0 < r /\ s < 0
      /\ Qabs ((2 * r + 1) * (2 * r + 1) - inject_Z (Z.of_nat v)) <= 2 ^ (-49) * inject_Z (Z.of_nat v)
      /\ Qabs ((2 * s + 1) * (2 * s + 1) - inject_Z (Z.of_nat v)) <= 2 ^ (-49) * inject_Z (Z.of_nat v).
  Proof.
    intros HG Hk Hv Hc. destruct (conference_parameters v k l u G HG Hk Hc) as (El & Ek & Ev & Hu).
    set (V := Z.of_nat v) in *. clearbody V. unfold eig_float. rewrite Hc. cbv zeta. cbn [Z.eqb].
    replace ((l - u) ^ 2 + 4 * (k - u))%Z with V by (rewrite El, Ek, Ev; ring). replace (l - u)%Z with (-1)%Z by lia.
    destruct (Z.ltb_spec V 0) as [N|_]; [lia|]. cbn [bind]. cbn [num_add num_sub num_div float_op to_float bind].
    destruct (conference_values rnd sq F S V ltac:(lia)) as (F0 & W1 & W2 & B1 & B2).
    set (f := sq (rnd (inject_Z V))) in *. set (w1 := rnd (rnd (inject_Z (-1)) + f)) in *. set (w2 := rnd (rnd (inject_Z (-1)) - f)) in *.
    assert (NF : Qeq_bool f 0 = false) by (apply Bool.not_true_iff_false; intros X; apply Qeq_bool_iff in X; lra).
    rewrite NF. cbn [bind num_int num_sub num_add float_op to_float num_div].
    pose proof (rnd_half rnd F w1 (rnd_double rnd F _)) as E1. pose proof (rnd_half rnd F w2 (rnd_double rnd F _)) as E2.
    set (r := rnd (w1 / rnd (inject_Z 2))) in *. set (s := rnd (w2 / rnd (inject_Z 2))) in *.
    assert (Z0 : rnd (rnd (inject_Z 0) / f) == 0).
    { assert (X : rnd (inject_Z 0) / f == inject_Z 0) by (rewrite (rnd_int rnd F 0) by (cbn; lia); change (inject_Z 0) with 0; field; lra).
      transitivity (rnd (inject_Z 0) / f); [|exact X]. apply (rnd_exact rnd F). apply (double_eq (inject_Z 0)); [now symmetry|apply double_int; cbn; lia]. }
    set (z := rnd (rnd (inject_Z 0) / f)) in *.
    assert (EV : rnd (inject_Z (V - 1)) == inject_Z (V - 1)) by (apply (rnd_int rnd F); lia).
    assert (G1 : forall y, y == inject_Z (V - 1) -> truncate (rnd (rnd y / rnd (inject_Z 2))) = (2 * u)%Z).
    { intros y Hy. assert (Dy : is_double y) by (apply (double_eq (inject_Z (V - 1))); [now symmetry|apply double_int; lia]).
      assert (X : rnd (rnd y / rnd (inject_Z 2)) == inject_Z (2 * u)).
      { rewrite (rnd_half rnd F _ (rnd_double rnd F _)), (rnd_exact rnd F y Dy), Hy. replace (V - 1)%Z with (2 * u * 2)%Z by lia.
        rewrite inject_Z_mult. change (inject_Z 2) with 2. field. }
      rewrite (truncate_comp _ _ X). apply truncate_int. }
    rewrite (G1 (rnd (inject_Z (V - 1)) - z)) by (rewrite EV, Z0; ring).
    rewrite (G1 (rnd (inject_Z (V - 1)) + z)) by (rewrite EV, Z0; ring).
    exists r, s, (2 * u)%Z. split; [reflexivity|]. split; [lia|]. split; [apply (rnd_double rnd F)|]. split; [apply (rnd_double rnd F)|].
    split.
    { rewrite E1. setoid_replace (w1 / 2) with (w1 * (1 # 2)) by field. lra. } split.
    { rewrite E2. setoid_replace (w2 / 2) with (w2 * (1 # 2)) by field. lra. } split.
    - setoid_replace (2 * r + 1) with (w1 + 1) by (rewrite E1; field). exact B1.
    - setoid_replace (2 * s + 1) with (w2 + 1) by (rewrite E2; field). exact B2.
  Qed.

  (** ** the result of [determinant] is a double *)
  Lemma round_double q : is_double q -> is_double (inject_Z (round_half_even q)).
  Proof.
    intros Dq. destruct (Qlt_le_dec (Qabs q) (inject_Z (2 ^ 52))) as [L|L].
    - apply double_int. pose proof (round_floor q) as R. apply Qabs_Qlt_condition in L.
      pose proof (Qfloor_le q) as A. pose proof (Qlt_floor q) as B.
      assert (X : inject_Z (Qfloor q) < inject_Z (2 ^ 52)) by lra.
      assert (Y : inject_Z (- 2 ^ 52) < inject_Z (Qfloor q + 1)) by (rewrite inject_Z_opp; destruct L; apply Qlt_trans with q; assumption).
      rewrite <- Zlt_Qlt in X, Y. lia.
    - destruct (double_multiple q 0 Dq) as (z & Ez); [change (2 ^ 0) with 1; lra|].
      assert (E : q == inject_Z z) by (rewrite <- Ez; change (2 ^ 0) with 1; ring).
      rewrite (round_int q z E). now apply (double_eq q).
  Qed.
  Lemma not_double a o : (0 <= a)%Z -> Z.odd o = true -> (2 ^ 53 <= o)%Z -> ~ is_double (inject_Z (2 ^ a * o)).
  Proof.
    intros Ha Ho Bo (m & e & Hm & E). destruct (Z.le_gt_cases e a) as [L|L].
    - assert (X : inject_Z m == inject_Z (2 ^ (a - e) * o)).
      { rewrite inject_Z_mult, <- p2_Z in E by lia. rewrite inject_Z_mult, <- p2_Z by lia.
        pose proof (p2_pos e) as P. apply (Qmult_inj_r _ _ (2 ^ e)); [lra|]. rewrite <- E.
        replace a with ((a - e) + e)%Z at 1 by lia. rewrite p2_add. ring. }
      apply (proj1 (inject_Z_injective _ _)) in X. pose proof (Z.pow_pos_nonneg 2 (a - e) ltac:(lia) ltac:(lia)) as P.
      assert (Y : (1 * o <= 2 ^ (a - e) * o)%Z) by (apply Z.mul_le_mono_nonneg_r; lia). lia.
    - assert (X : inject_Z o == inject_Z (m * 2 ^ (e - a))).
      { rewrite inject_Z_mult, <- p2_Z in E by lia. rewrite inject_Z_mult, <- p2_Z by lia.
        pose proof (p2_pos a) as P. apply (Qmult_inj_r _ _ (2 ^ a)); [lra|]. rewrite (Qmult_comm (inject_Z o)), E.
        replace e with ((e - a) + a)%Z at 1 by lia. rewrite p2_add. ring. }
      apply (proj1 (inject_Z_injective _ _)) in X. rewrite X in Ho. replace (e - a)%Z with (Z.succ (e - a - 1)) in Ho by lia.
      rewrite Z.pow_succ_r, Z.odd_mul, Z.odd_mul in Ho by lia. cbn in Ho. rewrite Bool.andb_false_r in Ho. discriminate.
  Qed.
  Variable pow : Q -> Z -> Q.
  Lemma determinant_float_value v k l u G : srg v k l u G -> (1 <= k < Z.of_nat v - 1)%Z -> (Z.of_nat v < 2 ^ 53)%Z ->
    conference (Z.of_nat v) k l u = 0%Z -> exists r s, 0 < r /\ s < 0 /\ is_double r /\ is_double s
      /\ Qabs ((2 * r + 1) * (2 * r + 1) - inject_Z (Z.of_nat v)) <= 2 ^ (-49) * inject_Z (Z.of_nat v)
      /\ Qabs ((2 * s + 1) * (2 * s + 1) - inject_Z (Z.of_nat v)) <= 2 ^ (-49) * inject_Z (Z.of_nat v)
      /\ determinant_float rnd sq pow (Z.of_nat v) k l u
         = Ok (round_half_even (rnd (rnd (rnd (inject_Z k) * pow r (2 * u)) * pow s (2 * u)))).
  Proof.
    intros HG Hk Hv Hc. destruct (conference_parameters v k l u G HG Hk Hc) as (El & Ek & Ev & Hu).
    destruct (eig_float_conference_proof v k l u G HG Hk Hv Hc) as (r & s & m & E & Em & Dr & Ds & R & S0 & Br & Bs).
    exists r, s. do 6 (split; [assumption|]). unfold determinant_float. rewrite E. cbn [bind fold_left fst snd num_pow num_mul float_op to_float].
    change (0 <=? 1)%Z with true. cbn [bind num_mul float_op to_float num_round]. replace m with (2 * u)%Z by lia.
    rewrite Z.pow_1_r. replace (1 * k)%Z with k by lia. reflexivity.
  Qed.
  Lemma determinant_float_wrong_proof v k l u G a o : srg v k l u G -> (1 <= k < Z.of_nat v - 1)%Z -> (Z.of_nat v < 2 ^ 53)%Z ->
    conference (Z.of_nat v) k l u = 0%Z -> (0 <= a)%Z -> u = (2 ^ a * o)%Z -> Z.odd o = true -> (2 ^ 53 <= o ^ (2 * u + 1))%Z ->
    determinant_float rnd sq pow (Z.of_nat v) k l u <> Ok (det v G).
  Proof.
    intros HG Hk Hv Hc Ha Hu Ho Hb H. destruct (conference_parameters v k l u G HG Hk Hc) as (_ & _ & _ & U).
    destruct (determinant_float_value v k l u G HG Hk Hv Hc) as (r & s & _ & _ & _ & _ & _ & _ & E). rewrite E in H.
    rewrite (det_conference v k l u G HG Hk Hc) in H.
    apply (f_equal (fun x => match x with Ok z => z | _ => 0%Z end)) in H. cbv beta iota in H.
    apply (not_double (1 + a * (2 * u + 1)) (o ^ (2 * u + 1))); [nia| |auto|].
    - rewrite Z.odd_pow by lia. exact Ho.
    - replace (2 ^ (1 + a * (2 * u + 1)) * o ^ (2 * u + 1))%Z with (2 * u ^ (2 * u + 1))%Z.
      + rewrite <- H. apply round_double, (rnd_double rnd F).
      + rewrite (Z.pow_add_r 2 1) by nia. rewrite (Z.pow_mul_r 2 a) by lia. rewrite <- Z.mul_assoc, <- Z.pow_mul_l, <- Hu. reflexivity.
  Qed.

  (** ** small conference graphs *)
  Lemma pow_mono a b m : (0 <= m)%Z -> 0 <= a -> a <= b -> 0 <= a ^ m /\ a ^ m <= b ^ m.
  Proof.
    intros Hm Ha Hb. revert m Hm. apply natlike_ind; [split; discriminate|]. intros m Hm (I & J). unfold Z.succ.
    rewrite !Qpower_plus' by lia. change (a ^ 1) with a. change (b ^ 1) with b.
    split; [apply Qmult_le_0_compat; auto|apply Qmult_le_compat_nonneg; split; auto].
  Qed.
  Lemma pow_even s m : s ^ (2 * m) == (- s) ^ (2 * m).
  Proof. rewrite !Qpower_mult. apply Qpower_comp; [|reflexivity]. change (s * s == - s * - s). ring. Qed.
  Lemma about_1 x y e : 0 <= x -> 0 <= e -> e <= 1 -> Qabs (y - x) <= e * Qabs x -> 0 <= y /\ x * (1 - e) <= y /\ y <= x * (1 + e).
  Proof. intros X E E1 H. rewrite (Qabs_pos x X) in H. apply Qabs_Qle_condition in H. split; [|lra]. nra. Qed.

  Hypothesis P : accurate_pow pow.

  Lemma product_bounds k r s m a b c d : (0 <= k < 2 ^ 53)%Z -> (0 <= m)%Z -> is_double r -> is_double s ->
    0 <= a -> a <= r -> r <= b -> 0 <= c -> c <= - s -> - s <= d ->
    inject_Z k * (a ^ (2 * m) * c ^ (2 * m)) * ((1 - 2 ^ (-52)) * (1 - 2 ^ (-52)) * ((1 - 2 ^ (-52)) * (1 - 2 ^ (-52))))
      <= rnd (rnd (rnd (inject_Z k) * pow r (2 * m)) * pow s (2 * m))
    /\ rnd (rnd (rnd (inject_Z k) * pow r (2 * m)) * pow s (2 * m))
      <= inject_Z k * (b ^ (2 * m) * d ^ (2 * m)) * ((1 + 2 ^ (-52)) * (1 + 2 ^ (-52)) * ((1 + 2 ^ (-52)) * (1 + 2 ^ (-52)))).
  Proof.
    intros Hk Hm Dr Ds Ha Hr Hb Hc Hs Hd. set (e := 2 ^ (-52)).
    assert (E : 0 <= e /\ e <= 1) by (split; discriminate). destruct E as [E0 E1].
    pose proof (rnd_int rnd F k ltac:(lia)) as EK. set (K := inject_Z k) in *.
    assert (K0 : 0 <= K) by (unfold K; change 0 with (inject_Z 0); rewrite <- Zle_Qle; lia).
    destruct (pow_mono a r (2 * m) ltac:(lia) Ha Hr) as [A0 A1]. destruct (pow_mono r b (2 * m) ltac:(lia) ltac:(lra) Hb) as [B0 B1].
    destruct (pow_mono c (- s) (2 * m) ltac:(lia) Hc Hs) as [C0 C1]. destruct (pow_mono (- s) d (2 * m) ltac:(lia) ltac:(lra) Hd) as [D0 D1].
    pose proof (pow_even s m) as EV.
    pose proof (P r (2 * m)%Z Dr ltac:(lia)) as P1. pose proof (P s (2 * m)%Z Ds ltac:(lia)) as P2. fold e in P1, P2. rewrite EV in P2.
    set (R := r ^ (2 * m)) in *. set (T := (- s) ^ (2 * m)) in *. set (p := pow r (2 * m)) in *. set (q := pow s (2 * m)) in *.
    destruct (about_1 R p e B0 E0 E1 P1) as (p0 & p1 & p2). destruct (about_1 T q e D0 E0 E1 P2) as (q0 & q1 & q2).
    pose proof (rnd_error rnd F (rnd K * p)) as X1. fold e in X1. set (x := rnd (rnd K * p)) in *.
    assert (Kp : 0 <= K * p) by (apply Qmult_le_0_compat; auto).
    assert (X1' : Qabs (x - K * p) <= e * Qabs (K * p)) by (rewrite <- EK at 1 2; exact X1).
    destruct (about_1 (K * p) x e Kp E0 E1 X1') as (x0 & x1 & x2).
    pose proof (rnd_error rnd F (x * q)) as Y1. fold e in Y1. set (y := rnd (x * q)) in *.
    assert (Xq : 0 <= x * q) by (apply Qmult_le_0_compat; auto).
    destruct (about_1 (x * q) y e Xq E0 E1 Y1) as (y0 & y1 & y2).
    set (A := a ^ (2 * m)) in *. set (B := b ^ (2 * m)) in *. set (C := c ^ (2 * m)) in *. set (D := d ^ (2 * m)) in *.
    clear X1 X1' Y1 P1 P2 EV EK. clearbody A B C D R T p q x y K e. clear - K0 E0 E1 A0 A1 B0 B1 C0 C1 D0 D1 p0 p1 p2 q0 q1 q2 x0 x1 x2 y0 y1 y2 Kp Xq.
    split.
    - eapply Qle_trans; [|exact y1].
      setoid_replace (K * (A * C) * ((1 - e) * (1 - e) * ((1 - e) * (1 - e)))) with (K * (A * (1 - e)) * (1 - e) * (C * (1 - e)) * (1 - e)) by ring.
      assert (e1 : 0 <= 1 - e) by lra.
      apply Qmult_le_compat_r; [|exact e1]. apply Qmult_le_compat_nonneg; split.
      + repeat apply Qmult_le_0_compat; auto.
      + eapply Qle_trans; [|exact x1]. apply Qmult_le_compat_r; [|exact e1]. rewrite !(Qmult_comm K). apply Qmult_le_compat_r; [|exact K0].
        eapply Qle_trans; [|exact p1]. apply Qmult_le_compat_r; auto.
      + repeat apply Qmult_le_0_compat; auto.
      + eapply Qle_trans; [|exact q1]. apply Qmult_le_compat_r; auto.
    - eapply Qle_trans; [exact y2|].
      setoid_replace (K * (B * D) * ((1 + e) * (1 + e) * ((1 + e) * (1 + e)))) with (K * (B * (1 + e)) * (1 + e) * (D * (1 + e)) * (1 + e)) by ring.
      assert (e1 : 0 <= 1 + e) by lra.
      apply Qmult_le_compat_r; [|exact e1]. apply Qmult_le_compat_nonneg; split; auto.
      + eapply Qle_trans; [exact x2|]. apply Qmult_le_compat_r; [|exact e1]. rewrite !(Qmult_comm K). apply Qmult_le_compat_r; [|exact K0].
        eapply Qle_trans; [exact p2|]. apply Qmult_le_compat_r; auto.
      + eapply Qle_trans; [exact q2|]. apply Qmult_le_compat_r; auto.
  Qed.

  (** the roots between fractions with denominator 2^61 *)
  Definition lower_root (v : Z) : Q := inject_Z (Z.sqrt (v * (2 ^ 49 - 1) * 2 ^ 71)) * (1 # 2 ^ 60).
  Definition upper_root (v : Z) : Q := inject_Z (Z.sqrt (v * (2 ^ 49 + 1) * 2 ^ 71) + 1) * (1 # 2 ^ 60).
  Definition product_check (u : Z) : bool :=
    let x := lower_root (4 * u + 1) in let y := upper_root (4 * u + 1) in
    let K := inject_Z (2 * u) in let N := inject_Z (2 * u ^ (2 * u + 1)) in
    let a := (x - 1) * (1 # 2) in let b := (y - 1) * (1 # 2) in let c := (x + 1) * (1 # 2) in let d := (y + 1) * (1 # 2) in
    let m := 1 - (1 # 2 ^ 52) in let p := 1 + (1 # 2 ^ 52) in
    Qle_bool 1 x
    && Qle_bool (x * x) (inject_Z (4 * u + 1) * (1 - (1 # 2 ^ 49)))
    && Qle_bool (inject_Z (4 * u + 1) * (1 + (1 # 2 ^ 49))) (y * y)
    && negb (Qle_bool (K * (a ^ (2 * u) * c ^ (2 * u)) * (m * m * (m * m))) (N - (1 # 2)))
    && negb (Qle_bool (N + (1 # 2)) (K * (b ^ (2 * u) * d ^ (2 * u)) * (p * p * (p * p)))).
  Lemma determinant_float_right v k l u G : srg v k l u G -> (1 <= k < Z.of_nat v - 1)%Z -> (Z.of_nat v < 2 ^ 53)%Z ->
    conference (Z.of_nat v) k l u = 0%Z -> product_check u = true -> determinant_float rnd sq pow (Z.of_nat v) k l u = Ok (det v G).
  Proof.
    intros HG Hk Hv Hc HK. destruct (conference_parameters v k l u G HG Hk Hc) as (El & Ek & Ev & Hu).
    destruct (determinant_float_value v k l u G HG Hk Hv Hc) as (r & s & R & S0 & Dr & Ds & Br & Bs & E). rewrite E.
    rewrite (det_conference v k l u G HG Hk Hc). f_equal.
    unfold product_check in HK. cbv zeta in HK. repeat (apply Bool.andb_true_iff in HK as [HK ?]).
    apply Qle_bool_iff in HK. repeat match goal with H : Qle_bool _ _ = true |- _ => apply Qle_bool_iff in H end.
    assert (NL : forall p q, negb (Qle_bool p q) = true -> q < p).
    { intros p q H9. apply Qnot_le_lt. intros X. apply Qle_bool_iff in X. rewrite X in H9. discriminate. }
    apply NL in H, H0. rewrite Ev in Br, Bs. set (V := inject_Z (4 * u + 1)) in *.
    set (x := lower_root (4 * u + 1)) in *. set (y := upper_root (4 * u + 1)) in *.
    assert (Y0 : 0 <= y).
    { unfold y, upper_root. apply Qmult_le_0_compat; [|discriminate]. change 0 with (inject_Z 0). rewrite <- Zle_Qle.
      pose proof (Z.sqrt_nonneg ((4 * u + 1) * (2 ^ 49 + 1) * 2 ^ 71)). lia. }
    apply Qabs_Qle_condition in Br. apply Qabs_Qle_condition in Bs. change (2 ^ (-49)) with (1 # 2 ^ 49) in Br, Bs.
    assert (R1 : x <= 2 * r + 1) by (apply sq_le_inv; lra). assert (R2 : 2 * r + 1 <= y) by (apply sq_le_inv; lra).
    assert (SQ : (- (2 * s + 1)) * (- (2 * s + 1)) == (2 * s + 1) * (2 * s + 1)) by ring.
    assert (S1 : x <= - (2 * s + 1) /\ - (2 * s + 1) <= y).
    { assert (V5 : 5 <= V) by (unfold V; change 5 with (inject_Z 5); rewrite <- Zle_Qle; lia).
      assert (NS : 0 <= - (2 * s + 1)) by (destruct (Qlt_le_dec (- (2 * s + 1)) 0) as [C|C]; [|auto]; exfalso; nra).
      split; apply sq_le_inv; lra. }
    destruct (product_bounds k r s u ((x - 1) * (1 # 2)) ((y - 1) * (1 # 2)) ((x + 1) * (1 # 2)) ((y + 1) * (1 # 2))) as [L U]; auto; try lia; try lra.
    rewrite Ek in L, U |- *. change (2 ^ (-52)) with (1 # 2 ^ 52) in L, U.
    apply round_close; [eapply Qlt_le_trans; [exact H0|exact L]|eapply Qle_lt_trans; [exact U|exact H]].
  Qed.
  Lemma small_check u : (1 <= u <= 7)%Z -> product_check u = true.
  Proof.
    intros H. assert (C : (u = 1 \/ u = 2 \/ u = 3 \/ u = 4 \/ u = 5 \/ u = 6 \/ u = 7)%Z) by lia.
    repeat destruct C as [-> | C]; try subst u; vm_compute; reflexivity.
  Qed.
  Lemma determinant_float_small_proof v k l u G : srg v k l u G -> (1 <= k < Z.of_nat v - 1)%Z -> (v <= 29)%nat ->
    conference (Z.of_nat v) k l u = 0%Z -> determinant_float rnd sq pow (Z.of_nat v) k l u = Ok (det v G).
  Proof.
    intros HG Hk Hv Hc. destruct (conference_parameters v k l u G HG Hk Hc) as (_ & _ & Ev & Hu).
    apply determinant_float_right; auto; [lia|]. apply small_check. lia.
  Qed.
End Contracts.

(** ** graphs with integral eigenvalues *)
Lemma srg_l0 v k l u G : srg v k l u G -> (1 <= k)%Z -> (1 <= v)%nat -> (0 <= l)%Z.
Proof.
  intros ((_ & Hb & _ & Hz) & Hd & Hc) Hk Hv. destruct (Z.le_gt_cases 0 l) as [|N]; [auto|exfalso].
  specialize (Hd 0%nat ltac:(lia)). unfold degree in Hd. rewrite sumn_zero in Hd; [lia|]. intros j Hj.
  destruct (Nat.eq_dec j 0) as [->|Hn]; [now apply Hz|]. destruct (Hb 0%nat j ltac:(lia) Hj) as [|E]; [auto|exfalso].
  specialize (Hc 0%nat j ltac:(lia) Hj ltac:(auto)). rewrite E in Hc. cbn in Hc.
  assert (X : (0 <= common v G 0 j)%Z); [|lia]. unfold common. apply sumn_nonneg. intros w Hw.
  destruct (Hb 0%nat w ltac:(lia) Hw) as [-> | ->], (Hb j w Hj Hw) as [-> | ->]; lia.
Qed.
Lemma eig_float_graph_proof rnd sq v k l u G : faithful rnd -> faithful_sqrt sq -> srg v k l u G -> (1 <= k < Z.of_nat v - 1)%Z ->
  (Z.of_nat v <= 2 ^ 20)%Z -> conference (Z.of_nat v) k l u <> 0%Z ->
  exists es, eig_float rnd sq (Z.of_nat v) k l u = Ok (map (fun em => (PInt (fst em), snd em)) es)
    /\ (forall e m, In (e, m) es -> (0 <= m)%Z) /\ spectrum v G (with_multiplicity es).
Proof.
  intros F S HG Hk Hv Hc. destruct (eig_graph_proof v k l u G HG Hk Hc) as (es & E & M & SP & _).
  destruct (sp_l v k l u G HG Hk) as (L1 & U1 & U0). pose proof (srg_l0 v k l u G HG ltac:(lia) ltac:(lia)) as L0.
  exists es. split; [|auto]. rewrite (eig_float_proof rnd sq F S) by (lia || auto). rewrite E. reflexivity.
Qed.
Lemma determinant_float_graph_proof rnd sq pow v k l u G : faithful rnd -> faithful_sqrt sq -> srg v k l u G -> (1 <= k < Z.of_nat v - 1)%Z ->
  (Z.of_nat v <= 2 ^ 20)%Z -> conference (Z.of_nat v) k l u <> 0%Z ->
  determinant_float rnd sq pow (Z.of_nat v) k l u = Ok (det v G).
Proof.
  intros F S HG Hk Hv Hc. rewrite <- (determinant_proof v k l u G HG Hk Hc).
  destruct (eig_graph_proof v k l u G HG Hk Hc) as (es & E & M & SP & _).
  destruct (sp_l v k l u G HG Hk) as (L1 & U1 & U0). pose proof (srg_l0 v k l u G HG ltac:(lia) ltac:(lia)) as L0.
  unfold determinant_float, determinant. rewrite (eig_float_proof rnd sq F S) by (lia || auto). rewrite E. cbn [bind].
  assert (X : forall a, fold_left (fun p em => prod <- p ;; x <- num_pow rnd pow (fst em) (snd em) ;; Ok (num_mul rnd prod x)) (as_ints es) (Ok (PInt a))
    = Ok (PInt (fold_left (fun prod em => prod * fst em ^ snd em)%Z es a))).
  { clear E SP. induction es as [|[e m] es IH]; intro a; [reflexivity|]. cbn [as_ints map fold_left fst snd num_pow].
    assert (Hm : (0 <=? m)%Z = true) by (apply Z.leb_le, (M e m); now left). rewrite Hm. cbn [bind num_mul].
    apply IH. intros. eapply M. right. eassumption. }
  rewrite X. reflexivity.
Qed.

(** ** the concrete operations *)
Lemma nearest_pow_accurate : accurate_pow (fun q m => nearest (q ^ m)).
Proof. intros q m _ _. apply (rnd_error nearest nearest_faithful). Qed.

(** ** the Paley graphs on 5 and 37 points *)
Definition pentagon : list (list Z) := map (unpack 5) [9; 20; 10; 5; 18]%Z.
Lemma pentagon_srg : srg 5 2 0 1 pentagon.
Proof. apply packed_srgb_ok. vm_compute. reflexivity. Qed.
Definition paley37 : list (list Z) := map (unpack 37)
  [48034254669;92736604070;46368302035;91903627753;114671290612;57335645306;28667822653;83053388062;
   41526694031;89482823751;113460888611;125449921041;131444437256;65722218628;32861109314;16430554657;
   76934754064;38467377032;19233688516;9616844258;4808422129;71123687800;35561843900;17780921950;
   8890460975;73164707223;105301830347;121370391909;129404672690;64702336345;101070644908;50535322454;
   25267661227;81353307349;109396130410;54698065205;96068509338]%Z.
Lemma paley37_srg : srg 37 18 8 9 paley37.
Proof. apply packed_srgb_ok. vm_compute. reflexivity. Qed.
Lemma determinant_float_refuted_proof : exists v k l u G, srg v k l u G /\ (1 <= k < Z.of_nat v - 1)%Z /\ (v <= 40)%nat
  /\ forall rnd sq pow, faithful rnd -> faithful_sqrt sq -> determinant_float rnd sq pow (Z.of_nat v) k l u <> Ok (det v G).
Proof.
  exists 37%nat, 18%Z, 8%Z, 9%Z, paley37. split; [exact paley37_srg|]. split; [cbn; lia|]. split; [lia|]. intros rnd sq pow F S.
  apply (determinant_float_wrong_proof rnd sq F S pow 37 18 8 9 paley37 0 9 paley37_srg);
    [lia|lia|reflexivity|lia|reflexivity|reflexivity|apply Z.leb_le; vm_compute; reflexivity].
Qed.
Lemma round_spec_proof q : Qabs (q - inject_Z (round_half_even q)) <= 1#2
  /\ (Qabs (q - inject_Z (round_half_even q)) == 1#2 -> Z.even (round_half_even q) = true).
Proof.
  unfold round_half_even. set (f := Qfloor q). pose proof (Qfloor_le q) as L. pose proof (Qlt_floor q) as H. fold f in L, H.
  rewrite inject_Z_plus in H. change (inject_Z 1) with 1 in H.
  destruct (Qcompare_spec (q - inject_Z f) (1#2)) as [E|E|E].
  - destruct (Z.even f) eqn:Ev.
    + rewrite Qabs_pos by lra. split; [lra|auto].
    + rewrite inject_Z_plus. change (inject_Z 1) with 1. rewrite Qabs_neg by lra. split; [lra|].
      intros _. change (f + 1)%Z with (Z.succ f). now rewrite Z.even_succ, <- Z.negb_even, Ev.
  - rewrite Qabs_pos by lra. split; [lra|]. intros E'. rewrite E' in E. lra.
  - rewrite inject_Z_plus. change (inject_Z 1) with 1. rewrite Qabs_neg by lra. split; [lra|]. intros E'. lra.
Qed.
Lemma truncate_spec_proof q : Qabs (inject_Z (truncate q)) <= Qabs q /\ Qabs (q - inject_Z (truncate q)) < 1.
Proof.
  unfold truncate. destruct (Qle_bool 0 q) eqn:E.
  - apply Qle_bool_iff in E. pose proof (Qfloor_le q) as L. pose proof (Qlt_floor q) as H. rewrite inject_Z_plus in H. change (inject_Z 1) with 1 in H.
    assert (P : (0 <= Qfloor q)%Z) by (change 0%Z with (Qfloor 0); now apply Qfloor_resp_le).
    rewrite Zle_Qle in P. change (inject_Z 0) with 0 in P. rewrite !Qabs_pos by lra. lra.
  - assert (N : q < 0) by (apply Qnot_le_lt; intros C; apply Qle_bool_iff in C; congruence).
    pose proof (Qfloor_le (- q)) as L. pose proof (Qlt_floor (- q)) as H. rewrite inject_Z_plus in H. change (inject_Z 1) with 1 in H.
    assert (P : (0 <= Qfloor (- q))%Z) by (change 0%Z with (Qfloor 0); apply Qfloor_resp_le; lra).
    rewrite Zle_Qle in P. change (inject_Z 0) with 0 in P. rewrite inject_Z_opp.
    rewrite (Qabs_neg (- inject_Z _)), (Qabs_neg q), (Qabs_neg (q - _)) by lra. lra.
Qed.
