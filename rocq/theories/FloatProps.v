(** [eig] and [determinant] in floating point. *)
From Coq Require Import QArith Qabs Qpower Qround Lqa Znumtheory.
From Verif Require Import Np ModelUtil ModelFloat Spec AlgSpec FloatSpec FloatFacts Graph UtilProps Det Spectrum DetRing CharPoly.
Local Open Scope Q_scope.

(** ** int(q) *)
Lemma floor_unique q n : inject_Z n <= q -> q < inject_Z n + 1 -> Qfloor q = n.
Proof.
  intros A B. pose proof (Qfloor_le q) as C. pose proof (Qlt_floor q) as D. rewrite inject_Z_plus in D. change (inject_Z 1) with 1 in D.
  assert (X : inject_Z (Qfloor q) < inject_Z n + 1) by lra. assert (Y : inject_Z n < inject_Z (Qfloor q) + 1) by lra.
  change 1 with (inject_Z 1) in X, Y. rewrite <- inject_Z_plus, <- Zlt_Qlt in X, Y. lia.
Qed.
Lemma truncate_comp p q : p == q -> truncate p = truncate q.
Proof.
  intros E. unfold truncate. rewrite (Qfloor_comp p q E). assert (E' : - p == - q) by (rewrite E; reflexivity). rewrite (Qfloor_comp _ _ E').
  assert (B : Qle_bool 0 p = Qle_bool 0 q).
  { destruct (Qle_bool 0 p) eqn:X, (Qle_bool 0 q) eqn:Y; auto; exfalso;
      [apply Qle_bool_iff in X; rewrite E in X; apply Qle_bool_iff in X; congruence|apply Qle_bool_iff in Y; rewrite <- E in Y; apply Qle_bool_iff in Y; congruence]. }
  now rewrite B.
Qed.
Lemma truncate_int z : truncate (inject_Z z) = z.
Proof. unfold truncate. rewrite <- inject_Z_opp, !Qfloor_Z. destruct (Qle_bool _ _); lia. Qed.
Lemma truncate_quot p d : (0 < d)%Z -> truncate (inject_Z p / inject_Z d) = Z.quot p d.
Proof.
  intros Hd. unfold truncate.
  assert (E : - (inject_Z p / inject_Z d) == inject_Z (- p) / inject_Z d).
  { rewrite inject_Z_opp. unfold Qdiv. ring. }
  rewrite (Qfloor_comp _ _ E), <- !Zdiv_Qdiv.
  assert (P : 0 < inject_Z d) by (change 0 with (inject_Z 0); now rewrite <- Zlt_Qlt).
  destruct (Z_le_gt_dec 0 p) as [H|H].
  - assert (X : Qle_bool 0 (inject_Z p / inject_Z d) = true).
    { apply Qle_bool_iff. apply Qle_shift_div_l; [auto|]. rewrite Qmult_0_l. change 0 with (inject_Z 0). now rewrite <- Zle_Qle. }
    rewrite X. symmetry. apply Z.quot_div_nonneg; lia.
  - assert (X : Qle_bool 0 (inject_Z p / inject_Z d) = false).
    { destruct (Qle_bool 0 (inject_Z p / inject_Z d)) eqn:Y; [|auto]. apply Qle_bool_iff in Y. exfalso.
      assert (Z1 : inject_Z p < 0) by (change 0 with (inject_Z 0); rewrite <- Zlt_Qlt; lia).
      assert (Z2 : inject_Z p / inject_Z d * inject_Z d == inject_Z p) by (field; lra). nra. }
    rewrite X. rewrite <- Z.quot_div_nonneg by lia. rewrite Z.quot_opp_l by lia. lia.
Qed.
(** a number close to a quotient that is not an integer is truncated alike *)
Lemma truncate_near p d y : (0 < d)%Z -> ~ (d | p)%Z -> Qabs (y - inject_Z p / inject_Z d) * inject_Z d < 1 ->
  truncate y = Z.quot p d.
Proof.
  intros Hd ND H. assert (P : 0 < inject_Z d) by (change 0 with (inject_Z 0); now rewrite <- Zlt_Qlt).
  set (n := (p / d)%Z).
  assert (R : (d * n + 1 <= p <= d * n + d - 1)%Z).
  { pose proof (Z.div_mod p d ltac:(lia)) as E. fold n in E. pose proof (Z.mod_pos_bound p d Hd).
    assert (p mod d <> 0)%Z by (intro Z0; apply ND; apply Z.mod_divide; lia). lia. }
  set (t := inject_Z p / inject_Z d) in *.
  assert (Et : t * inject_Z d == inject_Z p) by (unfold t; field; lra).
  assert (R1 : inject_Z d * inject_Z n + 1 <= inject_Z p) by (change 1 with (inject_Z 1); rewrite <- inject_Z_mult, <- inject_Z_plus, <- Zle_Qle; lia).
  assert (R2 : inject_Z p + 1 <= inject_Z d * inject_Z n + inject_Z d) by (change 1 with (inject_Z 1); rewrite <- inject_Z_mult, <- !inject_Z_plus, <- Zle_Qle; lia).
  assert (B : - (1) < (y - t) * inject_Z d /\ (y - t) * inject_Z d < 1).
  { assert (X : Qabs ((y - t) * inject_Z d) < 1) by (rewrite Qabs_Qmult, (Qabs_pos (inject_Z d)) by lra; exact H).
    apply Qabs_Qlt_condition in X. exact X. }
  assert (Ey : y * inject_Z d == (y - t) * inject_Z d + inject_Z p) by (rewrite <- Et; ring).
  assert (Y1 : inject_Z n < y) by (apply (Qmult_lt_r _ _ (inject_Z d) P); lra).
  assert (Y2 : y < inject_Z n + 1) by (apply (Qmult_lt_r _ _ (inject_Z d) P); lra).
  assert (F1 : Qfloor y = n) by (apply floor_unique; lra).
  assert (F2 : Qfloor (- y) = (- n - 1)%Z).
  { apply floor_unique; unfold Z.sub; rewrite inject_Z_plus, inject_Z_opp; change (inject_Z (-(1))) with (- (1)); lra. }
  assert (X : (p / d = n)%Z) by reflexivity.
  unfold truncate. rewrite F1, F2. destruct (Z_le_gt_dec 0 n) as [C|C].
  - assert (Q0 : Qle_bool 0 y = true).
    { apply Qle_bool_iff. assert (0 <= inject_Z n) by (change 0 with (inject_Z 0); now rewrite <- Zle_Qle). lra. }
    rewrite Q0, Z.quot_div_nonneg by nia. auto.
  - assert (Q0 : Qle_bool 0 y = false).
    { destruct (Qle_bool 0 y) eqn:Y; [|auto]. apply Qle_bool_iff in Y. exfalso.
      assert (inject_Z n + 1 <= 0) by (change 0 with (inject_Z 0); change 1 with (inject_Z 1); rewrite <- inject_Z_plus, <- Zle_Qle; lia). lra. }
    rewrite Q0. assert (E : Z.quot p d = (- ((- p) / d))%Z).
    { rewrite <- (Z.quot_div_nonneg (- p) d) by nia. rewrite Z.quot_opp_l by lia. lia. }
    rewrite E. f_equal. apply (Z.div_unique (- p) d (- n - 1) (- p - d * (- n - 1))); lia.
Qed.

(** ** int(np.sqrt(d)) *)
Lemma int_sqrt rnd sq d : faithful rnd -> faithful_sqrt sq -> (0 <= d < 2 ^ 50)%Z -> truncate (sq (rnd (inject_Z d))) = Z.sqrt d.
Proof.
  intros F S Hd. pose proof (rnd_int rnd F d ltac:(lia)) as E. set (x := rnd (inject_Z d)) in *.
  assert (X0 : 0 <= x) by (rewrite E; change 0 with (inject_Z 0); rewrite <- Zle_Qle; lia).
  destruct (S x (rnd_double rnd F _) X0) as (_ & P & B).
  destruct (Z.sqrt_spec d) as [S1 S2]; [lia|]. pose proof (Z.sqrt_nonneg d) as S0. set (n := Z.sqrt d) in *. unfold Z.succ in S2.
  assert (N : (n + 1 <= 2 ^ 25)%Z) by (change (2 ^ 50)%Z with (2 ^ 25 * 2 ^ 25)%Z in Hd; nia).
  assert (N0 : 0 <= inject_Z n) by (change 0 with (inject_Z 0); now rewrite <- Zle_Qle).
  assert (L : inject_Z n <= sq x).
  { apply (proj1 (B (inject_Z n) (double_int n ltac:(lia)) N0)). rewrite E, <- inject_Z_mult, <- Zle_Qle. auto. }
  assert (U : sq x < inject_Z n + 1).
  { set (c := inject_Z ((n + 1) * 2 ^ 26 - 1) * 2 ^ (-26)).
    assert (Ec : c == inject_Z n + 1 - 2 ^ (-26)).
    { unfold c, Z.sub. rewrite inject_Z_plus, inject_Z_mult, inject_Z_plus. change (inject_Z 1) with 1. change (inject_Z (-(1))) with (- (1)).
      transitivity ((inject_Z n + 1) * (inject_Z (2 ^ 26) * 2 ^ (-26)) - 2 ^ (-26)); [ring|].
      setoid_replace (inject_Z (2 ^ 26) * 2 ^ (-26)) with 1 by reflexivity. ring. }
    assert (N1 : inject_Z n + 1 <= inject_Z (2 ^ 25)) by (change 1 with (inject_Z 1); rewrite <- inject_Z_plus, <- Zle_Qle; auto).
    assert (Dx : x + 1 <= (inject_Z n + 1) * (inject_Z n + 1)).
    { rewrite E. change 1 with (inject_Z 1). rewrite <- !inject_Z_plus, <- inject_Z_mult, <- Zle_Qle. lia. }
    change (2 ^ (-26)) with (1 # 67108864) in Ec. change (inject_Z (2 ^ 25)) with 33554432 in N1.
    assert (C0 : 0 <= c) by (rewrite Ec; lra).
    assert (Dc : is_double c) by (apply double_grid; lia).
    assert (LC : sq x <= c); [|rewrite Ec in LC; lra].
    apply (proj2 (B c Dc C0)). rewrite Ec. set (w := inject_Z n + 1) in *.
    setoid_replace ((w - (1 # 67108864)) * (w - (1 # 67108864))) with (w * w - (1 # 33554432) * w + (1 # 67108864) * (1 # 67108864)) by ring. lra. }
  unfold truncate. assert (Q0 : Qle_bool 0 (sq x) = true) by (now apply Qle_bool_iff). rewrite Q0. now apply floor_unique.
Qed.

(** ** the branch with integers *)
Definition as_ints (es : list (Z * Z)) : list (num * Z) := map (fun em => (PInt (fst em), snd em)) es.

Section Contracts.
  Variables (rnd sq : Q -> Q).
  Hypothesis F : faithful rnd.
  Hypothesis S : faithful_sqrt sq.

  Lemma half_int a : (Z.abs a < 2 ^ 53)%Z -> rnd (inject_Z a / inject_Z 2) == inject_Z a / inject_Z 2.
  Proof. intros H. apply (rnd_exact rnd F). change (inject_Z 2) with 2. now apply double_half, double_int. Qed.
  Lemma rnd_half q : is_double q -> rnd (q / rnd (inject_Z 2)) == q / 2.
  Proof.
    intros H. assert (E2 : rnd (inject_Z 2) == 2) by (apply (rnd_int rnd F); cbn; lia).
    assert (E : q / rnd (inject_Z 2) == q / 2) by (rewrite E2; reflexivity).
    rewrite <- E. apply (rnd_exact rnd F). apply (double_eq (q / 2)); [now symmetry|now apply double_half].
  Qed.

  (** the multiplicity [int(((v - 1) + sg * (conf / D)) / 2)] *)
  Lemma multiplicity V c D w : (Z.abs V <= 2 ^ 21)%Z -> (Z.abs c <= 2 ^ 43)%Z -> (0 < D < 2 ^ 22)%Z ->
    (w = rnd (inject_Z c / inject_Z D)) ->
    truncate (rnd (rnd (rnd (inject_Z V) - w) / rnd (inject_Z 2))) = Z.quot (V * D - c) (2 * D)
    /\ truncate (rnd (rnd (rnd (inject_Z V) + w) / rnd (inject_Z 2))) = Z.quot (V * D + c) (2 * D).
  Proof.
    intros HV Hc HD ->. pose proof (rnd_int rnd F V ltac:(lia)) as EV.
    assert (PD : 1 <= inject_Z D) by (change 1 with (inject_Z 1); rewrite <- Zle_Qle; lia).
    assert (PD' : inject_Z D <= 4194304) by (change 4194304 with (inject_Z 4194304); rewrite <- Zle_Qle; lia).
    set (x := inject_Z c / inject_Z D). assert (Ex : x * inject_Z D == inject_Z c) by (unfold x; field; lra).
    assert (G : forall sg y, (sg = 1 \/ sg = -1)%Z -> y == inject_Z V + inject_Z sg * rnd x ->
      truncate (rnd (rnd y / rnd (inject_Z 2))) = Z.quot (V * D + sg * c) (2 * D)).
    { intros sg y Hsg Hy. rewrite (truncate_comp _ _ (rnd_half _ (rnd_double rnd F _))).
      destruct (Zdivide_dec D c) as [(q & Eq)|ND].
      - (* everything is exact *)
        assert (Hq : (Z.abs q <= 2 ^ 43)%Z) by nia.
        assert (E1 : x == inject_Z q) by (unfold x; rewrite Eq, inject_Z_mult; field; lra).
        assert (E2 : rnd x == inject_Z q) by (rewrite <- E1; apply (rnd_exact rnd F); apply (double_eq (inject_Z q)); [now symmetry|apply double_int; lia]).
        assert (E3 : y == inject_Z (V + sg * q)) by (rewrite Hy, E2, inject_Z_plus, inject_Z_mult; reflexivity).
        assert (E4 : rnd y == inject_Z (V + sg * q)).
        { rewrite <- E3. apply (rnd_exact rnd F). apply (double_eq (inject_Z (V + sg * q))); [now symmetry|apply double_int]. destruct Hsg as [-> | ->]; lia. }
        assert (E5 : rnd y / 2 == inject_Z (V + sg * q) / inject_Z 2) by (rewrite E4; reflexivity).
        rewrite (truncate_comp _ _ E5), truncate_quot by lia. rewrite Eq.
        replace (V * D + sg * (q * D))%Z with ((V + sg * q) * D)%Z by ring. symmetry. apply Z.quot_mul_cancel_r; lia.
      - apply truncate_near; [lia| |].
        + intros (z & Hz). apply ND. destruct Hsg as [-> | ->]; [exists (2 * z - V)%Z|exists (V - 2 * z)%Z]; lia.
        + (* error bounds *)
          pose proof (rnd_error rnd F x) as R1. pose proof (rnd_error rnd F y) as R2.
          set (e := 2 ^ (-52)) in *.
          assert (AC : Qabs x * inject_Z D <= 8796093022208).
          { rewrite <- (Qabs_pos (inject_Z D)) by lra. rewrite <- Qabs_Qmult, Ex. apply Qabs_Qle_condition.
            change 8796093022208 with (inject_Z (2 ^ 43)). rewrite <- inject_Z_opp, <- !Zle_Qle. lia. }
          assert (AV : Qabs (inject_Z V) <= 2097152).
          { apply Qabs_Qle_condition. change 2097152 with (inject_Z (2 ^ 21)). rewrite <- inject_Z_opp, <- !Zle_Qle. lia. }
          assert (Asg : Qabs (inject_Z sg) == 1) by (destruct Hsg as [-> | ->]; reflexivity).
          assert (Ay : Qabs y <= Qabs (inject_Z V) + Qabs (rnd x)).
          { rewrite Hy. eapply Qle_trans; [apply Qabs_triangle|]. rewrite Qabs_Qmult, Asg, Qmult_1_l. apply Qle_refl. }
          assert (Arx : Qabs (rnd x) <= Qabs x + Qabs (rnd x - x)).
          { setoid_replace (rnd x) with (x + (rnd x - x)) at 1 by ring. apply Qabs_triangle. }
          set (t := inject_Z V + inject_Z sg * x).
          assert (Et : inject_Z (V * D + sg * c) / inject_Z (2 * D) == t / 2).
          { rewrite inject_Z_plus, !inject_Z_mult. unfold t, x. change (inject_Z 2) with 2. field. lra. }
          assert (B : Qabs (rnd y - t) <= Qabs (rnd y - y) + Qabs (rnd x - x)).
          { assert (E1 : y - t == inject_Z sg * (rnd x - x)) by (rewrite Hy; unfold t; ring).
            setoid_replace (rnd y - t) with ((rnd y - y) + inject_Z sg * (rnd x - x)) by (rewrite <- E1; ring).
            eapply Qle_trans; [apply Qabs_triangle|]. rewrite Qabs_Qmult, Asg, Qmult_1_l. apply Qle_refl. }
          setoid_replace (rnd y / 2 - inject_Z (V * D + sg * c) / inject_Z (2 * D)) with ((rnd y - t) * (1 # 2)) by (rewrite Et; field).
          rewrite Qabs_Qmult. change (Qabs (1 # 2)) with (1 # 2). rewrite inject_Z_mult. change (inject_Z 2) with 2.
          setoid_replace (Qabs (rnd y - t) * (1 # 2) * (2 * inject_Z D)) with (Qabs (rnd y - t) * inject_Z D) by ring.
          set (d := inject_Z D) in *. set (ax := Qabs x) in *. set (ay := Qabs y) in *. set (av := Qabs (inject_Z V)) in *.
          set (arx := Qabs (rnd x)) in *. set (d1 := Qabs (rnd x - x)) in *. set (d2 := Qabs (rnd y - y)) in *. set (bb := Qabs (rnd y - t)) in *.
          change e with (1 # 4503599627370496) in R1, R2. clearbody d ax ay av arx d1 d2 bb.
          assert (M1 : d1 * d <= (1 # 4503599627370496) * ax * d) by (apply Qmult_le_compat_r; lra).
          assert (M2 : d2 * d <= (1 # 4503599627370496) * ay * d) by (apply Qmult_le_compat_r; lra).
          assert (M3 : ay * d <= (av + ax + d1) * d) by (apply Qmult_le_compat_r; lra).
          assert (M4 : av * d <= 2097152 * d) by (apply Qmult_le_compat_r; lra).
          assert (M5 : bb * d <= (d2 + d1) * d) by (apply Qmult_le_compat_r; lra).
          assert (N1 : (1 # 4503599627370496) * ax * d == (1 # 4503599627370496) * (ax * d)) by ring.
          assert (N2 : (1 # 4503599627370496) * ay * d == (1 # 4503599627370496) * (ay * d)) by ring.
          assert (N3 : (av + ax + d1) * d == av * d + ax * d + d1 * d) by ring.
          assert (N5 : (d2 + d1) * d == d2 * d + d1 * d) by ring. lra. }
    split.
    - replace (V * D - c)%Z with (V * D + -1 * c)%Z by ring. apply G; [auto|]. fold x. rewrite EV. change (inject_Z (-1)) with (- (1)). ring.
    - replace (V * D + c)%Z with (V * D + 1 * c)%Z by ring. apply G; [auto|]. fold x. rewrite EV. change (inject_Z 1) with 1. ring.
  Qed.

  Lemma eig_float_proof v k l u : (Z.abs v <= 2 ^ 20)%Z -> (Z.abs k <= 2 ^ 20)%Z -> (Z.abs l <= 2 ^ 20)%Z -> (Z.abs u <= 2 ^ 20)%Z ->
    conference v k l u <> 0%Z -> eig_float rnd sq v k l u = (es <- eig v k l u ;; Ok (as_ints es)).
  Proof.
    intros Hv Hk Hl Hu Hc. unfold eig_float, eig. cbv zeta. apply Z.eqb_neq in Hc as Hc'. rewrite Hc'.
    set (d := ((l - u) ^ 2 + 4 * (k - u))%Z). assert (Bd : (d < 2 ^ 50)%Z) by (unfold d; nia).
    destruct (Z.ltb_spec d 0) as [N|P]; [reflexivity|]. cbn [num_int bind].
    rewrite (int_sqrt rnd sq d F S) by lia. set (D := Z.sqrt d).
    assert (D0 : (0 <= D < 2 ^ 22)%Z).
    { pose proof (Z.sqrt_nonneg d) as D0. fold D in D0. destruct (Z.sqrt_spec d P) as [X _]. fold D in X. unfold d in X. nia. }
    cbn [num_add num_sub num_div]. change (2 =? 0)%Z with false. cbv iota. cbn [bind num_int].
    assert (H1 : truncate (rnd (inject_Z (l - u + D) / inject_Z 2)) = Z.quot (l - u + D) 2)
      by (rewrite (truncate_comp _ _ (half_int (l - u + D) ltac:(lia))); apply truncate_quot; lia).
    assert (H2 : truncate (rnd (inject_Z (l - u - D) / inject_Z 2)) = Z.quot (l - u - D) 2)
      by (rewrite (truncate_comp _ _ (half_int (l - u - D) ltac:(lia))); apply truncate_quot; lia).
    rewrite H1, H2. destruct (Z.eqb_spec D 0) as [E|E]; [reflexivity|]. cbn [bind num_sub num_add float_op to_float num_div num_int].
    assert (Bc : (Z.abs (conference v k l u) <= 2 ^ 43)%Z).
    { unfold conference. assert (X : (Z.abs ((v - 1) * (l - u)) <= 2 ^ 21 * 2 ^ 21)%Z) by (rewrite Z.abs_mul; apply Z.mul_le_mono_nonneg; lia).
      change (2 ^ 21 * 2 ^ 21)%Z with (2 ^ 42)%Z in X. lia. }
    destruct (multiplicity (v - 1) (conference v k l u) D _ ltac:(lia) Bc ltac:(lia) eq_refl) as [M1 M2].
    rewrite M1, M2. reflexivity.
  Qed.

  (** ** the branch with floats *)
  Lemma sqrt_error x : is_double x -> 0 < x ->
    Qabs (sq x * sq x - x) <= (2 * 2 ^ (-52) + 2 ^ (-52) * 2 ^ (-52)) * x.
  Proof.
    intros Dx Px. destruct (root_neighbours x Px) as (a & b & Da & Db & A0 & A & B & AB & G).
    destruct (S x Dx ltac:(lra)) as (_ & P & C). destruct (C a Da ltac:(lra)) as [C1 _]. specialize (C1 A).
    destruct (C b Db ltac:(lra)) as [_ C2]. specialize (C2 B). set (f := sq x) in *. set (e := 2 ^ (-52)) in *.
    assert (E0 : 0 < e) by reflexivity. clearbody e f.
    assert (Hb : b <= a * (1 + e)) by lra.
    assert (Hbb : b * b <= (a * (1 + e)) * (a * (1 + e))) by (apply Qmult_le_compat_nonneg; split; lra).
    assert (Haf : a * a <= f * f) by (apply Qmult_le_compat_nonneg; split; lra).
    assert (Hfb : f * f <= b * b) by (apply Qmult_le_compat_nonneg; split; lra).
    assert (K : (a * (1 + e)) * (a * (1 + e)) == a * a + (2 * e + e * e) * (a * a)) by ring.
    assert (L : (2 * e + e * e) * (a * a) <= (2 * e + e * e) * x) by (apply Qmult_le_l; [nra|auto]).
    apply Qabs_Qle_condition. lra.
  Qed.

  Lemma conference_values d : (5 <= d < 2 ^ 53)%Z -> let f := sq (rnd (inject_Z d)) in
    let w1 := rnd (rnd (inject_Z (-1)) + f) in let w2 := rnd (rnd (inject_Z (-1)) - f) in
    0 < f /\ 0 < w1 /\ w2 < 0
    /\ Qabs ((w1 + 1) * (w1 + 1) - inject_Z d) <= 2 ^ (-49) * inject_Z d
    /\ Qabs ((w2 + 1) * (w2 + 1) - inject_Z d) <= 2 ^ (-49) * inject_Z d.
  Proof.
    intros Hd f w1 w2. pose proof (rnd_int rnd F d ltac:(lia)) as Ed. set (x := rnd (inject_Z d)) in *.
    pose proof (rnd_int rnd F (-1) ltac:(cbn; lia)) as E1. change (inject_Z (-1)) with (- (1)) in *.
    assert (Bx : 5 <= x) by (rewrite Ed; change 5 with (inject_Z 5); rewrite <- Zle_Qle; lia).
    assert (Dx : is_double x) by apply (rnd_double rnd F).
    destruct (S x Dx ltac:(lra)) as (_ & _ & C).
    assert (F2 : 2 <= f) by (apply (proj1 (C 2 (double_int 2 ltac:(cbn; lia)) ltac:(lra))); lra).
    pose proof (sqrt_error x Dx ltac:(lra)) as SE. fold f in SE.
    assert (W1 : 1 <= w1).
    { unfold w1. destruct (F (rnd (- (1)) + f)) as [_ B]. apply (proj1 (B 1 (double_int 1 ltac:(cbn; lia)))). rewrite E1. lra. }
    assert (W2 : w2 <= - (1)).
    { unfold w2. destruct (F (rnd (- (1)) - f)) as [_ B]. apply (proj2 (B (- (1)) (double_int (-1) ltac:(cbn; lia)))). rewrite E1. lra. }
    split; [lra|]. split; [lra|]. split; [lra|].
    pose proof (rnd_error rnd F (rnd (- (1)) + f)) as R1. fold w1 in R1. pose proof (rnd_error rnd F (rnd (- (1)) - f)) as R2. fold w2 in R2.
    rewrite E1 in R1, R2. rewrite (Qabs_pos (- (1) + f)) in R1 by lra. rewrite (Qabs_neg (- (1) - f)) in R2 by lra.
    apply Qabs_Qle_condition in R1. apply Qabs_Qle_condition in R2. apply Qabs_Qle_condition in SE. rewrite <- Ed.
    clear - Bx F2 SE R1 R2 W1 W2. setoid_replace (2 ^ (-49)) with (8 * (1 # 4503599627370496)) by reflexivity. change (2 ^ (-52)) with (1 # 4503599627370496) in *.
    set (e := 1 # 4503599627370496) in *. assert (E0 : 0 < e /\ e * 1000 < 1) by (split; reflexivity). clearbody e x f w1 w2.
    assert (G : forall w g t, (t = 1 \/ t = 2) -> g * g == f * f -> Qabs g == f -> Qabs (w + 1 - g) <= t * e * f ->
      Qabs ((w + 1) * (w + 1) - x) <= 8 * e * x).
    { intros w g t Ht Hg Ag H. set (dl := w + 1 - g) in *.
      assert (T : 0 <= t * e * f /\ t * e * f <= 2 * e * f) by (destruct Ht as [-> | ->]; nra).
      assert (Xf : f * f <= (1 + (2 * e + e * e)) * x) by lra.
      assert (D1 : Qabs (2 * g * dl) <= 4 * e * (f * f)).
      { rewrite !Qabs_Qmult, Ag. change (Qabs 2) with 2. pose proof (Qabs_nonneg dl).
        apply Qle_trans with (2 * f * (2 * e * f)); [apply Qmult_le_l; lra|]. apply Qle_lteq. right. ring. }
      assert (D2 : Qabs (dl * dl) <= 4 * e * e * (f * f)).
      { rewrite Qabs_Qmult. pose proof (Qabs_nonneg dl).
        apply Qle_trans with (2 * e * f * (2 * e * f)); [apply Qmult_le_compat_nonneg; split; lra|]. apply Qle_lteq. right. ring. }
      assert (E : (w + 1) * (w + 1) - x == (f * f - x) + 2 * g * dl + dl * dl) by (rewrite <- Hg; unfold dl; ring).
      apply Qabs_Qle_condition in D1. apply Qabs_Qle_condition in D2. rewrite E. apply Qabs_Qle_condition.
      assert (B1 : 4 * e * (f * f) + 4 * e * e * (f * f) <= (4 * e + 4 * e * e) * ((1 + (2 * e + e * e)) * x)).
      { setoid_replace (4 * e * (f * f) + 4 * e * e * (f * f)) with ((4 * e + 4 * e * e) * (f * f)) by ring. apply Qmult_le_l; [nra|auto]. }
      assert (B2 : (4 * e + 4 * e * e) * ((1 + (2 * e + e * e)) * x) + (2 * e + e * e) * x <= 8 * e * x).
      { setoid_replace ((4 * e + 4 * e * e) * ((1 + (2 * e + e * e)) * x) + (2 * e + e * e) * x)
          with (((4 * e + 4 * e * e) * (1 + (2 * e + e * e)) + (2 * e + e * e)) * x) by ring.
        apply Qmult_le_compat_r; [|lra].
        setoid_replace ((4 * e + 4 * e * e) * (1 + (2 * e + e * e)) + (2 * e + e * e)) with (e * (6 + e * (13 + e * (12 + 4 * e)))) by ring.
        setoid_replace (8 * e) with (e * 8) by ring. apply Qmult_le_l; [lra|]. nra. }
      lra. }
    split.
    - apply (G w1 f 1); auto; [reflexivity|apply Qabs_pos; lra|]. apply Qabs_Qle_condition. nra.
    - apply (G w2 (- f) 2); auto; [ring|rewrite Qabs_opp; apply Qabs_pos; lra|]. apply Qabs_Qle_condition. nra.
  Qed.
End Contracts.
