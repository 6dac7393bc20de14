(** Doubles: which numbers are doubles, neighbouring doubles, and a concrete
    rounding that meets the contracts. *)
From Coq Require Import QArith Qabs Qpower Qround Lqa.
From Verif Require Import Np FloatSpec ModelFloat.
Local Open Scope Q_scope.

Lemma two_nz : ~ 2 == 0.
Proof. intro H. discriminate H. Qed.
Lemma p2_pos e : 0 < 2 ^ e.
Proof. now apply Qpower_0_lt. Qed.
Lemma p2_add a b : 2 ^ (a + b) == 2 ^ a * 2 ^ b.
Proof. apply Qpower_plus, two_nz. Qed.
Lemma p2_Z e : (0 <= e)%Z -> 2 ^ e == inject_Z (2 ^ e).
Proof. intros H. now rewrite Zpower_Qpower. Qed.
Lemma p2_inv e : 2 ^ e * 2 ^ (- e) == 1.
Proof. rewrite <- p2_add, Z.add_opp_diag_r. reflexivity. Qed.

Lemma double_eq p q : p == q -> is_double p -> is_double q.
Proof. intros E (m & e & H & Hq). exists m, e. split; [auto|]. now rewrite <- E. Qed.
Lemma double_int z : (Z.abs z < 2 ^ 53)%Z -> is_double (inject_Z z).
Proof. intros H. exists z, 0%Z. split; [auto|]. ring. Qed.
Lemma double_opp q : is_double q -> is_double (- q).
Proof. intros (m & e & H & E). exists (- m)%Z, e. split; [lia|]. rewrite E, inject_Z_opp. ring. Qed.
Lemma double_scale q s : is_double q -> is_double (q * 2 ^ s).
Proof. intros (m & e & H & E). exists m, (e + s)%Z. split; [auto|]. rewrite E, p2_add. ring. Qed.
Lemma double_half q : is_double q -> is_double (q / 2).
Proof. intros H. apply (double_eq (q * 2 ^ (-1))); [reflexivity|]. now apply double_scale. Qed.
Lemma double_grid m s : (Z.abs m <= 2 ^ 53)%Z -> is_double (inject_Z m * 2 ^ s).
Proof.
  intros H. assert (C : (Z.abs m < 2 ^ 53)%Z \/ (Z.abs m = 2 ^ 53)%Z) by lia. destruct C as [C|C].
  - exists m, s. split; [auto|reflexivity].
  - exists (Z.sgn m), (s + 53)%Z. split; [destruct m; cbn; lia|]. rewrite p2_add, (p2_Z 53) by lia.
    transitivity (inject_Z (Z.sgn m * 2 ^ 53) * 2 ^ s); [|rewrite inject_Z_mult; ring].
    rewrite <- C, Z.mul_comm, Z.abs_sgn. reflexivity.
Qed.

(** a double whose size is at least 2^52 units is a multiple of the unit *)
Lemma double_multiple d s : is_double d -> inject_Z (2 ^ 52) <= Qabs d * 2 ^ s -> exists z, d * 2 ^ s == inject_Z z.
Proof.
  intros (m & e & Hm & E) H. destruct (Z_le_gt_dec 0 (e + s)) as [Hs|Hs].
  - exists (m * 2 ^ (e + s))%Z. rewrite E, inject_Z_mult, <- p2_Z, p2_add by auto. ring.
  - exfalso. rewrite E, Qabs_Qmult in H. rewrite (Qabs_pos (2 ^ e)) in H by (apply Qlt_le_weak, p2_pos).
    assert (X : Qabs (inject_Z m) * 2 ^ (e + s) < inject_Z (2 ^ 52)).
    { apply Qle_lt_trans with (Qabs (inject_Z m) * 2 ^ (-1)).
      - apply Qmult_le_compat_nonneg; [split; [apply Qabs_nonneg|apply Qle_refl]|split; [apply Qlt_le_weak, p2_pos|]].
        apply Qpower_le_compat_l; [lia|discriminate].
      - setoid_replace (Qabs (inject_Z m) * 2 ^ (-1)) with (Qabs (inject_Z m) / 2) by reflexivity.
        assert (Qabs (inject_Z m) < inject_Z (2 ^ 53)).
        { unfold Qabs, inject_Z. cbn [Qnum Qden]. unfold Qlt. cbn [Qnum Qden]. lia. }
        apply Qlt_shift_div_r; [reflexivity|]. setoid_replace (inject_Z (2 ^ 52) * 2) with (inject_Z (2 ^ 53)) by reflexivity. auto. }
    rewrite p2_add in X. apply (Qlt_irrefl (inject_Z (2 ^ 52))). eapply Qle_lt_trans; [exact H|].
    setoid_replace (Qabs (inject_Z m) * 2 ^ e * 2 ^ s) with (Qabs (inject_Z m) * (2 ^ e * 2 ^ s)) by ring. exact X.
Qed.

(** ** the unit of a positive number *)
Definition scale (q : Q) : Z :=
  let s := (52 - (Z.log2 (Qnum q) - Z.log2 (Zpos (Qden q))))%Z in
  if Qle_bool (inject_Z (2 ^ 52)) (q * 2 ^ s) then s else (s + 1)%Z.
Lemma log2_Q z : (0 < z)%Z -> 2 ^ Z.log2 z <= inject_Z z /\ inject_Z z < 2 ^ (Z.log2 z + 1).
Proof.
  intros H. pose proof (Z.log2_spec z H) as [A B]. pose proof (Z.log2_nonneg z). rewrite !p2_Z by lia.
  rewrite <- Zle_Qle, <- Zlt_Qlt. unfold Z.succ in B. auto.
Qed.
Lemma scale_spec q : 0 < q -> inject_Z (2 ^ 52) <= q * 2 ^ scale q /\ q * 2 ^ scale q < inject_Z (2 ^ 53).
Proof.
  intros Hq. unfold scale. set (a := Z.log2 (Qnum q)). set (b := Z.log2 (Zpos (Qden q))).
  assert (Hn : (0 < Qnum q)%Z) by (unfold Qlt in Hq; cbn in Hq; lia).
  destruct (log2_Q (Qnum q) Hn) as [A1 A2]. destruct (log2_Q (Zpos (Qden q)) eq_refl) as [B1 B2]. fold a in A1, A2. fold b in B1, B2.
  assert (Eq : q * inject_Z (Zpos (Qden q)) == inject_Z (Qnum q)) by (unfold Qeq, Qmult, inject_Z; cbn; lia).
  set (d := inject_Z (Zpos (Qden q))) in *. set (n := inject_Z (Qnum q)) in *.
  assert (Hd : 0 < d) by reflexivity.
  set (y := q * 2 ^ (52 - (a - b))).
  assert (Ey : y * d == n * 2 ^ (52 - (a - b))) by (unfold y; rewrite <- Eq; ring).
  assert (Y1 : inject_Z (2 ^ 51) < y).
  { apply (Qmult_lt_r _ _ d Hd). rewrite Ey. apply Qlt_le_trans with (2 ^ a * 2 ^ (52 - (a - b))).
    - rewrite <- p2_add. replace (a + (52 - (a - b)))%Z with (51 + (b + 1))%Z by lia. rewrite p2_add, (p2_Z 51) by lia.
      apply Qmult_lt_l; [reflexivity|auto].
    - apply Qmult_le_compat_r; [auto|apply Qlt_le_weak, p2_pos]. }
  assert (Y2 : y < inject_Z (2 ^ 53)).
  { apply (Qmult_lt_r _ _ d Hd). rewrite Ey. apply Qlt_le_trans with (2 ^ (a + 1) * 2 ^ (52 - (a - b))).
    - apply Qmult_lt_r; [apply p2_pos|auto].
    - rewrite <- p2_add. replace (a + 1 + (52 - (a - b)))%Z with (53 + b)%Z by lia. rewrite p2_add, (p2_Z 53) by lia.
      apply Qmult_le_l; [reflexivity|auto]. }
  fold y. destruct (Qle_bool (inject_Z (2 ^ 52)) y) eqn:C.
  - apply Qle_bool_iff in C. split; auto.
  - assert (C' : y < inject_Z (2 ^ 52)).
    { apply Qnot_le_lt. intro X. apply Qle_bool_iff in X. congruence. }
    assert (E2 : q * 2 ^ (52 - (a - b) + 1) == 2 * y) by (rewrite p2_add; unfold y; change (2 ^ 1) with 2; ring).
    rewrite E2. setoid_replace (inject_Z (2 ^ 52)) with (2 * inject_Z (2 ^ 51)) by reflexivity.
    setoid_replace (inject_Z (2 ^ 53)) with (2 * inject_Z (2 ^ 52)) by reflexivity. split.
    + apply Qlt_le_weak, Qmult_lt_l; [reflexivity|auto].
    + apply Qmult_lt_l; [reflexivity|auto].
Qed.

(** the double at or below a positive number, and the next one *)
Definition below (q : Q) : Q := inject_Z (Qfloor (q * 2 ^ scale q)) * 2 ^ (- scale q).
Definition above (q : Q) : Q := inject_Z (Qfloor (q * 2 ^ scale q) + 1) * 2 ^ (- scale q).
Lemma floor_range q : 0 < q -> (2 ^ 52 <= Qfloor (q * 2 ^ scale q) < 2 ^ 53)%Z.
Proof.
  intros Hq. destruct (scale_spec q Hq) as [A B]. split.
  - rewrite <- (Qfloor_Z (2 ^ 52)). now apply Qfloor_resp_le.
  - rewrite Zlt_Qlt. eapply Qle_lt_trans; [apply Qfloor_le|exact B].
Qed.
Lemma unscale x s : x * 2 ^ s * 2 ^ (- s) == x.
Proof. rewrite <- Qmult_assoc, p2_inv. ring. Qed.
Lemma le_unscale x z s : x * 2 ^ s <= z -> x <= z * 2 ^ (- s).
Proof. intros H. rewrite <- (unscale x s). apply Qmult_le_compat_r; [auto|apply Qlt_le_weak, p2_pos]. Qed.
Lemma ge_unscale x z s : z <= x * 2 ^ s -> z * 2 ^ (- s) <= x.
Proof. intros H. rewrite <- (unscale x s). apply Qmult_le_compat_r; [auto|apply Qlt_le_weak, p2_pos]. Qed.
Lemma below_double q : 0 < q -> is_double (below q).
Proof. intros Hq. pose proof (floor_range q Hq). apply double_grid. lia. Qed.
Lemma above_double q : 0 < q -> is_double (above q).
Proof. intros Hq. pose proof (floor_range q Hq). apply double_grid. lia. Qed.
Lemma below_le q : below q <= q.
Proof. unfold below. apply ge_unscale, Qfloor_le. Qed.
Lemma above_ge q : q <= above q.
Proof. unfold above. apply le_unscale, Qlt_le_weak, Qlt_floor. Qed.
(** the two differ by at most one part in 2^52 *)
Lemma gap q : 0 < q -> above q - below q <= 2 ^ (-52) * below q /\ 0 < below q.
Proof.
  intros Hq. pose proof (floor_range q Hq) as [A _]. unfold above, below. set (s := scale q) in *. set (f := Qfloor (q * 2 ^ s)) in *.
  pose proof (p2_pos (- s)) as P. assert (F : inject_Z (2 ^ 52) <= inject_Z f) by (now rewrite <- Zle_Qle). split.
  - rewrite inject_Z_plus. setoid_replace ((inject_Z f + inject_Z 1) * 2 ^ (- s) - inject_Z f * 2 ^ (- s)) with (1 * 2 ^ (- s)) by (change (inject_Z 1) with 1; ring).
    rewrite Qmult_assoc. apply Qmult_le_compat_r; [|now apply Qlt_le_weak].
    apply Qle_trans with (2 ^ (-52) * inject_Z (2 ^ 52)); [vm_compute; discriminate|]. apply Qmult_le_l; [reflexivity|auto].
  - apply (Qlt_le_trans _ (inject_Z (2 ^ 52) * 2 ^ (- s))); [apply Qmult_lt_0_compat; [reflexivity|auto]|].
    apply Qmult_le_compat_r; [auto|now apply Qlt_le_weak].
Qed.
(** no double lies between them *)
Lemma double_below q d : 0 < q -> is_double d -> d <= q -> d <= below q.
Proof.
  intros Hq Hd H. pose proof (floor_range q Hq) as [A _]. unfold below. apply le_unscale. set (s := scale q) in *.
  destruct (Qlt_le_dec (d * 2 ^ s) (inject_Z (2 ^ 52))) as [C|C].
  - apply Qlt_le_weak. eapply Qlt_le_trans; [exact C|]. now rewrite <- Zle_Qle.
  - destruct (double_multiple d s Hd) as (z & E).
    + eapply Qle_trans; [exact C|]. apply Qmult_le_compat_r; [apply Qle_Qabs|apply Qlt_le_weak, p2_pos].
    + rewrite E, <- Zle_Qle. rewrite <- (Qfloor_Z z), <- E. apply Qfloor_resp_le. apply Qmult_le_compat_r; [auto|apply Qlt_le_weak, p2_pos].
Qed.
Lemma double_above q d : 0 < q -> is_double d -> q <= d -> above q <= d \/ q == d.
Proof.
  intros Hq Hd H. destruct (scale_spec q Hq) as [A _]. unfold above. set (s := scale q) in *.
  assert (L : q * 2 ^ s <= d * 2 ^ s) by (apply Qmult_le_compat_r; [auto|apply Qlt_le_weak, p2_pos]).
  destruct (double_multiple d s Hd) as (z & E).
  - eapply Qle_trans; [exact A|]. eapply Qle_trans; [exact L|]. apply Qmult_le_compat_r; [apply Qle_Qabs|apply Qlt_le_weak, p2_pos].
  - apply Qle_lt_or_eq in H. destruct H as [H|H]; [left|now right].
    assert (L' : q * 2 ^ s < d * 2 ^ s) by (apply Qmult_lt_r; [apply p2_pos|auto]).
    apply ge_unscale. rewrite E in *. rewrite <- Zle_Qle. assert (X : (Qfloor (q * 2 ^ s) < z)%Z); [|lia].
    rewrite Zlt_Qlt. eapply Qle_lt_trans; [apply Qfloor_le|exact L'].
Qed.
Lemma below_eq q : 0 < q -> is_double q -> below q == q.
Proof. intros Hq Hd. apply Qle_antisym; [apply below_le|]. apply double_below; auto. apply Qle_refl. Qed.

(** ** consequences of the contract *)
Section Rounding.
  Variable rnd : Q -> Q.
  Hypothesis F : faithful rnd.
  Lemma rnd_double q : is_double (rnd q).
  Proof. apply F. Qed.
  Lemma rnd_exact q : is_double q -> rnd q == q.
  Proof. intros H. destruct (F q) as [_ B]. destruct (B q H) as [B1 B2]. apply Qle_antisym; [apply B2|apply B1]; apply Qle_refl. Qed.
  Lemma rnd_int z : (Z.abs z < 2 ^ 53)%Z -> rnd (inject_Z z) == inject_Z z.
  Proof. intros. now apply rnd_exact, double_int. Qed.
  Lemma rnd_pos q : 0 < q -> below q <= rnd q /\ rnd q <= above q.
  Proof.
    intros H. destruct (F q) as [_ B]. split.
    - apply (proj1 (B (below q) (below_double q H))), below_le.
    - apply (proj2 (B (above q) (above_double q H))), above_ge.
  Qed.
  Lemma rnd_error q : Qabs (rnd q - q) <= 2 ^ (-52) * Qabs q.
  Proof.
    assert (P : forall q0, 0 < q0 -> forall x, below q0 <= x -> x <= above q0 -> Qabs (x - q0) <= 2 ^ (-52) * Qabs q0).
    { intros q0 H x A B. destruct (gap q0 H) as [G G0]. pose proof (below_le q0). pose proof (above_ge q0).
      rewrite (Qabs_pos q0) by lra. apply Qabs_Qle_condition. change (2 ^ (-52)) with (1 # 4503599627370496) in *. lra. }
    destruct (Q_dec q 0) as [[H|H]|H].
    - assert (H' : 0 < - q) by lra. destruct (F q) as [_ B].
      assert (X : Qabs (- rnd q - - q) <= 2 ^ (-52) * Qabs (- q)).
      { apply P; [auto| |].
        - pose proof (proj2 (B (- below (- q)) (double_opp _ (below_double _ H')))) as Y. pose proof (below_le (- q)). lra.
        - pose proof (proj1 (B (- above (- q)) (double_opp _ (above_double _ H')))) as Y. pose proof (above_ge (- q)). lra. }
      rewrite Qabs_opp in X. setoid_replace (- rnd q - - q) with (- (rnd q - q)) in X by ring. now rewrite Qabs_opp in X.
    - destruct (rnd_pos q H). now apply P.
    - assert (E : rnd q == 0).
      { assert (D0 : is_double 0) by (apply (double_int 0); cbn; lia). destruct (F q) as [_ B]. destruct (B 0 D0). apply Qle_antisym; [|]; auto; [apply H1|apply H0]; rewrite H; apply Qle_refl. }
      rewrite E, H. vm_compute. discriminate.
  Qed.
End Rounding.

(** ** a concrete rounding: to nearest, ties to even *)
Definition nearest (q : Q) : Q :=
  match Qcompare q 0 with
  | Eq => 0
  | Gt => inject_Z (round_half_even (q * 2 ^ scale q)) * 2 ^ (- scale q)
  | Lt => - (inject_Z (round_half_even (- q * 2 ^ scale (- q))) * 2 ^ (- scale (- q)))
  end.
Lemma round_floor y : (round_half_even y = Qfloor y \/ round_half_even y = Qfloor y + 1)%Z.
Proof. unfold round_half_even. destruct (Qcompare _ _); [destruct (Z.even _)|..]; auto. Qed.
Lemma round_int y z : y == inject_Z z -> round_half_even y = z.
Proof.
  intros E. unfold round_half_even. rewrite (Qfloor_comp _ _ E), Qfloor_Z. cbv zeta.
  assert (X : (y - inject_Z z ?= 1 # 2) = Lt) by (apply Qlt_alt; rewrite E; setoid_replace (inject_Z z - inject_Z z) with 0 by ring; reflexivity).
  now rewrite X.
Qed.
Lemma nearest_pos q (y := inject_Z (round_half_even (q * 2 ^ scale q)) * 2 ^ (- scale q)) : 0 < q ->
  is_double y /\ forall d, is_double d -> (d <= q -> d <= y) /\ (q <= d -> y <= d).
Proof.
  intros Hq. pose proof (floor_range q Hq) as R. pose proof (round_floor (q * 2 ^ scale q)) as RF. unfold y.
  split; [apply double_grid; lia|]. intros d Hd. split; intros H.
  - eapply Qle_trans; [apply double_below; eassumption|]. unfold below. apply Qmult_le_compat_r; [|apply Qlt_le_weak, p2_pos].
    rewrite <- Zle_Qle. lia.
  - destruct (double_above q d Hq Hd H) as [A|E].
    + eapply Qle_trans; [|exact A]. unfold above. apply Qmult_le_compat_r; [|apply Qlt_le_weak, p2_pos]. rewrite <- Zle_Qle. lia.
    + assert (Dq : is_double q) by (apply (double_eq d); [now symmetry|auto]).
      destruct (double_multiple q (scale q) Dq) as (z & Ez).
      { rewrite Qabs_pos by lra. now apply scale_spec. }
      rewrite (round_int _ z Ez), <- Ez, unscale, E. apply Qle_refl.
Qed.
Lemma nearest_faithful : faithful nearest.
Proof.
  intros q. unfold nearest. destruct (Qcompare_spec q 0) as [E|E|E].
  - split; [apply (double_int 0); cbn; lia|]. intros d _. rewrite E. auto.
  - assert (H : 0 < - q) by lra. destruct (nearest_pos (- q) H) as [A B]. split; [now apply double_opp|].
    intros d Hd. destruct (B (- d) (double_opp d Hd)) as [B1 B2]. split; intros X.
    + assert (Y : - q <= - d) by lra. specialize (B2 Y). lra.
    + assert (Y : - d <= - q) by lra. specialize (B1 Y). lra.
  - now apply nearest_pos.
Qed.

(** ** square roots: neighbouring doubles around the root *)
Definition sqrt_scale (x : Q) : Z :=
  let s := scale x in if Z.even s then ((s + 52) / 2)%Z else ((s + 53) / 2)%Z.
Definition sqrt_floor (x : Q) : Z := Z.sqrt (Qfloor (x * 2 ^ (2 * sqrt_scale x))).
Lemma sqrt_scale_spec x : 0 < x -> inject_Z (2 ^ 104) <= x * 2 ^ (2 * sqrt_scale x) /\ x * 2 ^ (2 * sqrt_scale x) < inject_Z (2 ^ 106).
Proof.
  intros Hx. destruct (scale_spec x Hx) as [A B]. unfold sqrt_scale. set (s := scale x) in *.
  assert (C : exists c, (c = 52 \/ c = 53)%Z /\ (2 * (if Z.even s then (s + 52) / 2 else (s + 53) / 2) = s + c)%Z).
  { destruct (Z.even s) eqn:E.
    - apply Z.even_spec in E. destruct E as (h & ->). exists 52%Z. split; [auto|].
      replace (2 * h + 52)%Z with ((h + 26) * 2)%Z by lia. rewrite Z.div_mul by lia. lia.
    - assert (O : Z.odd s = true) by (rewrite <- Z.negb_even, E; reflexivity). apply Z.odd_spec in O. destruct O as (h & ->).
      exists 53%Z. split; [auto|]. replace (2 * h + 1 + 53)%Z with ((h + 27) * 2)%Z by lia. rewrite Z.div_mul by lia. lia. }
  destruct C as (c & Hc & ->). rewrite p2_add. 
  assert (P : inject_Z (2 ^ 52) <= 2 ^ c /\ 2 ^ c <= inject_Z (2 ^ 53)) by (destruct Hc as [-> | ->]; split; vm_compute; discriminate).
  destruct P as [P1 P2]. rewrite Qmult_assoc. split.
  - setoid_replace (inject_Z (2 ^ 104)) with (inject_Z (2 ^ 52) * inject_Z (2 ^ 52)) by reflexivity.
    apply Qmult_le_compat_nonneg; split; auto; vm_compute; discriminate.
  - setoid_replace (inject_Z (2 ^ 106)) with (inject_Z (2 ^ 53) * inject_Z (2 ^ 53)) by reflexivity.
    eapply Qlt_le_trans; [apply Qmult_lt_r; [apply p2_pos|exact B]|]. apply Qmult_le_l; [reflexivity|auto].
Qed.
Lemma sqrt_floor_spec x (f := inject_Z (sqrt_floor x)) (y := x * 2 ^ (2 * sqrt_scale x)) : 0 < x ->
  (2 ^ 52 <= sqrt_floor x < 2 ^ 53)%Z /\ f * f <= y /\ y < (f + 1) * (f + 1).
Proof.
  intros Hx. destruct (sqrt_scale_spec x Hx) as [A B]. fold y in A, B. unfold f, sqrt_floor. fold y.
  assert (R : (2 ^ 104 <= Qfloor y < 2 ^ 106)%Z).
  { split; [rewrite <- (Qfloor_Z (2 ^ 104)); now apply Qfloor_resp_le|]. rewrite Zlt_Qlt. eapply Qle_lt_trans; [apply Qfloor_le|exact B]. }
  destruct (Z.sqrt_spec (Qfloor y)) as [S1 S2]; [lia|]. set (m := Z.sqrt (Qfloor y)) in *. unfold Z.succ in S2.
  assert (M0 : (0 <= m)%Z) by apply Z.sqrt_nonneg.
  split; [|split].
  - change (2 ^ 104)%Z with (2 ^ 52 * 2 ^ 52)%Z in R. change (2 ^ 106)%Z with (2 ^ 53 * 2 ^ 53)%Z in R. nia.
  - rewrite <- inject_Z_mult. eapply Qle_trans; [|apply Qfloor_le]. now rewrite <- Zle_Qle.
  - eapply Qlt_le_trans; [apply Qlt_floor|]. change 1 with (inject_Z 1). rewrite <- inject_Z_plus, <- inject_Z_mult, <- Zle_Qle. lia.
Qed.
Lemma sq_scale a s : a * 2 ^ (- s) * (a * 2 ^ (- s)) * 2 ^ (2 * s) == a * a.
Proof.
  replace (2 * s)%Z with (s + s)%Z by lia. rewrite p2_add. setoid_replace (a * 2 ^ (- s) * (a * 2 ^ (- s)) * (2 ^ s * 2 ^ s))
    with (a * a * (2 ^ s * 2 ^ (- s)) * (2 ^ s * 2 ^ (- s))) by ring. rewrite p2_inv. ring.
Qed.
Lemma sq_le_r x a s : x * 2 ^ (2 * s) <= a * a -> x <= a * 2 ^ (- s) * (a * 2 ^ (- s)).
Proof. intros H. apply (Qmult_le_r _ _ (2 ^ (2 * s))); [apply p2_pos|]. now rewrite sq_scale. Qed.
Lemma sq_le_l x a s : a * a <= x * 2 ^ (2 * s) -> a * 2 ^ (- s) * (a * 2 ^ (- s)) <= x.
Proof. intros H. apply (Qmult_le_r _ _ (2 ^ (2 * s))); [apply p2_pos|]. now rewrite sq_scale. Qed.
Lemma root_neighbours x : 0 < x -> exists a b, is_double a /\ is_double b /\ 0 < a /\ a * a <= x /\ x <= b * b /\ a <= b /\ b - a <= 2 ^ (-52) * a.
Proof.
  intros Hx. destruct (sqrt_floor_spec x Hx) as (R & A & B). set (m := sqrt_floor x) in *. set (s := sqrt_scale x) in *.
  exists (inject_Z m * 2 ^ (- s)), (inject_Z (m + 1) * 2 ^ (- s)). pose proof (p2_pos (- s)) as P.
  assert (Em : inject_Z (m + 1) == inject_Z m + 1) by (rewrite inject_Z_plus; reflexivity).
  assert (F : inject_Z (2 ^ 52) <= inject_Z m) by (rewrite <- Zle_Qle; lia).
  split; [apply double_grid; lia|]. split; [apply double_grid; lia|]. split; [|split; [|split; [|split]]].
  - apply Qmult_lt_0_compat; [|auto]. eapply Qlt_le_trans; [|exact F]. reflexivity.
  - now apply sq_le_l.
  - apply sq_le_r. rewrite Em. now apply Qlt_le_weak.
  - apply Qmult_le_compat_r; [rewrite <- Zle_Qle; lia|now apply Qlt_le_weak].
  - rewrite Em. setoid_replace ((inject_Z m + 1) * 2 ^ (- s) - inject_Z m * 2 ^ (- s)) with (1 * 2 ^ (- s)) by ring.
    rewrite Qmult_assoc. apply Qmult_le_compat_r; [|now apply Qlt_le_weak].
    apply Qle_trans with (2 ^ (-52) * inject_Z (2 ^ 52)); [vm_compute; discriminate|]. apply Qmult_le_l; [reflexivity|auto].
Qed.

(** a concrete square root: to nearest *)
Definition nearest_sqrt (x : Q) : Q :=
  if Qle_bool x 0 then 0
  else
    let m := sqrt_floor x in let s := sqrt_scale x in
    let y := x * 2 ^ (2 * s) in
    if Qeq_bool y (inject_Z (m * m)) then inject_Z m * 2 ^ (- s)
    else if Qle_bool (inject_Z ((2 * m + 1) * (2 * m + 1))) (4 * y) then inject_Z (m + 1) * 2 ^ (- s) else inject_Z m * 2 ^ (- s).
Lemma sq_le_inv a b : 0 <= b -> a * a <= b * b -> a <= b.
Proof. intros Hb H. destruct (Qlt_le_dec b a) as [C|C]; [|auto]. exfalso. nra. Qed.
Lemma nearest_sqrt_faithful : faithful_sqrt nearest_sqrt.
Proof.
  intros x Dx Hx. unfold nearest_sqrt. destruct (Qle_bool x 0) eqn:C.
  - apply Qle_bool_iff in C. assert (E : x == 0) by lra. split; [apply (double_int 0); cbn; lia|]. split; [apply Qle_refl|].
    intros d Hd Pd. rewrite E. split; [intros; nra|auto].
  - assert (Px : 0 < x) by (apply Qnot_le_lt; intro X; apply Qle_bool_iff in X; congruence). clear C.
    destruct (sqrt_floor_spec x Px) as (R & A & B). set (m := sqrt_floor x) in *. set (s := sqrt_scale x) in *. set (y := x * 2 ^ (2 * s)) in *.
    pose proof (p2_pos (- s)) as P. pose proof (p2_pos s) as P'.
    assert (G : forall z, (z = m \/ (z = m + 1 /\ ~ y == inject_Z (m * m)))%Z ->
      is_double (inject_Z z * 2 ^ (- s)) /\ 0 <= inject_Z z * 2 ^ (- s)
      /\ forall d, is_double d -> 0 <= d -> (d * d <= x -> d <= inject_Z z * 2 ^ (- s)) /\ (x <= d * d -> inject_Z z * 2 ^ (- s) <= d)).
    { intros z Hz. assert (Rz : (2 ^ 52 <= z <= 2 ^ 53)%Z) by (destruct Hz as [-> | [-> _]]; lia).
      split; [apply double_grid; lia|]. split.
      { apply Qmult_le_0_compat; [change 0 with (inject_Z 0); rewrite <- Zle_Qle; lia|now apply Qlt_le_weak]. }
      intros d Hd Pd. set (t := d * 2 ^ s). assert (Pt : 0 <= t) by (apply Qmult_le_0_compat; [auto|now apply Qlt_le_weak]).
      assert (Et : t * t == d * d * 2 ^ (2 * s)) by (unfold t; replace (2 * s)%Z with (s + s)%Z by lia; rewrite p2_add; ring).
      assert (Fm : inject_Z (2 ^ 52) <= inject_Z m) by (rewrite <- Zle_Qle; lia).
      assert (F0 : 0 <= inject_Z m) by (eapply Qle_trans; [|exact Fm]; vm_compute; discriminate).
      assert (IT : inject_Z (2 ^ 52) <= t -> exists w, t == inject_Z w).
      { intros L. apply (double_multiple d s Hd). rewrite Qabs_pos by auto. exact L. }
      split; intros H.
      - apply le_unscale. fold t. apply Qle_trans with (inject_Z m); [|rewrite <- Zle_Qle; lia].
        destruct (Qlt_le_dec t (inject_Z (2 ^ 52))) as [C|C]; [lra|]. destruct (IT C) as (w & Ew).
        assert (T : t * t < (inject_Z m + 1) * (inject_Z m + 1)).
        { rewrite Et. eapply Qle_lt_trans; [|exact B]. unfold y. apply Qmult_le_compat_r; [auto|apply Qlt_le_weak, p2_pos]. }
        assert (L : t < inject_Z m + 1) by (apply Qnot_le_lt; intro X; nra).
        rewrite Ew in *. change 1 with (inject_Z 1) in L. rewrite <- inject_Z_plus, <- Zlt_Qlt in L. rewrite <- Zle_Qle. lia.
      - apply ge_unscale. fold t.
        assert (T : y <= t * t) by (rewrite Et; unfold y; apply Qmult_le_compat_r; [auto|apply Qlt_le_weak, p2_pos]).
        assert (L : inject_Z m <= t) by (apply sq_le_inv; [auto|]; eapply Qle_trans; eauto).
        destruct (IT ltac:(eapply Qle_trans; eauto)) as (w & Ew). rewrite Ew in *. rewrite <- Zle_Qle in L |- *.
        destruct Hz as [-> | [-> N]]; [auto|]. assert (W : (w <> m)%Z); [|lia].
        intros ->. apply N. rewrite inject_Z_mult. apply Qle_antisym; auto. }
    destruct (Qeq_bool y (inject_Z (m * m))) eqn:E1; [apply G; auto|].
    apply Qeq_bool_neq in E1. destruct (Qle_bool _ _); apply G; auto.
Qed.
