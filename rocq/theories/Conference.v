(** A conference graph on [v] vertices makes [v] a sum of two rational squares
    (van Lint and Seidel); hence none on 21, 33 or 57 vertices. *)
From Verif Require Import Np Spec Lib Graph.
From Coq Require Import ZifyNat.

(** ** linear forms in [y 0 .. y (n-1)] and [d] *)
Definition linear (n : nat) (F : (nat -> Z) -> Z -> Z) : Prop :=
  exists a c, forall y d, F y d = sumn n (fun j => a j * y j) + c * d.

Lemma linear_ext n F G : (forall y d, F y d = G y d) -> linear n F -> linear n G.
Proof. intros H (a & c & E). exists a, c. intros. rewrite <- H. apply E. Qed.
Lemma linear_var n j : (j < n)%nat -> linear n (fun y _ => y j).
Proof.
  intros Hj. exists (fun i => if (i =? j)%nat then 1 else 0), 0. intros y d.
  rewrite (sumn_ext n _ (fun i => if (i =? j)%nat then y i else 0)), sumn_delta by (auto; intros i _; destruct (i =? j)%nat; lia). lia.
Qed.
Lemma linear_const n : linear n (fun _ d => d).
Proof. exists (fun _ => 0), 1. intros y d. rewrite sumn_zero by (intros; lia). lia. Qed.
Lemma linear_plus n F G : linear n F -> linear n G -> linear n (fun y d => F y d + G y d).
Proof.
  intros (a & c & E) (b & e & H). exists (fun j => a j + b j), (c + e). intros y d. rewrite E, H.
  rewrite (sumn_ext n (fun j => (a j + b j) * y j) (fun j => a j * y j + b j * y j)), sumn_plus by (intros; lia). lia.
Qed.
Lemma linear_scale n k F : linear n F -> linear n (fun y d => k * F y d).
Proof.
  intros (a & c & E). exists (fun j => k * a j), (k * c). intros y d. rewrite E.
  rewrite (sumn_ext n (fun j => k * a j * y j) (fun j => k * (a j * y j))), sumn_scale by (intros; lia). lia.
Qed.
Lemma linear_sum n m (F : nat -> (nat -> Z) -> Z -> Z) : (forall i, (i < m)%nat -> linear n (F i)) ->
  linear n (fun y d => sumn m (fun i => F i y d)).
Proof.
  induction m as [|m IH]; intros H.
  - exists (fun _ => 0), 0. intros y d. rewrite sumn_0, sumn_zero by (intros; lia). lia.
  - apply (linear_ext n (fun y d => sumn m (fun i => F i y d) + F m y d)); [intros; now rewrite sumn_S|].
    apply linear_plus; [apply IH; intros; apply H; lia|apply H; lia].
Qed.

(** the sign trick of Bruck and Ryser *)
Lemma signs n : forall (F : nat -> (nat -> Z) -> Z -> Z) e, e <> 0 -> (forall i, (i < n)%nat -> linear n (F i)) ->
  exists y d, d <> 0 /\ forall i, (i < n)%nat -> F i y d * F i y d = (e * y i) * (e * y i).
Proof.
  induction n as [|n IH]; intros F e He HF; [exists (fun _ => 0), 1; split; [lia|intros; lia]|].
  destruct (HF n ltac:(lia)) as (a & c & En).
  set (f := if Z.eq_dec (a n) e then - 2 * e else e - a n).
  assert (Hf : f <> 0) by (unfold f; destruct (Z.eq_dec (a n) e); lia).
  set (R := fun (y : nat -> Z) d => sumn n (fun j => a j * y j) + c * d).
  set (up := fun (y : nat -> Z) d j => if (j <? n)%nat then f * y j else R y d).
  destruct (IH (fun i y d => F i (up y d) (f * d)) (f * e)) as (y & d & Hd & Hy); [nia| |].
  - intros i Hi. destruct (HF i ltac:(lia)) as (b & c' & Eb).
    apply (linear_ext n (fun y d => sumn n (fun j => (b j * f) * y j) + (b n * R y d + (c' * f) * d))).
    + intros y d. rewrite Eb, sumn_S. rewrite (sumn_ext n (fun j => b j * up y d j) (fun j => b j * f * y j)).
      * unfold up. destruct (Nat.ltb_spec n n); lia.
      * intros j Hj. unfold up. destruct (Nat.ltb_spec j n); lia.
    + apply linear_plus; [apply linear_sum; intros; now apply linear_scale, linear_var|].
      apply linear_plus; apply linear_scale; [|apply linear_const]. unfold R. apply linear_plus; [|apply linear_scale, linear_const].
      apply linear_sum; intros; now apply linear_scale, linear_var.
  - exists (up y d), (f * d). split; [nia|]. intros i Hi. destruct (Nat.eq_dec i n) as [->|Hne].
    + rewrite En, sumn_S. rewrite (sumn_ext n (fun j => a j * up y d j) (fun j => f * (a j * y j))), sumn_scale.
      * assert (Eu : up y d n = R y d) by (unfold up; destruct (Nat.ltb_spec n n); lia). rewrite Eu.
        replace (f * sumn n (fun j => a j * y j) + a n * R y d + c * (f * d)) with ((f + a n) * R y d) by (unfold R; lia).
        unfold f. destruct (Z.eq_dec (a n) e) as [->|]; ring.
      * intros j Hj. unfold up. destruct (Nat.ltb_spec j n); lia.
    + rewrite Hy by lia. unfold up. destruct (Nat.ltb_spec i n); [ring|lia].
Qed.

Lemma sumn_prod n m f g : sumn n f * sumn m g = sumn n (fun j => sumn m (fun k => f j * g k)).
Proof.
  transitivity (sumn n (fun j => sumn m g * f j)); [rewrite sumn_scale; lia|].
  apply sumn_ext. intros j _. rewrite sumn_scale. lia.
Qed.
Lemma sumn_blocks m f : sumn (4 * m) f = sumn m (fun b => f (4 * b)%nat + f (4 * b + 1)%nat + f (4 * b + 2)%nat + f (4 * b + 3)%nat).
Proof.
  induction m as [|m IH]; [reflexivity|]. replace (4 * S m)%nat with (S (S (S (S (4 * m))))) by lia. rewrite !sumn_S, IH.
  replace (S (S (S (4 * m)))) with (4 * m + 3)%nat by lia. replace (S (S (4 * m))) with (4 * m + 2)%nat by lia.
  replace (S (4 * m)) with (4 * m + 1)%nat by lia. lia.
Qed.

Section conference.
  Variables (m : nat) (M : list (list Z)).
  Let v := (4 * m + 1)%nat.
  Hypothesis HM : srg v (2 * Z.of_nat m) (Z.of_nat m - 1) (Z.of_nat m) M.

  Definition seidel (i j : nat) : Z := 1 - (if (i =? j)%nat then 1 else 0) - 2 * cell M i j.

  Lemma seidel_square j k : (j < v)%nat -> (k < v)%nat ->
    sumn v (fun i => seidel i j * seidel i k) = (if (j =? k)%nat then Z.of_nat v else 0) - 1.
  Proof.
    destruct HM as ((_ & HB & HS & HD) & Hdeg & Hcom). intros Hj Hk.
    assert (COL : forall c, (c < v)%nat -> sumn v (fun i => cell M i c) = 2 * Z.of_nat m).
    { intros c Hc. rewrite <- (Hdeg c Hc). apply sumn_ext. intros i Hi. now apply HS. }
    rewrite (sumn_ext v _ (fun i => 1 - (if (i =? k)%nat then 1 else 0) - 2 * cell M i k
       - (if (i =? j)%nat then (1 - (if (i =? k)%nat then 1 else 0) - 2 * cell M i k) else 0)
       - 2 * cell M i j + (if (i =? k)%nat then 2 * cell M i j else 0) + 4 * (cell M i j * cell M i k))).
    2:{ intros i _. unfold seidel. destruct (i =? j)%nat, (i =? k)%nat; lia. }
    rewrite !sumn_plus, !sumn_minus, !sumn_scale, !sumn_const, !sumn_delta by auto. rewrite !COL by auto.
    assert (CJ : sumn v (fun i => cell M i j * cell M i k) = common v M j k).
    { apply sumn_ext. intros i Hi. rewrite (HS i j), (HS i k) by auto. reflexivity. }
    rewrite CJ. destruct (Nat.eqb_spec j k) as [->|Hne].
    - rewrite HD by auto. assert (E : common v M k k = 2 * Z.of_nat m).
      { rewrite <- (Hdeg k Hk). apply sumn_ext. intros w Hw. destruct (HB k w Hk Hw) as [->| ->]; lia. }
      rewrite E. unfold v. lia.
    - rewrite Hcom by auto. rewrite (HS k j) by auto. unfold v. destruct (HB j k Hj Hk) as [->| ->]; simpl Z.eqb; cbv iota; lia.
  Qed.
  Lemma seidel_form x : sumn v (fun i => sumn v (fun j => seidel i j * x j) * sumn v (fun j => seidel i j * x j))
    + sumn v x * sumn v x = Z.of_nat v * sumn v (fun j => x j * x j).
  Proof.
    rewrite (sumn_ext v _ (fun i => sumn v (fun j => sumn v (fun k => seidel i j * x j * (seidel i k * x k))))) by (intros; apply sumn_prod).
    rewrite sumn_swap.
    rewrite (sumn_ext v _ (fun j => sumn v (fun k => sumn v (fun i => seidel i j * x j * (seidel i k * x k))))) by (intros; apply sumn_swap).
    rewrite (sumn_ext v _ (fun j => Z.of_nat v * (x j * x j) - sumn v (fun k => x j * x k))).
    - rewrite sumn_minus, sumn_scale, <- sumn_prod. lia.
    - intros j Hj. rewrite (sumn_ext v _ (fun k => (if (k =? j)%nat then Z.of_nat v * (x j * x k) else 0) - x j * x k)).
      + now rewrite sumn_minus, sumn_delta.
      + intros k Hk. rewrite (sumn_ext v _ (fun i => x j * x k * (seidel i j * seidel i k))) by (intros; ring).
        rewrite sumn_scale, seidel_square by auto. rewrite (Nat.eqb_sym j k). destruct (k =? j)%nat; ring.
  Qed.

  Variables p q r s : Z.
  Hypothesis Hsq : Z.of_nat v = p * p + q * q + r * r + s * s.

  Definition mix (y : nat -> Z) (d : Z) (j : nat) : Z :=
    if (j <? 4 * m)%nat then
      let b := (4 * (j / 4))%nat in
      let y0 := y b in let y1 := y (b + 1)%nat in let y2 := y (b + 2)%nat in let y3 := y (b + 3)%nat in
      match (j mod 4)%nat with
      | O => p * y0 + q * y1 + (r * y2 + s * y3)
      | 1%nat => - q * y0 + p * y1 + (- s * y2 + r * y3)
      | 2%nat => - r * y0 + s * y1 + (p * y2 + - q * y3)
      | _ => - s * y0 + - r * y1 + (q * y2 + p * y3)
      end
    else d.
  Lemma mix_linear j : linear (4 * m) (fun y d => mix y d j).
  Proof.
    unfold mix. destruct (Nat.ltb_spec j (4 * m)) as [Hj|Hj]; [|apply linear_const]. cbv zeta.
    assert (Hb : (4 * (j / 4) + 3 < 4 * m)%nat) by (pose proof (Nat.div_mod j 4); lia).
    assert (L : forall c t, (t <= 3)%nat -> linear (4 * m) (fun y _ => c * y (4 * (j / 4) + t)%nat)) by (intros; apply linear_scale, linear_var; lia).
    assert (L0 : forall c, linear (4 * m) (fun y _ => c * y (4 * (j / 4))%nat)) by (intros; apply linear_scale, linear_var; lia).
    destruct (j mod 4)%nat as [|[|[|?]]]; repeat apply linear_plus; auto.
  Qed.
  Lemma mix_block y d b : (b < m)%nat ->
    mix y d (4 * b) * mix y d (4 * b) + mix y d (4 * b + 1) * mix y d (4 * b + 1)
      + mix y d (4 * b + 2) * mix y d (4 * b + 2) + mix y d (4 * b + 3) * mix y d (4 * b + 3)
    = Z.of_nat v * (y (4 * b)%nat * y (4 * b)%nat + y (4 * b + 1)%nat * y (4 * b + 1)%nat
      + y (4 * b + 2)%nat * y (4 * b + 2)%nat + y (4 * b + 3)%nat * y (4 * b + 3)%nat).
  Proof.
    intros Hb. unfold mix.
    assert (D : forall t, (t < 4)%nat -> ((4 * b + t) / 4 = b)%nat /\ ((4 * b + t) mod 4 = t)%nat).
    { intros t Ht. pose proof (Nat.div_mod (4 * b + t) 4) as H. pose proof (Nat.mod_upper_bound (4 * b + t) 4). lia. }
    destruct (D 1%nat) as [-> ->]; [lia|]. destruct (D 2%nat) as [-> ->]; [lia|]. destruct (D 3%nat) as [-> ->]; [lia|].
    destruct (D 0%nat) as [E0 E1]; [lia|]. rewrite Nat.add_0_r in E0, E1. rewrite E0, E1.
    destruct (Nat.ltb_spec (4 * b) (4 * m)); [|lia]. destruct (Nat.ltb_spec (4 * b + 1) (4 * m)); [|lia].
    destruct (Nat.ltb_spec (4 * b + 2) (4 * m)); [|lia]. destruct (Nat.ltb_spec (4 * b + 3) (4 * m)); [|lia].
    cbv zeta. rewrite Hsq. ring.
  Qed.

  Lemma two_squares : exists a b d, d <> 0 /\ a * a + b * b = Z.of_nat v * (d * d).
  Proof.
    destruct (signs (4 * m) (fun i y d => sumn v (fun j => seidel i j * mix y d j)) (Z.of_nat v)) as (y & d & Hd & Hy).
    - unfold v. lia.
    - intros i Hi. apply linear_sum. intros j Hj. apply linear_scale, mix_linear.
    - exists (sumn v (fun j => seidel (4 * m) j * mix y d j)), (sumn v (mix y d)), d. split; auto.
      pose proof (seidel_form (mix y d)) as E.
      assert (ES : forall f, sumn v f = sumn (4 * m) f + f (4 * m)%nat).
      { intros f. unfold v. replace (4 * m + 1)%nat with (S (4 * m)) by lia. apply sumn_S. }
      rewrite (ES (fun i => sumn v _ * sumn v _)) in E. rewrite (ES (fun j => mix y d j * mix y d j)) in E.
      rewrite (sumn_ext (4 * m) _ (fun i => Z.of_nat v * Z.of_nat v * (y i * y i))) in E by (intros i Hi; cbv beta; rewrite Hy by auto; ring).
      rewrite sumn_scale, !sumn_blocks in E.
      rewrite (sumn_ext m (fun b => mix y d (4 * b) * _ + _ + _ + _) (fun b => Z.of_nat v * (y (4 * b)%nat * y (4 * b)%nat + y (4 * b + 1)%nat * y (4 * b + 1)%nat
         + y (4 * b + 2)%nat * y (4 * b + 2)%nat + y (4 * b + 3)%nat * y (4 * b + 3)%nat))) in E by (intros; now apply mix_block).
      rewrite sumn_scale in E. replace (mix y d (4 * m)) with d in E by (unfold mix; destruct (Nat.ltb_spec (4 * m) (4 * m)); lia).
      nia.
  Qed.
End conference.

(** ** 3 divides [v] exactly once *)
Lemma mod3_squares a b : (a * a + b * b) mod 3 = 0 -> a mod 3 = 0 /\ b mod 3 = 0.
Proof.
  intros H. rewrite Z.add_mod, (Z.mul_mod a a), (Z.mul_mod b b) in H by lia.
  pose proof (Z.mod_pos_bound a 3). pose proof (Z.mod_pos_bound b 3).
  assert (A : a mod 3 = 0 \/ a mod 3 = 1 \/ a mod 3 = 2) by lia. assert (B : b mod 3 = 0 \/ b mod 3 = 1 \/ b mod 3 = 2) by lia.
  destruct A as [E|[E|E]], B as [F|[F|F]]; rewrite E, F in *; vm_compute in H; try discriminate; auto.
Qed.
Lemma no_two_squares w n : w mod 3 <> 0 -> forall d a b, Z.abs d < Z.of_nat n -> a * a + b * b = 3 * w * (d * d) -> d = 0.
Proof.
  intros Hw. induction n as [|n IH]; intros d a b Hn E; [lia|].
  destruct (mod3_squares a b) as [Ha Hb]; [rewrite E; replace (3 * w * (d * d)) with (w * (d * d) * 3) by ring; apply Z.mod_mul; lia|].
  apply Z.mod_divide in Ha, Hb; try lia. destruct Ha as [a' ->], Hb as [b' ->].
  assert (E2 : 3 * (a' * a' + b' * b') = w * (d * d)) by nia.
  assert (Hd : d mod 3 = 0).
  { assert (X : (w * (d * d)) mod 3 = 0) by (rewrite <- E2, Z.mul_comm; apply Z.mod_mul; lia).
    rewrite Z.mul_mod, (Z.mul_mod d d) in X by lia. pose proof (Z.mod_pos_bound d 3). pose proof (Z.mod_pos_bound w 3).
    assert (D : d mod 3 = 0 \/ d mod 3 = 1 \/ d mod 3 = 2) by lia. assert (W : w mod 3 = 1 \/ w mod 3 = 2) by lia.
    destruct D as [F|[F|F]], W as [G|G]; rewrite F, G in X; vm_compute in X; try discriminate; auto. }
  apply Z.mod_divide in Hd; [|lia]. destruct Hd as [d' ->].
  destruct (Z.eq_dec d' 0) as [->|Hne]; [reflexivity|]. rewrite (IH d' a' b'); [lia|lia|nia].
Qed.
Lemma no_conference m w p q r s M : Z.of_nat (4 * m + 1) = 3 * w -> w mod 3 <> 0 ->
  Z.of_nat (4 * m + 1) = p * p + q * q + r * r + s * s ->
  ~ srg (4 * m + 1) (2 * Z.of_nat m) (Z.of_nat m - 1) (Z.of_nat m) M.
Proof.
  intros H1 H2 H3 HM. destruct (two_squares m M HM p q r s H3) as (a & b & d & Hd & E). rewrite H1 in E.
  apply Hd. apply (no_two_squares w (Z.to_nat (Z.abs d) + 1) H2 d a b); lia.
Qed.
Lemma no_conference_proof v k l u M : In (v, k, l, u) [(21%nat, 10, 4, 5); (33%nat, 16, 7, 8); (57%nat, 28, 13, 14)] -> ~ srg v k l u M.
Proof.
  intros [E|[E|[E|[]]]]; injection E as <- <- <- <-.
  - apply (no_conference 5 7 4 2 1 0); [reflexivity|discriminate|reflexivity].
  - apply (no_conference 8 11 4 4 1 0); [reflexivity|discriminate|reflexivity].
  - apply (no_conference 14 19 7 2 2 0); [reflexivity|discriminate|reflexivity].
Qed.
