(** Quasi-idempotent matrices over an integral domain: if [E E = c E] then
    [d E = W C] for some [W], [C] with [C W = d c I]. Matrices are functions of
    two indices, looked at below [n]. *)
From Coq Require Import ZArith List Lia Ring.
Import ListNotations.
Local Open Scope nat_scope.

Section Domain.
  Variables (R : Type) (rO rI : R) (radd rmul rsub : R -> R -> R) (ropp : R -> R).
  Hypothesis Rth : ring_theory rO rI radd rmul rsub ropp eq.
  Hypothesis dom : forall a b, rmul a b = rO -> a = rO \/ b = rO.
  Hypothesis dec : forall a b : R, {a = b} + {a <> b}.
  Add Ring Rring : Rth.
  Local Infix "+" := radd. Local Infix "*" := rmul. Local Infix "-" := rsub.

  (** ** sums *)
  Fixpoint sm (n : nat) (f : nat -> R) : R :=
    match n with O => rO | S n => sm n f + f n end.
  Lemma sm_ext n f g : (forall i, i < n -> f i = g i) -> sm n f = sm n g.
  Proof. induction n; intro H; cbn; [auto|]. rewrite IHn, H; auto. Qed.
  Lemma sm_0 n f : (forall i, i < n -> f i = rO) -> sm n f = rO.
  Proof. induction n; intro H; cbn; [auto|]. rewrite IHn, H by auto. ring. Qed.
  Lemma sm_add n f g : sm n (fun i => f i + g i) = sm n f + sm n g.
  Proof. induction n; cbn; [ring|]. rewrite IHn. ring. Qed.
  Lemma sm_sub n f g : sm n (fun i => f i - g i) = sm n f - sm n g.
  Proof. induction n; cbn; [ring|]. rewrite IHn. ring. Qed.
  Lemma sm_l n a f : sm n (fun i => a * f i) = a * sm n f.
  Proof. induction n; cbn; [ring|]. rewrite IHn. ring. Qed.
  Lemma sm_r n a f : sm n (fun i => f i * a) = sm n f * a.
  Proof. induction n; cbn; [ring|]. rewrite IHn. ring. Qed.
  Lemma sm_swap n m f : sm n (fun i => sm m (fun j => f i j)) = sm m (fun j => sm n (fun i => f i j)).
  Proof.
    induction n; cbn; [symmetry; now apply sm_0|]. rewrite IHn. symmetry. apply sm_add.
  Qed.
  Lemma sm_one n j a : j < n -> sm n (fun i => if i =? j then a else rO) = a.
  Proof.
    induction n; intro H; [lia|]. cbn. destruct (Nat.eqb_spec n j) as [->|Hn].
    - rewrite sm_0. ring. intros i Hi. destruct (Nat.eqb_spec i j); [lia|auto].
    - rewrite IHn by lia. ring.
  Qed.
  Lemma cancel a b c : a <> rO -> a * b = a * c -> b = c.
  Proof.
    intros Ha H. assert (E : a * (b - c) = rO) by (replace (a * (b - c)) with (a * b - a * c) by ring; rewrite H; ring).
    destruct (dom _ _ E) as [|E']; [contradiction|]. replace b with ((b - c) + c) by ring. rewrite E'. ring.
  Qed.

  (** ** factoring *)
  Variable n : nat.
  Definition quasi (E : nat -> nat -> R) (c : R) : Prop :=
    forall i k, i < n -> k < n -> sm n (fun j => E i j * E j k) = c * E i k.
  Record factor (E : nat -> nat -> R) (c : R) (m : nat) (W C : nat -> nat -> R) (d : R) : Prop := {
    f_d : d <> rO;
    f_prod : forall i k, i < n -> k < n -> sm m (fun a => W i a * C a k) = d * E i k;
    f_orth : forall a b, a < m -> b < m -> sm n (fun i => C a i * W i b) = if a =? b then d * c else rO;
    f_left : forall z, (forall k, k < n -> sm n (fun i => z i * E i k) = rO) ->
      forall a, a < m -> sm n (fun i => z i * W i a) = rO;
    f_right : forall z, (forall i, i < n -> sm n (fun k => E i k * z k) = rO) ->
      forall a, a < m -> sm n (fun k => C a k * z k) = rO }.

  Lemma find_nonzero (f : nat -> R) t : (exists j, j < t /\ f j <> rO) \/ (forall j, j < t -> f j = rO).
  Proof.
    induction t; [right; lia|]. destruct IHt as [(j & Hj & H)|H]; [left; exists j; split; [lia|auto]|].
    destruct (dec (f t) rO) as [Ht|Ht]; [|left; exists t; auto].
    right. intros j Hj. destruct (Nat.eq_dec j t) as [->|]; [auto|apply H; lia].
  Qed.

  Lemma factor_exists : forall L E c, c <> rO -> quasi E c -> (forall p, In p L -> p < n) ->
    (forall i, i < n -> ~ In i L -> forall k, k < n -> E i k = rO) ->
    exists m W C d, factor E c m W C d.
  Proof.
    assert (one : rI <> rO \/ forall a, a = rO).
    { destruct (dec rI rO) as [H|H]; [right|left; auto]. intro a. replace a with (rI * a) by ring. rewrite H. ring. }
    induction L as [|p L IH]; intros E c Hc HE HL Hz.
    - exists 0, E, E, rI. split; intros; try lia.
      + destruct one as [H|H]; [auto|]. exfalso. apply Hc, H.
      + cbn. rewrite Hz by auto. ring.
    - destruct (find_nonzero (E p) n) as [(j & Hj & Hw)|Hp].
      2:{ apply IH; auto. intros q Hq. apply HL. now right. intros i Hi Hn k Hk.
          destruct (Nat.eq_dec i p) as [->|Hip]; [auto|]. apply Hz; auto. intros [H|H]; [auto|auto]. }
      assert (Pn : p < n) by (apply HL; now left).
      pose (x := E p j). fold x in Hw.
      pose (F := fun i k => x * E i k - E i j * E p k).
      assert (HEw : forall i, i < n -> sm n (fun k => E i k * E k j) = c * E i j) by (intros; apply HE; auto).
      assert (HF : quasi F (c * x)).
      { intros i k Hi Hk. unfold F.
        rewrite (sm_ext n _ (fun a => x * (x * (E i a * E a k)) - E p k * (x * (E i a * E a j))
                                     - (E i j * (x * (E p a * E a k)) - E i j * E p k * (E p a * E a j))))
          by (intros; ring).
        rewrite !sm_sub, !sm_l, !HE by auto. unfold x. ring. }
      destruct (IH F (c * x)) as (m & W & C & d & [Fd Fp Fo Fl Fr]); auto.
      { intro H. destruct (dom _ _ H); auto. }
      { intros q Hq. apply HL. now right. }
      { intros i Hi Hn k Hk. unfold F. destruct (Nat.eq_dec i p) as [->|Hip]; [unfold x; ring|].
        assert (Hzi : forall k', k' < n -> E i k' = rO) by (apply Hz; auto; intros [H|H]; auto).
        rewrite !Hzi by auto. ring. }
      assert (Fw : forall i, i < n -> sm n (fun k => F i k * E k j) = rO).
      { intros i Hi. unfold F. rewrite (sm_ext n _ (fun k => x * (E i k * E k j) - E i j * (E p k * E k j))) by (intros; ring).
        rewrite sm_sub, !sm_l, !HEw by auto. unfold x. ring. }
      assert (pF : forall k, k < n -> sm n (fun i => E p i * F i k) = rO).
      { intros k Hk. unfold F. rewrite (sm_ext n _ (fun i => x * (E p i * E i k) - E p k * (E p i * E i j))) by (intros; ring).
        rewrite sm_sub, !sm_l, !HE by auto. unfold x. ring. }
      exists (S m), (fun i a => if a =? m then d * E i j else W i a), (fun a k => if a =? m then E p k else C a k), (d * x).
      split.
      + intro H. destruct (dom _ _ H); auto.
      + intros i k Hi Hk. cbn [sm]. rewrite Nat.eqb_refl.
        rewrite (sm_ext m _ (fun a => W i a * C a k)).
        2:{ intros a Ha. destruct (Nat.eqb_spec a m); [lia|auto]. }
        rewrite Fp by auto. unfold F. ring.
      + intros a b Ha Hb. destruct (Nat.eqb_spec a m) as [Ea|Na], (Nat.eqb_spec b m) as [Eb|Nb].
        * subst a b. rewrite Nat.eqb_refl. rewrite (sm_ext n _ (fun i => d * (E p i * E i j))) by (intros; ring).
          rewrite sm_l, HEw by auto. unfold x. ring.
        * subst a. destruct (Nat.eqb_spec m b); [lia|]. apply Fl; [auto|lia].
        * subst b. destruct (Nat.eqb_spec a m); [lia|].
          rewrite (sm_ext n _ (fun i => d * (C a i * E i j))) by (intros; ring). rewrite sm_l, Fr by (auto; lia). ring.
        * rewrite Fo by lia. destruct (Nat.eqb_spec a b); [ring|auto].
      + intros z Hzr a Ha. destruct (Nat.eqb_spec a m) as [Ea|Na].
        * rewrite (sm_ext n _ (fun i => d * (z i * E i j))) by (intros; ring). rewrite sm_l, Hzr by auto. ring.
        * apply Fl; [|lia]. intros k Hk. unfold F.
          rewrite (sm_ext n _ (fun i => x * (z i * E i k) - E p k * (z i * E i j))) by (intros; ring).
          rewrite sm_sub, !sm_l, !Hzr by auto. ring.
      + intros z Hzr a Ha. destruct (Nat.eqb_spec a m) as [Ea|Na]; [now apply Hzr|].
        apply Fr; [|lia]. intros i Hi. unfold F.
        rewrite (sm_ext n _ (fun k => x * (E i k * z k) - E i j * (E p k * z k))) by (intros; ring).
        rewrite sm_sub, !sm_l, !Hzr by auto. ring.
  Qed.

  Theorem quasi_factor E c : c <> rO -> quasi E c -> exists m W C d, factor E c m W C d.
  Proof.
    intros Hc HE. apply (factor_exists (seq 0 n)); auto.
    - intros p Hp. apply in_seq in Hp. lia.
    - intros i Hi Hn. exfalso. apply Hn, in_seq. lia.
  Qed.

  (** [a + ... + a], [m] times *)
  Lemma factor_trace E c m W C d : factor E c m W C d -> sm n (fun i => E i i) = sm m (fun _ => c).
  Proof.
    intros [Fd Fp Fo _ _]. apply (cancel d); [auto|]. rewrite <- !sm_l.
    rewrite (sm_ext n _ (fun i => sm m (fun a => W i a * C a i))) by (intros; symmetry; apply Fp; auto).
    rewrite sm_swap. apply sm_ext. intros a Ha.
    rewrite (sm_ext n _ (fun i => C a i * W i a)) by (intros; ring).
    rewrite Fo, Nat.eqb_refl by auto. reflexivity.
  Qed.
End Domain.
