(** The determinant over a commutative ring in which 2 is no zero divisor:
    multiplicativity, diagonal matrices, and the relation to [det]. *)
From Coq Require Import Sorting.Permutation Ring.
From Verif Require Import Np Spec AlgSpec Lib Graph LinAlg Det.
Local Open Scope nat_scope.

Section Ring.
  Variables (R : Type) (rO rI : R) (radd rmul rsub : R -> R -> R) (ropp : R -> R).
  Hypothesis Rth : ring_theory rO rI radd rmul rsub ropp eq.
  Hypothesis two : forall a, radd a a = rO -> a = rO.
  Add Ring Rring : Rth.
  Local Infix "+" := radd. Local Infix "*" := rmul. Local Notation "- x" := (ropp x).

  Definition rs (l : list R) : R := fold_right radd rO l.
  Definition rp (l : list R) : R := fold_right rmul rI l.
  Definition rn (n : nat) (f : nat -> R) : R := rs (map f (seq 0 n)).
  Lemma rs_app a b : rs (a ++ b) = rs a + rs b.
  Proof. induction a as [|x a IH]; [change (rs b = rO + rs b); ring|]. change (x + rs (a ++ b) = x + rs a + rs b). rewrite IH. ring. Qed.
  Lemma rs_cons a l : rs (a :: l) = a + rs l.
  Proof. reflexivity. Qed.
  Lemma rp_cons a l : rp (a :: l) = a * rp l.
  Proof. reflexivity. Qed.
  Lemma rs_scale {A} c (f : A -> R) l : rs (map (fun x => c * f x) l) = c * rs (map f l).
  Proof. induction l as [|a l IH]; cbn [map]; [cbn; ring|]. rewrite !rs_cons, IH. ring. Qed.
  Lemma rs_plus {A} (f g : A -> R) l : rs (map (fun x => f x + g x) l) = rs (map f l) + rs (map g l).
  Proof. induction l as [|a l IH]; cbn [map]; [cbn; ring|]. rewrite !rs_cons, IH. ring. Qed.
  Lemma rs_zero {A} (f : A -> R) l : (forall x, In x l -> f x = rO) -> rs (map f l) = rO.
  Proof. induction l as [|a l IH]; intros H; [reflexivity|]. cbn [map]. rewrite rs_cons, H, IH; [ring| |now left]. intros; apply H; now right. Qed.
  Lemma rs_swap {A B} (f : A -> B -> R) l l' :
    rs (map (fun a => rs (map (f a) l')) l) = rs (map (fun b => rs (map (fun a => f a b) l)) l').
  Proof.
    induction l as [|a l IH]; cbn [map]; [symmetry; now apply rs_zero|]. rewrite rs_cons, IH, <- rs_plus. reflexivity.
  Qed.
  Lemma rn_ext n f g : (forall i, i < n -> f i = g i) -> rn n f = rn n g.
  Proof. intros H. unfold rn. f_equal. apply map_ext_in. intros i Hi. apply in_seq in Hi. apply H. lia. Qed.
  Lemma rn_scale n c f : rn n (fun i => c * f i) = c * rn n f.
  Proof. apply rs_scale. Qed.
  Lemma rn_delta n j f : j < n -> rn n (fun i => if i =? j then f i else rO) = f j.
  Proof.
    intros Hj. unfold rn. assert (G : forall a m, a <= j < a + m -> rs (map (fun i => if i =? j then f i else rO) (seq a m)) = f j).
    { intros a m. revert a. induction m as [|m IH]; intros a H; [lia|]. cbn [seq map]. rewrite rs_cons. destruct (Nat.eqb_spec a j) as [->|N].
      - rewrite rs_zero; [ring|]. intros x Hx. apply in_seq in Hx. destruct (Nat.eqb_spec x j); [lia|reflexivity].
      - rewrite IH by lia. ring. }
    apply G. lia.
  Qed.
  Lemma rn_sm n f : rn n f = sm R rO radd n f.
  Proof.
    unfold rn. induction n as [|n IH]; [reflexivity|]. rewrite seq_S, map_app, rs_app, IH. cbn [map sm plus]. rewrite rs_cons. cbn. ring.
  Qed.

  Definition ss (n m : nat) (f : list nat -> R) : R := rs (map f (sequences n m)).
  Lemma ss_0 n f : ss n 0 f = f [].
  Proof. unfold ss. cbn. ring. Qed.
  Lemma rs_flat_map {A B} (g : A -> list B) (f : B -> R) l :
    rs (map f (flat_map g l)) = rs (map (fun a => rs (map f (g a))) l).
  Proof. induction l as [|a l IH]; [reflexivity|]. cbn [flat_map map]. rewrite map_app, rs_app, rs_cons, IH. reflexivity. Qed.
  Lemma ss_S n m f : ss n (S m) f = rn n (fun a => ss n m (fun t => f (a :: t))).
  Proof. unfold ss, rn. cbn [sequences]. rewrite rs_flat_map. f_equal. apply map_ext. intro a. now rewrite map_map. Qed.
  Lemma ss_ext n m : forall f g,
    (forall s, length s = m -> (forall a, In a s -> a < n) -> f s = g s) -> ss n m f = ss n m g.
  Proof.
    induction m as [|m IH]; intros f g H.
    - rewrite !ss_0. apply H; [auto|intros a []].
    - rewrite !ss_S. apply rn_ext. intros a Ha. apply IH. intros s Hs Hb. apply H; [cbn; lia|].
      intros b [<-|Hb']; auto.
  Qed.
  Lemma ss_scale n m c f : ss n m (fun s => c * f s) = c * ss n m f.
  Proof. apply rs_scale. Qed.
  Lemma ss_swap n m f p q : ss n m (fun s => ss p q (fun t => f s t)) = ss p q (fun t => ss n m (fun s => f s t)).
  Proof. unfold ss. apply rs_swap. Qed.
  Lemma ss_zero n m f : (forall s, length s = m -> (forall a, In a s -> a < n) -> f s = rO) -> ss n m f = rO.
  Proof. intro H. rewrite (ss_ext n m f (fun s => rO * rO)) by (intros; rewrite H by auto; ring). rewrite ss_scale. ring. Qed.
  Lemma ss_single n m : forall f t, length t = m -> (forall a, In a t -> a < n) ->
    (forall s, length s = m -> s <> t -> f s = rO) -> ss n m f = f t.
  Proof.
    induction m as [|m IH]; intros f t Ht Hb H.
    - destruct t; [|discriminate]. apply ss_0.
    - destruct t as [|a t]; [discriminate|]. rewrite ss_S.
      rewrite (rn_ext n _ (fun b => if b =? a then ss n m (fun s => f (b :: s)) else rO)).
      + rewrite (rn_delta n a (fun b => ss n m (fun s => f (b :: s)))) by (apply Hb; now left).
        apply (IH (fun s => f (a :: s)) t).
        * cbn in Ht. lia.
        * intros b Hb'. apply Hb. now right.
        * intros s Hs Hn. apply H; [cbn; lia|congruence].
      + intros b _. destruct (Nat.eqb_spec b a) as [->|Hn]; [reflexivity|]. apply ss_zero. intros s Hs _. apply H; [cbn; lia|congruence].
  Qed.
  Lemma rn_swap n f : rn n (fun a => rn n (fun b => f a b)) = rn n (fun b => rn n (fun a => f a b)).
  Proof. apply rs_swap. Qed.
  Lemma ss_exch n m : forall i f, S i < m -> ss n m f = ss n m (fun s => f (exch i s)).
  Proof.
    induction m as [|m IH]; intros i f H; [lia|]. destruct i as [|i].
    - destruct m as [|m]; [lia|]. rewrite !ss_S.
      rewrite (rn_ext n _ (fun a => rn n (fun b => ss n m (fun t => f (a :: b :: t))))) by (intros; apply ss_S).
      rewrite rn_swap. apply rn_ext. intros b _. rewrite ss_S. reflexivity.
    - rewrite !ss_S. apply rn_ext. intros a _. rewrite (IH i (fun t => f (a :: t))) by lia. reflexivity.
  Qed.
  Lemma rp_perm l l' : Permutation l l' -> rp l = rp l'.
  Proof. induction 1; auto; rewrite ?rp_cons in *; [now rewrite IHPermutation|ring|congruence]. Qed.

  Definition sg (a b : nat) : R := if a <? b then rI else if b <? a then - rI else rO.
  Fixpoint sgn (s : list nat) : R :=
    match s with
    | [] => rI
    | a :: t => rp (map (sg a) t) * sgn t
    end.
  Lemma sgn_cons a t : sgn (a :: t) = rp (map (sg a) t) * sgn t.
  Proof. reflexivity. Qed.
  Lemma sg_anti a b : sg b a = - sg a b.
  Proof. unfold sg. destruct (Nat.ltb_spec a b), (Nat.ltb_spec b a); try lia; ring. Qed.
  Lemma sgn_exch i : forall s, S i < length s -> sgn (exch i s) = - sgn s.
  Proof.
    induction i as [|i IH]; intros s Hs.
    - destruct s as [|a [|b t]]; cbn [length] in Hs; try lia. cbn [exch]. rewrite !sgn_cons. cbn [map]. rewrite !rp_cons.
      rewrite (sg_anti a b). ring.
    - destruct s as [|a t]; cbn [length] in Hs; [lia|]. cbn [exch]. rewrite !sgn_cons, IH by lia.
      rewrite (rp_perm _ (map (sg a) t)) by apply Permutation_map, exch_perm. ring.
  Qed.

  Definition tm (rows : list (nat -> R)) (s : list nat) : R := rp (map2 (fun r a => r a) rows s).
  Definition dd (n : nat) (rows : list (nat -> R)) : R := ss n (length rows) (fun s => sgn s * tm rows s).
  Lemma tm_cons r rows a s : tm (r :: rows) (a :: s) = r a * tm rows s.
  Proof. reflexivity. Qed.
  Lemma tm_exch i : forall rows s, length s = length rows -> tm (exch i rows) (exch i s) = tm rows s.
  Proof.
    induction i as [|i IH]; intros rows s H.
    - destruct rows as [|r [|r' rows]], s as [|a [|a' s]]; cbn [length] in H; try lia; try reflexivity.
      cbn [exch]. rewrite !tm_cons. ring.
    - destruct rows as [|r rows], s as [|a s]; cbn [length] in H; try lia; try reflexivity.
      cbn [exch]. rewrite !tm_cons, IH by lia. ring.
  Qed.
  Lemma dd_exch n i rows : S i < length rows -> dd n (exch i rows) = - dd n rows.
  Proof.
    intro Hi. unfold dd. rewrite exch_length, (ss_exch n (length rows) i) by auto.
    transitivity ((- rI) * ss n (length rows) (fun s => sgn s * tm rows s)); [|ring].
    rewrite <- ss_scale. apply ss_ext. intros s Hs _.
    rewrite sgn_exch, tm_exch by (rewrite ?Hs; auto). ring.
  Qed.
  Lemma perm_sgn l l' : Permutation l l' -> forall p, exists e, (e = rI \/ e = - rI)
    /\ sgn (p ++ l') = e * sgn (p ++ l)
    /\ forall n (B : nat -> nat -> R), dd n (map B (p ++ l')) = e * dd n (map B (p ++ l)).
  Proof.
    induction 1 as [|x l l' _ IH|x y l|l l' l'' _ IH1 _ IH2]; intro p.
    - exists rI. split; [auto|]. split; intros; ring.
    - destruct (IH (p ++ [x])) as (e & He & Hs & Hd). rewrite <- !app_assoc in Hs. exists e. split; [auto|]. split; [exact Hs|].
      intros n B. specialize (Hd n B). rewrite <- !app_assoc in Hd. exact Hd.
    - exists (- rI). split; [auto|]. assert (L : S (length p) < length (p ++ y :: x :: l)) by (rewrite app_length; cbn; lia).
      split.
      + rewrite <- (exch_app p y x l), sgn_exch by auto. ring.
      + intros n B. rewrite !map_app. cbn [map].
        assert (E : map B p ++ B x :: B y :: map B l = exch (length p) (map B p ++ B y :: B x :: map B l))
          by (rewrite <- (map_length B p); now rewrite exch_app).
        rewrite E, dd_exch. ring. rewrite app_length, map_length. cbn. lia.
    - destruct (IH1 p) as (e1 & H1 & Hs1 & Hd1), (IH2 p) as (e2 & H2 & Hs2 & Hd2). exists (e2 * e1). split; [|split].
      + destruct H1 as [-> | ->], H2 as [-> | ->]; [left|right|right|left]; ring.
      + rewrite Hs2, Hs1. ring.
      + intros. rewrite Hd2, Hd1. ring.
  Qed.
  Lemma sgn_seq a n : sgn (seq a n) = rI.
  Proof.
    revert a. induction n as [|n IH]; intro a; [reflexivity|]. cbn [seq]. rewrite sgn_cons, IH.
    rewrite (map_ext_in _ (fun _ => rI)).
    - induction (seq (S a) n) as [|b l IHl]; [cbn; ring|]. cbn [map]. rewrite rp_cons. etransitivity; [|exact IHl]. ring.
    - intros b Hb. apply in_seq in Hb. unfold sg. destruct (Nat.ltb_spec a b); [reflexivity|lia].
  Qed.
  Lemma dd_select n (B : nat -> nat -> R) t : length t = n -> (forall a, In a t -> a < n) ->
    dd n (map B t) = sgn t * dd n (map B (seq 0 n)).
  Proof.
    intros Ht Hb. destruct (ListDec.NoDup_dec Nat.eq_dec t) as [N|N].
    - assert (P : Permutation (seq 0 n) t).
      { apply NoDup_Permutation_bis; [apply seq_NoDup|rewrite seq_length; lia|].
        intros a Ha. apply in_seq in Ha.
        assert (I : incl t (seq 0 n)) by (intros b Hb'; apply in_seq; specialize (Hb b Hb'); lia).
        apply (NoDup_length_incl N) in I; [|rewrite seq_length; lia]. apply I, in_seq. lia. }
      destruct (perm_sgn _ _ P []) as (e & He & Hs & Hd). cbn [app] in *. rewrite Hd, Hs, sgn_seq. ring.
    - destruct (dup_perm t N) as (a & r & P).
      destruct (perm_sgn _ _ P []) as (e & He & Hs & Hd). cbn [app] in *.
      assert (Z1 : sgn (a :: a :: r) = rO).
      { rewrite sgn_cons. cbn [map]. rewrite rp_cons. assert (S0 : sg a a = rO) by (unfold sg; now rewrite Nat.ltb_irrefl). rewrite S0. ring. }
      assert (Z2 : dd n (map B (a :: a :: r)) = rO).
      { pose proof (dd_exch n 0 (map B (a :: a :: r))) as H. cbn [map exch] in H. cbn [map]. apply two. rewrite H at 1 by (cbn; lia). ring. }
      assert (EE : e * e = rI) by (destruct He as [-> | ->]; ring).
      assert (Y1 : sgn t = rO) by (transitivity (e * (e * sgn t)); [rewrite (Rmul_assoc Rth), EE; ring|rewrite <- Hs, Z1; ring]).
      assert (Y2 : dd n (map B t) = rO) by (transitivity (e * (e * dd n (map B t))); [rewrite (Rmul_assoc Rth), EE; ring|rewrite <- Hd, Z2; ring]).
      rewrite Y1, Y2. ring.
  Qed.
  Lemma tm_sum n (B : nat -> nat -> R) : forall rows s, length s = length rows ->
    tm (map (fun r j => rn n (fun k => r k * B k j)) rows) s
    = ss n (length rows) (fun t => tm rows t * tm (map B t) s).
  Proof.
    induction rows as [|r rows IH]; intros [|a s] H; cbn [length] in *; try lia; [rewrite ss_0; cbn; ring|].
    cbn [map]. rewrite tm_cons, IH by lia. rewrite ss_S, (Rmul_comm Rth), <- rn_scale. apply rn_ext. intros k _.
    rewrite (Rmul_comm Rth), <- ss_scale. apply ss_ext. intros t _ _. cbn [map]. rewrite !tm_cons. ring.
  Qed.
  Theorem dd_mul n (A : list (nat -> R)) (B : nat -> nat -> R) : length A = n ->
    dd n (map (fun r j => rn n (fun k => r k * B k j)) A) = dd n A * dd n (map B (seq 0 n)).
  Proof.
    intro HA. unfold dd at 1. rewrite map_length, HA.
    rewrite (ss_ext n n _ (fun s => ss n n (fun t => tm A t * (sgn s * tm (map B t) s)))).
    2:{ intros s Hs _. rewrite tm_sum by lia. rewrite HA, <- ss_scale. apply ss_ext. intros. ring. }
    rewrite ss_swap. unfold dd at 1. rewrite HA, (Rmul_comm Rth), <- ss_scale. apply ss_ext. intros t Ht Hb.
    rewrite ss_scale.
    assert (E : ss n n (fun s => sgn s * tm (map B t) s) = dd n (map B t)) by (unfold dd; now rewrite map_length, Ht).
    rewrite E, dd_select by auto. ring.
  Qed.

  (** ** for matrices given as functions *)
  Definition rdet (n : nat) (A : nat -> nat -> R) : R := dd n (map A (seq 0 n)).
  Lemma rdet_mul n A B : rdet n (fun i j => rn n (fun k => A i k * B k j)) = rdet n A * rdet n B.
  Proof. unfold rdet. rewrite <- dd_mul by (now rewrite map_length, seq_length). now rewrite map_map. Qed.
  Lemma tm_fun A n a s : length s = n -> tm (map A (seq a n)) s = rp (map (fun i => A (a + i)%nat (nth i s 0)) (seq 0 n)).
  Proof.
    revert a s. induction n as [|n IH]; intros a [|b s] H; cbn [length] in H; try lia; [reflexivity|].
    cbn [seq map]. rewrite tm_cons, rp_cons, IH by lia. cbn [nth]. rewrite Nat.add_0_r. f_equal.
    rewrite <- seq_shift, map_map. f_equal. apply map_ext. intro i. rewrite Nat.add_succ_r. reflexivity.
  Qed.
  Lemma rdet_ext n A B : (forall i j, i < n -> j < n -> A i j = B i j) -> rdet n A = rdet n B.
  Proof.
    intro H. unfold rdet, dd. rewrite !map_length, seq_length. apply ss_ext. intros s Hs Hb.
    rewrite !tm_fun by auto. do 2 f_equal. apply map_ext_in. intros i Hi. apply in_seq in Hi. apply H; [lia|].
    apply Hb, nth_In. lia.
  Qed.
  Lemma rp_zero l : In rO l -> rp l = rO.
  Proof. induction l as [|a l IH]; intros []; rewrite rp_cons; [subst; ring|rewrite IH by auto; ring]. Qed.
  Lemma rdet_diag n d : rdet n (fun i j => if i =? j then d i else rO) = rp (map d (seq 0 n)).
  Proof.
    unfold rdet, dd. rewrite map_length, seq_length.
    rewrite (ss_single n n _ (seq 0 n)).
    - rewrite sgn_seq, tm_fun by apply seq_length. rewrite (Rmul_1_l Rth). f_equal. apply map_ext_in. intros i Hi. apply in_seq in Hi.
      rewrite seq_nth by lia. cbn [Nat.add]. now rewrite Nat.eqb_refl.
    - apply seq_length.
    - intros a Ha. apply in_seq in Ha. lia.
    - intros s Hs Hn. rewrite tm_fun by auto.
      assert (E : exists i, i < n /\ nth i s 0 <> i).
      { clear - Hs Hn. assert (D : (exists i, i < n /\ nth i s 0 <> i) \/ forall i, i < n -> nth i s 0 = i).
        { clear. induction n as [|n [(i & Hi & H)|H]]; [right; lia| |].
          - left. exists i. split; [lia|auto].
          - destruct (Nat.eq_dec (nth n s 0) n) as [E|E]; [right|left; exists n; auto].
            intros i Hi. destruct (Nat.eq_dec i n) as [->|]; [auto|apply H; lia]. }
        destruct D as [D|D]; [auto|]. exfalso. apply Hn. apply (nth_ext _ _ 0 0); [now rewrite seq_length|].
        intros i Hi. rewrite seq_nth by lia. rewrite D by lia. reflexivity. }
      destruct E as (i & Hi & E). rewrite rp_zero; [ring|].
      apply in_map_iff. exists i. split; [|apply in_seq; lia]. cbn [Nat.add]. destruct (Nat.eqb_spec i (nth i s 0)); [lia|auto].
  Qed.

  (** ** integer matrices *)
  Variable phi : Z -> R.
  Hypothesis phi0 : phi 0%Z = rO.
  Hypothesis phi1 : phi 1%Z = rI.
  Hypothesis phi_add : forall a b, phi (a + b)%Z = phi a + phi b.
  Hypothesis phi_mul : forall a b, phi (a * b)%Z = phi a * phi b.
  Lemma phi_opp a : phi (Z.opp a) = - phi a.
  Proof.
    assert (H : phi a + phi (Z.opp a) = rO) by (rewrite <- phi_add, Z.add_opp_diag_r; exact phi0).
    transitivity ((- phi a) + (phi a + phi (Z.opp a))); [ring|]. rewrite H. ring.
  Qed.
  Lemma phi_sum l : phi (zsum l) = rs (map phi l).
  Proof. induction l as [|a l IH]; [exact phi0|]. cbn [map]. now rewrite zsum_cons, rs_cons, phi_add, IH. Qed.
  Lemma phi_prod l : phi (zprod l) = rp (map phi l).
  Proof. induction l as [|a l IH]; [exact phi1|]. cbn [map]. now rewrite zprod_cons, rp_cons, phi_mul, IH. Qed.
  Lemma phi_sign s : phi (sign s) = sgn s.
  Proof.
    induction s as [|a t IH]; [exact phi1|]. rewrite sign_cons, sgn_cons, phi_mul, IH, phi_prod, map_map. f_equal. f_equal.
    apply map_ext. intros b. unfold sg. destruct (Nat.ltb_spec a b); [rewrite Z.sgn_pos by lia; exact phi1|].
    destruct (Nat.ltb_spec b a).
    - rewrite Z.sgn_neg by lia. change (-1)%Z with (Z.opp 1). now rewrite phi_opp, phi1.
    - replace a with b by lia. rewrite Z.sub_diag. exact phi0.
  Qed.
  Lemma phi_det n M : phi (det n M) = rdet n (fun i j => phi (cell M i j)).
  Proof.
    unfold det, rdet, dd. rewrite phi_sum, !map_map, map_length, seq_length. unfold ss. f_equal. apply map_ext_in. intros s Hs.
    assert (L : length s = n).
    { clear - Hs. revert s Hs. assert (G : forall m s, In s (sequences n m) -> length s = m).
      { induction m as [|m IH]; intros s; cbn [sequences]; [intros [<-|[]]; reflexivity|]. intros H. apply in_flat_map in H. destruct H as (a & _ & H).
        apply in_map_iff in H. destruct H as (t & <- & Ht). cbn. f_equal. now apply IH. }
      apply G. }
    rewrite tm_fun by auto. rewrite phi_mul, phi_sign, phi_prod, map_map. reflexivity.
  Qed.
End Ring.
