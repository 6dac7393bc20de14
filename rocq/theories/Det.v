(** The determinant is multiplicative; determinant of a diagonal matrix. *)
From Coq Require Import Sorting.Permutation.
From Verif Require Import Np Spec AlgSpec Lib Graph.

Definition ssum (n m : nat) (f : list nat -> Z) : Z := zsum (map f (sequences n m)).
Lemma ssum_0 n f : ssum n 0 f = f [].
Proof. unfold ssum, zsum. cbn. lia. Qed.
Lemma zsum_flat_map {A B} (g : A -> list B) (f : B -> Z) l :
  zsum (map f (flat_map g l)) = zsum (map (fun a => zsum (map f (g a))) l).
Proof. induction l as [|a l IH]; [reflexivity|]. cbn [flat_map map]. rewrite map_app, zsum_app, zsum_cons, IH. reflexivity. Qed.
Lemma ssum_S n m f : ssum n (S m) f = sumn n (fun a => ssum n m (fun t => f (a :: t))).
Proof.
  unfold ssum, sumn. cbn [sequences]. rewrite zsum_flat_map. f_equal. apply map_ext. intro a. now rewrite map_map.
Qed.
Lemma ssum_ext n m : forall f g,
  (forall s, length s = m -> (forall a, In a s -> (a < n)%nat) -> f s = g s) -> ssum n m f = ssum n m g.
Proof.
  induction m as [|m IH]; intros f g H.
  - rewrite !ssum_0. apply H; [auto|intros a []].
  - rewrite !ssum_S. apply sumn_ext. intros a Ha. apply IH. intros s Hs Hb. apply H; [cbn; lia|].
    intros b [<-|Hb']; auto.
Qed.
Lemma ssum_scale n m c f : ssum n m (fun s => c * f s) = c * ssum n m f.
Proof. unfold ssum. induction (sequences n m); cbn [map]; [unfold zsum; cbn; lia|]. rewrite !zsum_cons, IHl. lia. Qed.
Lemma ssum_plus n m f g : ssum n m (fun s => f s + g s) = ssum n m f + ssum n m g.
Proof. unfold ssum. induction (sequences n m); cbn [map]; [unfold zsum; cbn; lia|]. rewrite !zsum_cons, IHl. lia. Qed.
Lemma ssum_swap n m f p q : ssum n m (fun s => ssum p q (fun t => f s t)) = ssum p q (fun t => ssum n m (fun s => f s t)).
Proof. unfold ssum. apply zsum_swap. Qed.
Lemma ssum_zero n m f :
  (forall s, length s = m -> (forall a, In a s -> (a < n)%nat) -> f s = 0) -> ssum n m f = 0.
Proof.
  intro H. rewrite (ssum_ext n m f (fun s => 0 * 0)) by (intros; rewrite H; auto). rewrite ssum_scale. lia.
Qed.
Lemma ssum_single n m : forall f t, length t = m -> (forall a, In a t -> (a < n)%nat) ->
  (forall s, length s = m -> s <> t -> f s = 0) -> ssum n m f = f t.
Proof.
  induction m as [|m IH]; intros f t Ht Hb H.
  - destruct t; [|discriminate]. apply ssum_0.
  - destruct t as [|a t]; [discriminate|]. rewrite ssum_S.
    rewrite (sumn_ext n _ (fun b => if (b =? a)%nat then ssum n m (fun s => f (b :: s)) else 0)).
    + rewrite (sumn_delta n a (fun b => ssum n m (fun s => f (b :: s)))) by (apply Hb; now left).
      apply (IH (fun s => f (a :: s)) t).
      * cbn in Ht. lia.
      * intros b Hb'. apply Hb. now right.
      * intros s Hs Hn. apply H; [cbn; lia|congruence].
    + intros b _. destruct (Nat.eqb_spec b a) as [->|Hn]; [reflexivity|]. apply ssum_zero. intros s Hs _. apply H; [cbn; lia|congruence].
Qed.

(** ** exchanging neighbours *)
Fixpoint exch {A} (i : nat) (s : list A) : list A :=
  match i, s with
  | O, a :: b :: t => b :: a :: t
  | S i', a :: t => a :: exch i' t
  | _, _ => s
  end.
Lemma exch_length {A} i : forall s : list A, length (exch i s) = length s.
Proof. induction i; intros [|a [|b t]]; cbn; auto. rewrite (IHi []). auto. now rewrite (IHi (b :: t)). Qed.
Lemma exch_perm {A} i : forall s : list A, Permutation (exch i s) s.
Proof. induction i; intros [|a [|b t]]; cbn; auto; try constructor; auto. Qed.
Lemma exch_app {A} (p : list A) a b t : exch (length p) (p ++ a :: b :: t) = p ++ b :: a :: t.
Proof. induction p; cbn; [auto|]. now rewrite IHp. Qed.
Lemma ssum_exch n m : forall i f, (S i < m)%nat -> ssum n m f = ssum n m (fun s => f (exch i s)).
Proof.
  induction m as [|m IH]; intros i f H; [lia|]. destruct i as [|i].
  - destruct m as [|m]; [lia|]. rewrite !ssum_S.
    rewrite (sumn_ext n _ (fun a => sumn n (fun b => ssum n m (fun t => f (a :: b :: t))))) by (intros; apply ssum_S).
    rewrite sumn_swap. apply sumn_ext. intros b _. rewrite ssum_S. reflexivity.
  - rewrite !ssum_S. apply sumn_ext. intros a _. rewrite (IH i (fun t => f (a :: t))) by lia. reflexivity.
Qed.

Lemma zprod_cons a l : zprod (a :: l) = a * zprod l.
Proof. reflexivity. Qed.
Lemma zprod_perm l l' : Permutation l l' -> zprod l = zprod l'.
Proof. induction 1; auto; rewrite ?zprod_cons in *; lia. Qed.
Lemma sign_cons a t : sign (a :: t) = zprod (map (fun b => Z.sgn (Z.of_nat b - Z.of_nat a)) t) * sign t.
Proof. reflexivity. Qed.
Lemma sign_exch i : forall s, (S i < length s)%nat -> sign (exch i s) = - sign s.
Proof.
  induction i as [|i IH]; intros s Hs.
  - destruct s as [|a [|b t]]; cbn [length] in Hs; try lia. cbn [exch]. rewrite !sign_cons. cbn [map]. rewrite !zprod_cons.
    replace (Z.sgn (Z.of_nat a - Z.of_nat b)) with (- Z.sgn (Z.of_nat b - Z.of_nat a)) by lia. ring.
  - destruct s as [|a t]; cbn [length] in Hs; [lia|]. cbn [exch]. rewrite !sign_cons, IH by lia.
    rewrite (zprod_perm _ (map (fun b => Z.sgn (Z.of_nat b - Z.of_nat a)) t)) by apply Permutation_map, exch_perm. ring.
Qed.

(** ** the determinant of a list of rows *)
Definition term (rows : list (nat -> Z)) (s : list nat) : Z := zprod (map2 (fun r a => r a) rows s).
Definition ddet (n : nat) (rows : list (nat -> Z)) : Z := ssum n (length rows) (fun s => sign s * term rows s).
Lemma term_cons r rows a s : term (r :: rows) (a :: s) = r a * term rows s.
Proof. reflexivity. Qed.
Lemma term_exch i : forall rows s, length s = length rows -> term (exch i rows) (exch i s) = term rows s.
Proof.
  induction i as [|i IH]; intros rows s H.
  - destruct rows as [|r [|r' rows]], s as [|a [|a' s]]; cbn [length] in H; try lia; try reflexivity.
    cbn [exch]. rewrite !term_cons. ring.
  - destruct rows as [|r rows], s as [|a s]; cbn [length] in H; try lia; try reflexivity.
    cbn [exch]. rewrite !term_cons, IH by lia. ring.
Qed.
Lemma ddet_exch n i rows : (S i < length rows)%nat -> ddet n (exch i rows) = - ddet n rows.
Proof.
  intro Hi. unfold ddet. rewrite exch_length, (ssum_exch n (length rows) i) by auto.
  replace (- ssum n (length rows) (fun s => sign s * term rows s)) with (-1 * ssum n (length rows) (fun s => sign s * term rows s)) by ring.
  rewrite <- ssum_scale. apply ssum_ext. intros s Hs _.
  rewrite sign_exch, term_exch by (rewrite ?Hs; auto). ring.
Qed.

(** both change in the same way under a permutation of the rows *)
Lemma perm_sign l l' : Permutation l l' -> forall p, exists e, (e = 1 \/ e = -1)
  /\ sign (p ++ l') = e * sign (p ++ l)
  /\ forall n (B : nat -> nat -> Z), ddet n (map B (p ++ l')) = e * ddet n (map B (p ++ l)).
Proof.
  induction 1 as [|x l l' _ IH|x y l|l l' l'' _ IH1 _ IH2]; intro p.
  - exists 1. split; [auto|]. split; intros; ring.
  - destruct (IH (p ++ [x])) as (e & He & Hs & Hd). rewrite <- !app_assoc in Hs. exists e. split; [auto|]. split; [exact Hs|].
    intros n B. specialize (Hd n B). rewrite <- !app_assoc in Hd. exact Hd.
  - exists (-1). split; [auto|]. assert (L : (S (length p) < length (p ++ y :: x :: l))%nat) by (rewrite app_length; cbn; lia).
    split.
    + rewrite <- (exch_app p y x l), sign_exch by auto. ring.
    + intros n B. rewrite !map_app. cbn [map].
      assert (E : map B p ++ B x :: B y :: map B l = exch (length p) (map B p ++ B y :: B x :: map B l))
        by (rewrite <- (map_length B p); now rewrite exch_app).
      rewrite E, ddet_exch. ring. rewrite app_length, map_length. cbn. lia.
  - destruct (IH1 p) as (e1 & H1 & Hs1 & Hd1), (IH2 p) as (e2 & H2 & Hs2 & Hd2). exists (e2 * e1). split; [lia|]. split.
    + rewrite Hs2, Hs1. ring.
    + intros. rewrite Hd2, Hd1. ring.
Qed.

Lemma sign_seq a n : sign (seq a n) = 1.
Proof.
  revert a. induction n as [|n IH]; intro a; [reflexivity|]. cbn [seq]. rewrite sign_cons, IH.
  rewrite (map_ext_in _ (fun _ => 1)).
  - induction (seq (S a) n) as [|b l IHl]; [reflexivity|]. cbn [map]. rewrite zprod_cons. lia.
  - intros b Hb. apply in_seq in Hb. lia.
Qed.
Lemma dup_perm (t : list nat) : ~ NoDup t -> exists a r, Permutation t (a :: a :: r).
Proof.
  induction t as [|a t IH]; intro H; [destruct H; constructor|].
  destruct (in_dec Nat.eq_dec a t) as [Ha|Ha].
  - apply in_split in Ha. destruct Ha as (p & q & ->). exists a, (p ++ q). constructor. symmetry. apply Permutation_middle.
  - destruct IH as (b & r & Hp).
    + intro N. apply H. now constructor.
    + exists b, (a :: r). etransitivity; [apply perm_skip, Hp|]. etransitivity; [apply perm_swap|]. apply perm_skip, perm_swap.
Qed.
Lemma ddet_select n (B : nat -> nat -> Z) t : length t = n -> (forall a, In a t -> (a < n)%nat) ->
  ddet n (map B t) = sign t * ddet n (map B (seq 0 n)).
Proof.
  intros Ht Hb. destruct (ListDec.NoDup_dec Nat.eq_dec t) as [N|N].
  - assert (P : Permutation (seq 0 n) t).
    { apply NoDup_Permutation_bis; [apply seq_NoDup|rewrite seq_length; lia|].
      intros a Ha. apply in_seq in Ha.
      assert (I : incl t (seq 0 n)) by (intros b Hb'; apply in_seq; specialize (Hb b Hb'); lia).
      apply (NoDup_length_incl N) in I; [|rewrite seq_length; lia]. apply I, in_seq. lia. }
    destruct (perm_sign _ _ P []) as (e & He & Hs & Hd). cbn [app] in *. rewrite Hd, Hs, sign_seq. ring.
  - destruct (dup_perm t N) as (a & r & P).
    destruct (perm_sign _ _ P []) as (e & He & Hs & Hd). cbn [app] in *.
    assert (Z1 : sign (a :: a :: r) = 0).
    { rewrite sign_cons. cbn [map]. rewrite zprod_cons, Z.sub_diag. cbn. ring. }
    assert (Z2 : ddet n (map B (a :: a :: r)) = 0).
    { pose proof (ddet_exch n 0 (map B (a :: a :: r))) as H. cbn [map exch] in H. cbn [map]. rewrite H at 1 by (cbn; lia).
      enough (ddet n (B a :: B a :: map B r) = - ddet n (B a :: B a :: map B r)) by lia. apply H. cbn. lia. }
    rewrite Hs in Z1. rewrite Hd in Z2. nia.
Qed.

(** ** multiplicativity *)
Lemma expand n : forall rows : list (nat -> Z), zprod (map (fun r => sumn n r) rows) = ssum n (length rows) (term rows).
Proof.
  induction rows as [|r rows IH]; [rewrite ssum_0; reflexivity|]. cbn [map length]. rewrite zprod_cons, IH, ssum_S.
  rewrite Z.mul_comm, <- sumn_scale. apply sumn_ext. intros a _.
  rewrite Z.mul_comm, <- ssum_scale. apply ssum_ext. intros. now rewrite term_cons.
Qed.
Lemma term_sum n (B : nat -> nat -> Z) : forall rows s, length s = length rows ->
  term (map (fun r j => sumn n (fun k => r k * B k j)) rows) s
  = ssum n (length rows) (fun t => term rows t * term (map B t) s).
Proof.
  induction rows as [|r rows IH]; intros [|a s] H; cbn [length] in *; try lia; [rewrite ssum_0; reflexivity|].
  cbn [map]. rewrite term_cons, IH by lia. rewrite ssum_S, Z.mul_comm, <- sumn_scale. apply sumn_ext. intros k _.
  rewrite Z.mul_comm, <- ssum_scale. apply ssum_ext. intros t _ _. cbn [map]. rewrite !term_cons. ring.
Qed.
Theorem ddet_mul n (A : list (nat -> Z)) (B : nat -> nat -> Z) : length A = n ->
  ddet n (map (fun r j => sumn n (fun k => r k * B k j)) A) = ddet n A * ddet n (map B (seq 0 n)).
Proof.
  intro HA. unfold ddet at 1. rewrite map_length, HA.
  rewrite (ssum_ext n n _ (fun s => ssum n n (fun t => term A t * (sign s * term (map B t) s)))).
  2:{ intros s Hs _. rewrite term_sum by lia. rewrite HA, <- ssum_scale. apply ssum_ext. intros. ring. }
  rewrite ssum_swap. unfold ddet at 1. rewrite HA, Z.mul_comm, <- ssum_scale. apply ssum_ext. intros t Ht Hb.
  rewrite ssum_scale.
  assert (E : ssum n n (fun s => sign s * term (map B t) s) = ddet n (map B t)) by (unfold ddet; now rewrite map_length, Ht).
  rewrite E, ddet_select by auto. ring.
Qed.

(** ** for matrices given as functions *)
Definition fdet (n : nat) (A : nat -> nat -> Z) : Z := ddet n (map A (seq 0 n)).
Lemma fdet_mul n A B : fdet n (fun i j => sumn n (fun k => A i k * B k j)) = fdet n A * fdet n B.
Proof.
  unfold fdet. rewrite <- ddet_mul by (now rewrite map_length, seq_length). now rewrite map_map.
Qed.
Lemma term_fun A n a s : length s = n -> term (map A (seq a n)) s = zprod (map (fun i => A (a + i)%nat (nth i s 0%nat)) (seq 0 n)).
Proof.
  revert a s. induction n as [|n IH]; intros a [|b s] H; cbn [length] in H; try lia; [reflexivity|].
  cbn [seq map]. rewrite term_cons, zprod_cons, IH by lia. cbn [nth]. rewrite Nat.add_0_r. f_equal.
  rewrite <- seq_shift, map_map. f_equal. apply map_ext. intro i. rewrite Nat.add_succ_r. reflexivity.
Qed.
Lemma fdet_ext n A B : (forall i j, (i < n)%nat -> (j < n)%nat -> A i j = B i j) -> fdet n A = fdet n B.
Proof.
  intro H. unfold fdet, ddet. rewrite !map_length, seq_length. apply ssum_ext. intros s Hs Hb.
  rewrite !term_fun by auto. do 2 f_equal. apply map_ext_in. intros i Hi. apply in_seq in Hi. apply H; [lia|].
  apply Hb, nth_In. lia.
Qed.
Lemma det_fdet n M : det n M = fdet n (cell M).
Proof.
  unfold det, fdet, ddet. rewrite map_length, seq_length. apply ssum_ext. intros s Hs _. now rewrite term_fun.
Qed.
Lemma zprod_zero l : In 0 l -> zprod l = 0.
Proof. induction l as [|a l IH]; intros []; rewrite zprod_cons; [subst; lia|rewrite IH by auto; lia]. Qed.
Lemma fdet_diag n d : fdet n (fun i j => if (i =? j)%nat then d i else 0) = zprod (map d (seq 0 n)).
Proof.
  unfold fdet, ddet. rewrite map_length, seq_length.
  rewrite (ssum_single n n _ (seq 0 n)).
  - rewrite sign_seq, term_fun, Z.mul_1_l by apply seq_length. f_equal. apply map_ext_in. intros i Hi. apply in_seq in Hi.
    rewrite seq_nth by lia. cbn [plus]. now rewrite Nat.eqb_refl.
  - apply seq_length.
  - intros a Ha. apply in_seq in Ha. lia.
  - intros s Hs Hn. rewrite term_fun by auto.
    assert (E : exists i, (i < n)%nat /\ nth i s 0%nat <> i).
    { clear - Hs Hn. assert (D : (exists i, (i < n)%nat /\ nth i s 0%nat <> i) \/ forall i, (i < n)%nat -> nth i s 0%nat = i).
      { clear. induction n as [|n [(i & Hi & H)|H]]; [right; lia| |].
        - left. exists i. split; [lia|auto].
        - destruct (Nat.eq_dec (nth n s 0%nat) n) as [E|E]; [right|left; exists n; auto].
          intros i Hi. destruct (Nat.eq_dec i n) as [->|]; [auto|apply H; lia]. }
      destruct D as [D|D]; [auto|]. exfalso. apply Hn. apply (nth_ext _ _ 0%nat 0%nat); [now rewrite seq_length|].
      intros i Hi. rewrite seq_nth by lia. rewrite D by lia. reflexivity. }
    destruct E as (i & Hi & E). rewrite zprod_zero, Z.mul_0_r; [reflexivity|].
    apply in_map_iff. exists i. split; [|apply in_seq; lia]. cbn [plus]. destruct (Nat.eqb_spec i (nth i s 0%nat)); [lia|auto].
Qed.
Lemma zprod_nonzero l : (forall x, In x l -> x <> 0) -> zprod l <> 0.
Proof.
  induction l as [|a l IH]; intro H; [discriminate|]. rewrite zprod_cons. intro E. apply Z.mul_eq_0 in E.
  destruct E as [E|E]; [apply (H a); [now left|auto]|]. apply IH; [|auto]. intros x Hx. apply H. now right.
Qed.
