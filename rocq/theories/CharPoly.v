(** The characteristic polynomial of a strongly regular graph, over any ring
    in which the two other eigenvalues exist. *)
From Coq Require Import Ring Znumtheory.
From Verif Require Import Np Model ModelSort ModelUtil Spec AlgSpec Lib Graph SolverProps UtilProps LinAlg Det DetRing Spectrum.

Section Eigen.
  Variables (R : Type) (rO rI : R) (radd rmul rsub : R -> R -> R) (ropp : R -> R).
  Hypothesis Rth : ring_theory rO rI radd rmul rsub ropp eq.
  Hypothesis dom : forall a b, rmul a b = rO -> a = rO \/ b = rO.
  Hypothesis dec : forall a b : R, {a = b} + {a <> b}.
  Hypothesis two : forall a, radd a a = rO -> a = rO.
  Add Ring Rring3 : Rth.
  Local Notation "a [+] b" := (radd a b) (at level 50, left associativity).
  Local Notation "a [-] b" := (rsub a b) (at level 50, left associativity).
  Local Notation "a [*] b" := (rmul a b) (at level 40, left associativity).
  Local Notation "[-] a" := (ropp a) (at level 35).
  Variable phi : Z -> R.
  Hypothesis phi0 : phi 0 = rO.
  Hypothesis phi1 : phi 1 = rI.
  Hypothesis phi_add : forall a b, phi (a + b) = phi a [+] phi b.
  Hypothesis phi_mul : forall a b, phi (a * b) = phi a [*] phi b.
  Hypothesis phi_inj : forall a b, phi a = phi b -> a = b.
  Local Notation Sm := (sm R rO radd).
  Let phi_opp' := phi_opp R rO rI radd rmul rsub ropp Rth phi phi0 phi_add.
  Lemma phi_sub a b : phi (a - b) = phi a [-] phi b.
  Proof. unfold Z.sub. rewrite phi_add, phi_opp'. ring. Qed.
  Lemma phi_sumn n f : phi (sumn n f) = Sm n (fun i => phi (f i)).
  Proof. induction n; [rewrite sumn_0; exact phi0|]. rewrite sumn_S, phi_add, IHn. reflexivity. Qed.
  Lemma sm_const n c : Sm n (fun _ => c) = phi (Z.of_nat n) [*] c.
  Proof.
    induction n; [cbn; rewrite phi0; ring|]. cbn [sm]. rewrite IHn, Nat2Z.inj_succ. unfold Z.succ. rewrite phi_add, phi1. ring.
  Qed.

  Variables (v : nat) (k l u : Z) (G : list (list Z)).
  Hypothesis HG : srg v k l u G.
  Hypothesis Hk : 1 <= k < Z.of_nat v - 1.
  Variables (r s : R).
  Hypothesis Hsum : r [+] s = phi (l - u).
  Hypothesis Hprod : r [*] s = phi (u - k).
  Hypothesis Hrs : r <> s.
  Let V := phi (Z.of_nat v).
  Let K := phi k.
  Let U := phi u.
  Let A (i j : nat) : R := phi (cell G i j).
  Let dl (i j : nat) : R := if (i =? j)%nat then rI else rO.
  Definition co (a b c : R) (i j : nat) : R := a [*] A i j [+] b [*] dl i j [+] c.

  Lemma cp_V : V <> rO.
  Proof. unfold V. rewrite <- phi0. intro H. apply phi_inj in H. lia. Qed.
  Lemma cp_rs : r [-] s <> rO.
  Proof. intro H. apply Hrs. transitivity ((r [-] s) [+] s); [ring|]. rewrite H. ring. Qed.
  Lemma cp_kk : U [*] V = (K [-] r) [*] (K [-] s).
  Proof.
    transitivity (K [*] K [-] (r [+] s) [*] K [+] r [*] s); [|ring]. rewrite Hsum, Hprod. unfold K, U, V.
    rewrite <- !phi_mul, <- phi_sub, <- phi_add. f_equal. pose proof (sp_count v k l u G HG Hk). lia.
  Qed.
  Lemma cp_AA i j : (i < v)%nat -> (j < v)%nat ->
    Sm v (fun w => A i w [*] A w j) = (r [+] s) [*] A i j [-] (r [*] s) [*] dl i j [+] U.
  Proof.
    intros Hi Hj. pose proof (sp_AA v k l u G HG i j Hi Hj) as H. apply (f_equal phi) in H. rewrite phi_sumn in H.
    rewrite !phi_add, !phi_mul in H. unfold A, U. rewrite Hsum, Hprod, phi_sub.
    etransitivity; [apply sm_ext; intros w _; rewrite <- phi_mul; reflexivity|]. rewrite H, !phi_sub.
    unfold dl. destruct (i =? j)%nat; rewrite ?phi1, ?phi0; ring.
  Qed.
  Lemma cp_deg i : (i < v)%nat -> Sm v (A i) = K.
  Proof. intros Hi. unfold K. rewrite <- (sp_deg v k l u G HG i Hi), phi_sumn. reflexivity. Qed.
  Lemma cp_deg' j : (j < v)%nat -> Sm v (fun i => A i j) = K.
  Proof. intros Hj. unfold K. rewrite <- (sp_deg' v k l u G HG j Hj), phi_sumn. reflexivity. Qed.
  Lemma dl_l i f : (i < v)%nat -> Sm v (fun w => dl i w [*] f w) = f i.
  Proof.
    intros Hi. etransitivity; [|apply (sm_one R rO rI radd rmul rsub ropp Rth v i (f i) Hi)].
    apply sm_ext. intros w _. unfold dl. rewrite Nat.eqb_sym. destruct (Nat.eqb_spec w i) as [->|]; ring.
  Qed.
  Lemma dl_r j f : (j < v)%nat -> Sm v (fun w => f w [*] dl w j) = f j.
  Proof.
    intros Hj. etransitivity; [|apply (sm_one R rO rI radd rmul rsub ropp Rth v j (f j) Hj)].
    apply sm_ext. intros w _. unfold dl. destruct (Nat.eqb_spec w j) as [->|]; ring.
  Qed.
  Lemma dl_1 j : (j < v)%nat -> Sm v (fun w => dl w j) = rI.
  Proof. intros Hj. rewrite <- (dl_r j (fun _ => rI) Hj). apply sm_ext. intros. ring. Qed.
  Lemma co_mul a b c a' b' c' i j : (i < v)%nat -> (j < v)%nat ->
    Sm v (fun w => co a b c i w [*] co a' b' c' w j)
    = a [*] a' [*] ((r [+] s) [*] A i j [-] (r [*] s) [*] dl i j [+] U) [+] (a [*] b' [+] b [*] a') [*] A i j [+] b [*] b' [*] dl i j
      [+] (a [*] c' [*] K [+] c [*] a' [*] K [+] b [*] c' [+] c [*] b' [+] c [*] c' [*] V).
  Proof.
    intros Hi Hj. unfold co.
    pose proof (sm_l R rO rI radd rmul rsub ropp Rth v) as SL.
    pose proof (sm_add R rO rI radd rmul rsub ropp Rth v) as SA.
    etransitivity.
    { apply sm_ext. intros w _. instantiate (1 := fun w => a [*] a' [*] (A i w [*] A w j) [+] a [*] b' [*] (A i w [*] dl w j) [+] a [*] c' [*] A i w
      [+] b [*] a' [*] (dl i w [*] A w j) [+] b [*] b' [*] (dl i w [*] dl w j) [+] b [*] c' [*] (dl i w [*] rI)
      [+] c [*] a' [*] A w j [+] c [*] b' [*] dl w j [+] c [*] c'). cbn beta. ring. }
    rewrite !SA, !SL, sm_const, cp_AA, (dl_r j (A i)), (dl_r j (dl i)), (dl_1 j), (dl_l i (fun w => A w j)), (dl_l i (fun _ => rI)), cp_deg, cp_deg' by auto.
    fold V. ring.
  Qed.
  Lemma co_trace a b c : Sm v (fun i => co a b c i i) = V [*] (b [+] c).
  Proof.
    etransitivity; [|apply sm_const]. apply sm_ext. intros i Hi. unfold co, A, dl. destruct HG as ((_ & _ & _ & Hz) & _).
    rewrite Hz by auto. rewrite Nat.eqb_refl, phi0. ring.
  Qed.

  Definition F0 := co rO rO rI.
  Definition F1 := co V ([-] (V [*] s)) ([-] (K [-] s)).
  Definition F2 := co V ([-] (V [*] r)) ([-] (K [-] r)).
  Ltac poly q := match goal with |- ?L = ?M => enough (X : L [-] M = rO);
    [transitivity ((L [-] M) [+] M); [ring|rewrite X; ring]|];
    transitivity (q [*] (U [*] V [-] (K [-] r) [*] (K [-] s))); [ring|rewrite cp_kk; ring] end.
  Let quasi' := quasi R rO radd rmul v.
  Let factor' := factor R rO radd rmul v.
  Lemma p0 : quasi' F0 V.
  Proof. intros i j Hi Hj. unfold F0. rewrite co_mul by auto. unfold co. ring. Qed.
  Lemma p1 : quasi' F1 (V [*] (r [-] s)).
  Proof. intros i j Hi Hj. unfold F1. rewrite co_mul by auto. unfold co. poly V. Qed.
  Lemma p2 : quasi' F2 (V [*] (s [-] r)).
  Proof. intros i j Hi Hj. unfold F2. rewrite co_mul by auto. unfold co. poly V. Qed.
  Definition orr (E F : nat -> nat -> R) : Prop := forall i j, (i < v)%nat -> (j < v)%nat -> Sm v (fun w => E i w [*] F w j) = rO.
  Lemma r01 : orr F0 F1.
  Proof. intros i j Hi Hj. unfold F0, F1. rewrite co_mul by auto. ring. Qed.
  Lemma r02 : orr F0 F2.
  Proof. intros i j Hi Hj. unfold F0, F2. rewrite co_mul by auto. ring. Qed.
  Lemma r10 : orr F1 F0.
  Proof. intros i j Hi Hj. unfold F0, F1. rewrite co_mul by auto. ring. Qed.
  Lemma r20 : orr F2 F0.
  Proof. intros i j Hi Hj. unfold F0, F2. rewrite co_mul by auto. ring. Qed.
  Lemma r12 : orr F1 F2.
  Proof. intros i j Hi Hj. unfold F1, F2. rewrite co_mul by auto. poly V. Qed.
  Lemma r21 : orr F2 F1.
  Proof. intros i j Hi Hj. unfold F1, F2. rewrite co_mul by auto. poly V. Qed.
  Lemma b0 : orr (co rI ([-] K) rO) F0.
  Proof. intros i j Hi Hj. unfold F0. rewrite co_mul by auto. ring. Qed.
  Lemma b1 : orr (co rI ([-] r) rO) F1.
  Proof. intros i j Hi Hj. unfold F1. rewrite co_mul by auto. poly rI. Qed.
  Lemma b2 : orr (co rI ([-] s) rO) F2.
  Proof. intros i j Hi Hj. unfold F2. rewrite co_mul by auto. poly rI. Qed.

  Lemma offr E c m W C d E' c' m' W' C' d' : factor' E c m W C d -> factor' E' c' m' W' C' d' -> orr E E' ->
    forall a b, (a < m)%nat -> (b < m')%nat -> Sm v (fun i => C a i [*] W' i b) = rO.
  Proof.
    intros F F' O a b Ha Hb. apply (f_right _ _ _ _ _ _ _ _ _ _ _ F (fun i => W' i b)); [|auto].
    intros i Hi. apply (f_left _ _ _ _ _ _ _ _ _ _ _ F' (E i)); [|auto]. intros j Hj. now apply O.
  Qed.
  Lemma eigenr x E c m W C d : factor' E c m W C d -> orr (co rI ([-] x) rO) E ->
    forall i a, (i < v)%nat -> (a < m)%nat -> Sm v (fun w => A i w [*] W w a) = x [*] W i a.
  Proof.
    intros F O i a Hi Ha. assert (H : Sm v (fun w => co rI ([-] x) rO i w [*] W w a) = rO).
    - apply (f_left _ _ _ _ _ _ _ _ _ _ _ F (co rI ([-] x) rO i)); [|auto]. intros j Hj. now apply O.
    - pose proof (sm_sub R rO rI radd rmul rsub ropp Rth v (fun w => A i w [*] W w a) (fun w => dl i w [*] (x [*] W w a))) as X.
      rewrite (dl_l i (fun w => x [*] W w a)) in X by auto.
      assert (Y : Sm v (fun w => co rI ([-] x) rO i w [*] W w a) = Sm v (fun w => A i w [*] W w a [-] dl i w [*] (x [*] W w a)))
        by (apply sm_ext; intros w _; unfold co; ring).
      rewrite <- Y, H in X. transitivity (Sm v (fun w => A i w [*] W w a) [-] x [*] W i a [+] x [*] W i a); [ring|]. rewrite <- X. ring.
  Qed.

  Definition xmat (x : Z) (i j : nat) : R := phi (if (i =? j)%nat then x - cell G i j else - cell G i j).
  Local Notation Rdet := (rdet R rO rI radd rmul ropp).
  Fixpoint rpow (x : R) (n : nat) : R := match n with O => rI | S n => x [*] rpow x n end.
  Lemma rp_nonzero l0 : rI <> rO -> (forall x, In x l0 -> x <> rO) -> rp R rI rmul l0 <> rO.
  Proof.
    intros H1. induction l0 as [|a l0 IH]; intros H; [exact H1|]. change (a [*] rp R rI rmul l0 <> rO). intro E.
    destruct (dom _ _ E) as [E'|E']; [apply (H a); [now left|auto]|apply IH; auto; intros; apply H; now right].
  Qed.
  Lemma rp_app l1 l2 : rp R rI rmul (l1 ++ l2) = rp R rI rmul l1 [*] rp R rI rmul l2.
  Proof.
    induction l1 as [|a l1 IH]; [change (rp R rI rmul l2 = rI [*] rp R rI rmul l2); ring|].
    change (a [*] rp R rI rmul (l1 ++ l2) = a [*] rp R rI rmul l1 [*] rp R rI rmul l2). rewrite IH. ring.
  Qed.
  Lemma rp_repeat x n : rp R rI rmul (repeat x n) = rpow x n.
  Proof. induction n; [reflexivity|]. cbn [repeat rpow]. rewrite <- IHn. reflexivity. Qed.

  Theorem cp_eigen : exists f g : nat, (1 + f + g = v)%nat
    /\ K [+] phi (Z.of_nat f) [*] r [+] phi (Z.of_nat g) [*] s = rO
    /\ forall x, Rdet v (xmat x) = (phi x [-] K) [*] (rpow (phi x [-] r) f [*] rpow (phi x [-] s) g).
  Proof.
    pose proof cp_V as VP. pose proof cp_rs as RS.
    assert (NZ : rI <> rO) by (rewrite <- phi0, <- phi1; intro H; apply phi_inj in H; lia).
    assert (SR : s [-] r <> rO) by (intro H; apply RS; transitivity ([-] (s [-] r)); [ring|rewrite H; ring]).
    assert (N1 : V [*] (r [-] s) <> rO) by (intro H; destruct (dom _ _ H); auto).
    assert (N2 : V [*] (s [-] r) <> rO) by (intro H; destruct (dom _ _ H); auto).
    pose proof (quasi_factor R rO rI radd rmul rsub ropp Rth dom dec v) as QF.
    pose proof (factor_trace R rO rI radd rmul rsub ropp Rth dom v) as FT.
    pose proof (cancel R rO rI radd rmul rsub ropp Rth dom) as CC.
    destruct (QF F0 V VP p0) as (m0 & W0 & C0 & d0 & Fa0).
    destruct (QF F1 _ N1 p1) as (f & W1 & C1 & d1 & Fa1).
    destruct (QF F2 _ N2 p2) as (g & W2 & C2 & d2 & Fa2).
    pose proof (FT _ _ _ _ _ _ Fa0) as T0. pose proof (FT _ _ _ _ _ _ Fa1) as T1. pose proof (FT _ _ _ _ _ _ Fa2) as T2.
    unfold F0 in T0. unfold F1 in T1. unfold F2 in T2. rewrite co_trace, sm_const in T0, T1, T2.
    assert (M0 : m0 = 1%nat).
    { assert (E : phi (Z.of_nat m0) = phi 1) by (apply (CC V); [auto|]; rewrite phi1; transitivity (phi (Z.of_nat m0) [*] V); [ring|rewrite <- T0; ring]).
      apply phi_inj in E. lia. }
    assert (M1 : [-] (V [*] s) [-] (K [-] s) = (r [-] s) [*] phi (Z.of_nat f)).
    { apply (CC V); [auto|]. transitivity (phi (Z.of_nat f) [*] (V [*] (r [-] s))); [rewrite <- T1; ring|ring]. }
    assert (M2 : [-] (V [*] r) [-] (K [-] r) = (s [-] r) [*] phi (Z.of_nat g)).
    { apply (CC V); [auto|]. transitivity (phi (Z.of_nat g) [*] (V [*] (s [-] r))); [rewrite <- T2; ring|ring]. }
    assert (S1 : (1 + f + g = v)%nat).
    { assert (E : phi (1 + Z.of_nat f + Z.of_nat g) = V).
      { apply (CC (r [-] s)); [auto|]. rewrite !phi_add, phi1.
        transitivity ((r [-] s) [+] (r [-] s) [*] phi (Z.of_nat f) [-] (s [-] r) [*] phi (Z.of_nat g)); [ring|]. rewrite <- M1, <- M2. ring. }
      apply phi_inj in E. lia. }
    assert (S2 : K [+] phi (Z.of_nat f) [*] r [+] phi (Z.of_nat g) [*] s = rO).
    { apply (CC (r [-] s)); [auto|].
      transitivity ((r [-] s) [*] K [+] r [*] ((r [-] s) [*] phi (Z.of_nat f)) [-] s [*] ((s [-] r) [*] phi (Z.of_nat g))); [ring|].
      rewrite <- M1, <- M2. ring. }
    exists f, g. split; [auto|]. split; [auto|]. subst m0. intro x.
    pose (Pf := fun i j => if (j <? 1)%nat then W0 i 0%nat else if (j <? 1 + f)%nat then W1 i (j - 1)%nat else W2 i (j - 1 - f)%nat).
    pose (Qf := fun j i => if (j <? 1)%nat then C0 0%nat i else if (j <? 1 + f)%nat then C1 (j - 1)%nat i else C2 (j - 1 - f)%nat i).
    pose (dg := fun j => if (j <? 1)%nat then d0 [*] V else if (j <? 1 + f)%nat then d1 [*] (V [*] (r [-] s)) else d2 [*] (V [*] (s [-] r))).
    pose (ev := fun j => if (j <? 1)%nat then K else if (j <? 1 + f)%nat then r else s).
    pose proof (rdet_mul R rO rI radd rmul rsub ropp Rth two v) as DM.
    pose proof (rdet_ext R rO rI radd rmul rsub ropp Rth two v) as DX.
    pose proof (rdet_diag R rO rI radd rmul rsub ropp Rth two v) as DD.
    pose proof (rn_sm R rO rI radd rmul rsub ropp Rth v) as RN.
    assert (QP : forall a b, (a < v)%nat -> (b < v)%nat -> Sm v (fun i => Qf a i [*] Pf i b) = if (a =? b)%nat then dg a else rO).
    { intros a b Ha Hb. unfold Qf, Pf, dg.
      destruct (Nat.ltb_spec a 1) as [A1|A1]; [|destruct (Nat.ltb_spec a (1 + f)) as [A2|A2]];
      (destruct (Nat.ltb_spec b 1) as [B1|B1]; [|destruct (Nat.ltb_spec b (1 + f)) as [B2|B2]]).
      - destruct (Nat.eqb_spec a b); [|lia]. rewrite (f_orth _ _ _ _ _ _ _ _ _ _ _ Fa0) by lia. reflexivity.
      - destruct (Nat.eqb_spec a b); [lia|]. apply (offr _ _ _ _ _ _ _ _ _ _ _ _ Fa0 Fa1 r01); lia.
      - destruct (Nat.eqb_spec a b); [lia|]. apply (offr _ _ _ _ _ _ _ _ _ _ _ _ Fa0 Fa2 r02); lia.
      - destruct (Nat.eqb_spec a b); [lia|]. apply (offr _ _ _ _ _ _ _ _ _ _ _ _ Fa1 Fa0 r10); lia.
      - rewrite (f_orth _ _ _ _ _ _ _ _ _ _ _ Fa1) by lia.
        destruct (Nat.eqb_spec (a - 1) (b - 1)), (Nat.eqb_spec a b); try lia; reflexivity.
      - destruct (Nat.eqb_spec a b); [lia|]. apply (offr _ _ _ _ _ _ _ _ _ _ _ _ Fa1 Fa2 r12); lia.
      - destruct (Nat.eqb_spec a b); [lia|]. apply (offr _ _ _ _ _ _ _ _ _ _ _ _ Fa2 Fa0 r20); lia.
      - destruct (Nat.eqb_spec a b); [lia|]. apply (offr _ _ _ _ _ _ _ _ _ _ _ _ Fa2 Fa1 r21); lia.
      - rewrite (f_orth _ _ _ _ _ _ _ _ _ _ _ Fa2) by lia.
        destruct (Nat.eqb_spec (a - 1 - f) (b - 1 - f)), (Nat.eqb_spec a b); try lia; reflexivity. }
    assert (DP : Rdet v Pf <> rO).
    { intro Z0. pose proof (DM Qf Pf) as M. rewrite Z0 in M.
      rewrite (DX _ (fun a b => if (a =? b)%nat then dg a else rO)) in M.
      2:{ intros a b Ha Hb. rewrite RN. now apply QP. }
      rewrite DD in M. assert (M' : rp R rI rmul (map dg (seq 0 v)) = rO) by (rewrite M; ring). revert M'.
      apply rp_nonzero; [auto|]. intros y Hy. apply in_map_iff in Hy. destruct Hy as (j & <- & _). unfold dg.
      pose proof (f_d _ _ _ _ _ _ _ _ _ _ _ Fa0). pose proof (f_d _ _ _ _ _ _ _ _ _ _ _ Fa1). pose proof (f_d _ _ _ _ _ _ _ _ _ _ _ Fa2).
      destruct (j <? 1)%nat; [|destruct (j <? 1 + f)%nat]; intro E; destruct (dom _ _ E); auto. }
    assert (EV : forall i j, (i < v)%nat -> (j < v)%nat -> Sm v (fun w => A i w [*] Pf w j) = ev j [*] Pf i j).
    { intros i j Hi Hj. unfold Pf, ev. destruct (Nat.ltb_spec j 1) as [A1|A1]; [|destruct (Nat.ltb_spec j (1 + f)) as [A2|A2]].
      - apply (eigenr K _ _ _ _ _ _ Fa0 b0); lia.
      - apply (eigenr r _ _ _ _ _ _ Fa1 b1); lia.
      - apply (eigenr s _ _ _ _ _ _ Fa2 b2); lia. }
    assert (DE : Rdet v (xmat x) [*] Rdet v Pf = Rdet v Pf [*] rp R rI rmul (map (fun j => phi x [-] ev j) (seq 0 v))).
    { rewrite <- DM, <- DD, <- DM. apply DX. intros i j Hi Hj. rewrite !RN.
      assert (X1 : Sm v (fun w => xmat x i w [*] Pf w j) = Sm v (fun w => dl i w [*] (phi x [*] Pf w j) [-] A i w [*] Pf w j)).
      { apply sm_ext. intros w _. unfold xmat, dl, A. destruct (i =? w)%nat; rewrite ?phi_sub, ?phi_opp'; ring. }
      rewrite X1, (sm_sub R rO rI radd rmul rsub ropp Rth), (dl_l i (fun w => phi x [*] Pf w j)), EV by auto.
      assert (X2 : Sm v (fun w => Pf i w [*] (if (w =? j)%nat then phi x [-] ev w else rO)) = Sm v (fun w => Pf i w [*] (phi x [-] ev w) [*] dl w j)).
      { apply sm_ext. intros w _. unfold dl. destruct (w =? j)%nat; ring. }
      rewrite X2, (dl_r j (fun w => Pf i w [*] (phi x [-] ev w))) by auto. ring. }
    assert (DE' : Rdet v (xmat x) = rp R rI rmul (map (fun j => phi x [-] ev j) (seq 0 v))).
    { apply (CC (Rdet v Pf)); [auto|]. rewrite <- DE. ring. }
    rewrite DE', <- S1. replace (1 + f + g)%nat with (1 + (f + g))%nat by lia. rewrite !seq_app, !map_app, !rp_app. f_equal.
    - cbn. ring.
    - assert (MC : forall (h : nat -> R) c a n, (forall j, In j (seq a n) -> h j = c) -> rp R rI rmul (map h (seq a n)) = rpow c n).
      { intros h c a n H. rewrite <- rp_repeat. f_equal. revert a H. induction n as [|n IH]; intros a H; [reflexivity|].
        cbn [seq map repeat]. rewrite H by now left. f_equal. apply IH. intros j Hj. apply H. now right. }
      f_equal; apply MC; intros j Hj; apply in_seq in Hj; unfold ev.
      + destruct (Nat.ltb_spec j 1); [lia|]. destruct (Nat.ltb_spec j (1 + f)); [reflexivity|lia].
      + destruct (Nat.ltb_spec j 1); [lia|]. destruct (Nat.ltb_spec j (1 + f)); [lia|reflexivity].
  Qed.
End Eigen.

(** ** the ring of a root w of [w^2 = t w - m] *)
Section Root.
  Variables t m : Z.
  Definition wmul (x y : Z * Z) := (fst x * fst y - m * snd x * snd y, fst x * snd y + snd x * fst y + t * snd x * snd y).
  Lemma wth : ring_theory (0, 0) (1, 0) qadd wmul qsub qopp eq.
  Proof.
    split; intros; unfold qadd, qsub, qopp, wmul; repeat match goal with x : (Z * Z)%type |- _ => destruct x end; cbn [fst snd];
      apply (f_equal2 pair); ring.
  Qed.
  Hypothesis nsq : forall x, x * x <> t * t - 4 * m.
  Lemma wnorm_0 a b : a * a + t * a * b + m * b * b = 0 -> a = 0 /\ b = 0.
  Proof.
    intro H. destruct (Z.eq_dec b 0) as [->|Hb]; [split; [nia|auto]|]. exfalso.
    destruct (square_quotient (t * t - 4 * m) b Hb (2 * a + t * b)) as (x & Hx); [|now apply (nsq x)].
    transitivity (4 * (a * a + t * a * b + m * b * b) + (t * t - 4 * m) * (b * b)); [ring|]. rewrite H. ring.
  Qed.
  Lemma wdom x y : wmul x y = (0, 0) -> x = (0, 0) \/ y = (0, 0).
  Proof.
    destruct x as [a b], y as [c e]. unfold wmul. cbn [fst snd]. intro H.
    pose proof (f_equal fst H) as H1. pose proof (f_equal snd H) as H2. cbn [fst snd] in H1, H2.
    assert (N : (a * a + t * a * b + m * b * b) * (c * c + t * c * e + m * e * e) = 0).
    { transitivity ((a * c - m * b * e) * (a * c - m * b * e) + t * (a * c - m * b * e) * (a * e + b * c + t * b * e)
        + m * (a * e + b * c + t * b * e) * (a * e + b * c + t * b * e)); [ring|]. rewrite H1, H2. ring. }
    apply Z.mul_eq_0 in N. destruct N as [N|N]; apply wnorm_0 in N; destruct N as [-> ->]; auto.
  Qed.
End Root.
Lemma wtwo x : qadd x x = (0, 0) -> x = (0, 0).
Proof. destruct x as [a b]. unfold qadd. cbn [fst snd]. intro H. pose proof (f_equal fst H) as H1. pose proof (f_equal snd H) as H2. cbn [fst snd] in H1, H2. f_equal; lia. Qed.

Lemma char_cell n M x i j : (i < n)%nat -> (j < n)%nat ->
  cell (char_matrix n M x) i j = if (i =? j)%nat then x - cell M i j else - cell M i j.
Proof.
  intros Hi Hj. unfold char_matrix, cell at 1.
  rewrite (nth_indep _ [] (map (fun j => (if (0 =? j)%nat then x else 0) - cell M 0 j) (seq 0 n))) by (rewrite map_length, seq_length; auto).
  rewrite (map_nth (fun i => map (fun j => (if (i =? j)%nat then x else 0) - cell M i j) (seq 0 n))), seq_nth by auto.
  rewrite (nth_indep _ 0 ((if (0 + i =? 0)%nat then x else 0) - cell M (0 + i) 0)) by (rewrite map_length, seq_length; auto).
  rewrite (map_nth (fun j => (if (0 + i =? j)%nat then x else 0) - cell M (0 + i) j)), seq_nth by auto. cbn [Nat.add].
  destruct (i =? j)%nat; ring.
Qed.

Lemma conference_parameters v k l u G : srg v k l u G -> 1 <= k < Z.of_nat v - 1 -> conference (Z.of_nat v) k l u = 0 ->
  l = u - 1 /\ k = 2 * u /\ Z.of_nat v = 4 * u + 1 /\ 1 <= u.
Proof.
  intros HG Hk Hc. pose proof (sp_count v k l u G HG Hk) as SC. destruct (sp_l v k l u G HG Hk) as (_ & _ & Hu).
  unfold conference in Hc. assert (L : u - l = 1) by nia. nia.
Qed.

Lemma zpow_r x n : rpow Z 1 Z.mul x n = x ^ Z.of_nat n.
Proof. induction n; [reflexivity|]. cbn [rpow]. rewrite IHn, Nat2Z.inj_succ, Z.pow_succ_r by lia. reflexivity. Qed.

Lemma char_conference_proof v k l u G : srg v k l u G -> 1 <= k < Z.of_nat v - 1 -> conference (Z.of_nat v) k l u = 0 ->
  l = u - 1 /\ k = 2 * u /\ Z.of_nat v = 4 * u + 1
  /\ forall x, det v (char_matrix v G x) = (x - 2 * u) * (x * x + x - u) ^ (2 * u).
Proof.
  intros HG Hk Hc. destruct (conference_parameters v k l u G HG Hk Hc) as (El & Ek & Ev & Hu).
  split; [auto|]. split; [auto|]. split; [auto|]. intro x.
  destruct (square_dec ((l - u) ^ 2 + 4 * (k - u))) as [(D & HD & ED)|N].
  - assert (DP : 0 < D) by nia.
    destruct (eig_proof (Z.of_nat v) k l u D DP ED) as (r & s & _ & _ & _ & Hs & Hp & Hrs & _).
    destruct (cp_eigen Z 0 1 Z.add Z.mul Z.sub Z.opp InitialRing.Zth Zdom Z.eq_dec ltac:(intros; lia) (fun z => z)
      eq_refl eq_refl ltac:(auto) ltac:(auto) ltac:(auto) v k l u G HG Hk r s Hs Hp ltac:(lia)) as (f & g & S1 & S2 & P).
    assert (FG : Z.of_nat f = 2 * u /\ Z.of_nat g = 2 * u).
    { assert (Z.of_nat f + Z.of_nat g = 4 * u) by lia. assert (X : (Z.of_nat f - Z.of_nat g) * (r - s) = 0) by nia. apply Z.mul_eq_0 in X. lia. }
    specialize (P x).
    transitivity (rdet Z 0 1 Z.add Z.mul Z.opp v (xmat Z (fun z => z) G x)).
    + pose proof (phi_det Z 0 1 Z.add Z.mul Z.sub Z.opp InitialRing.Zth ltac:(intros; lia) (fun z => z) eq_refl eq_refl ltac:(auto) ltac:(auto) v (char_matrix v G x)) as PD.
      rewrite PD. apply (rdet_ext Z 0 1 Z.add Z.mul Z.sub Z.opp InitialRing.Zth ltac:(intros; lia)). intros i j Hi Hj. unfold xmat. now apply char_cell.
    + rewrite P, !zpow_r. destruct FG as [-> ->]. rewrite <- Z.pow_mul_l, Ek. f_equal. f_equal.
      transitivity (x * x - (r + s) * x + r * s); [ring|]. rewrite Hs, Hp, El, Ek. ring.
  - pose (t := l - u). pose (m := u - k).
    assert (nsq : forall y, y * y <> t * t - 4 * m) by (intros y Hy; apply (N y); rewrite Hy; unfold t, m; ring).
    pose (phi := fun z : Z => (z, 0)).
    assert (pa : forall a b, phi (a + b) = qadd (phi a) (phi b)) by (intros; unfold phi, qadd; cbn [fst snd]; f_equal).
    assert (pm : forall a b, phi (a * b) = wmul t m (phi a) (phi b)) by (intros; unfold phi, wmul; cbn [fst snd]; f_equal; ring).
    assert (pi : forall a b, phi a = phi b -> a = b) by (intros a b H; apply (f_equal fst) in H; exact H).
    assert (H1 : qadd (0, 1) (t, -1) = phi (l - u)) by (unfold qadd, phi; cbn [fst snd]; f_equal; lia).
    assert (H2 : wmul t m (0, 1) (t, -1) = phi (u - k)) by (unfold wmul, phi; cbn [fst snd]; f_equal; unfold m; lia).
    assert (H3 : (0, 1) <> (t, -1)) by (intro H; apply (f_equal snd) in H; cbn [snd] in H; lia).
    destruct (cp_eigen (Z * Z) (0, 0) (1, 0) qadd (wmul t m) qsub qopp (wth t m) (wdom t m nsq) qdec wtwo phi
      eq_refl eq_refl pa pm pi v k l u G HG Hk (0, 1) (t, -1) H1 H2 H3) as (f & g & S1 & S2 & P).
    assert (FG : f = g).
    { apply (f_equal snd) in S2. unfold qadd, wmul, phi in S2. cbn [fst snd] in S2. lia. }
    subst g. apply pi.
    transitivity (rdet (Z * Z) (0, 0) (1, 0) qadd (wmul t m) qopp v (xmat (Z * Z) phi G x)).
    + rewrite (phi_det (Z * Z) (0, 0) (1, 0) qadd (wmul t m) qsub qopp (wth t m) wtwo phi eq_refl eq_refl pa pm v (char_matrix v G x)).
      apply (rdet_ext (Z * Z) (0, 0) (1, 0) qadd (wmul t m) qsub qopp (wth t m) wtwo). intros i j Hi Hj. unfold xmat. rewrite char_cell by auto. reflexivity.
    + rewrite P. assert (Ef : Z.of_nat f = 2 * u) by lia. rewrite <- Ef, pm. f_equal.
      * unfold qsub, phi. cbn [fst snd]. f_equal; lia.
      * assert (EX : wmul t m (qsub (phi x) (0, 1)) (qsub (phi x) (t, -1)) = phi (x * x + x - u)).
        { unfold wmul, qsub, phi. cbn [fst snd]. f_equal; [|lia]. unfold t, m. rewrite El, Ek. ring. }
        clear - EX pm. induction f as [|f IH]; [cbn [rpow]; unfold wmul, phi; cbn [fst snd]; rewrite Z.pow_0_r; f_equal; ring|]. cbn [rpow]. rewrite Nat2Z.inj_succ, Z.pow_succ_r by lia. rewrite pm, <- IH, <- EX.
        generalize (qsub (phi x) (0, 1)) (qsub (phi x) (t, -1)) (rpow (Z * Z) (1, 0) (wmul t m) (qsub (phi x) (0, 1)) f) (rpow (Z * Z) (1, 0) (wmul t m) (qsub (phi x) (t, -1)) f).
        intros [] [] [] []. unfold wmul. cbn [fst snd]. f_equal; ring.
Qed.

Lemma spectrum_char n M es x : spectrum n M es -> det n (char_matrix n M x) = zprod (map (fun e => x - e) es).
Proof.
  intros (L & P & SP & HP & H). rewrite <- (spectrum_det n (char_matrix n M x) (map (fun e => x - e) es)); [reflexivity|].
  split; [now rewrite map_length|]. exists P. split; [auto|]. split; [auto|]. intros i j Hi Hj.
  rewrite (nth_indep _ 0 (x - 0)) by (rewrite map_length; lia). rewrite (map_nth (fun e => x - e)).
  rewrite (sumn_ext n _ (fun w => (if (w =? i)%nat then x * cell P w j else 0) - cell M i w * cell P w j)).
  - rewrite sumn_minus, (sumn_delta n i (fun w => x * cell P w j)), H by auto. ring.
  - intros w Hw. rewrite char_cell by auto. rewrite Nat.eqb_sym. destruct (w =? i)%nat; ring.
Qed.
Lemma char_poly_proof v k l u G : srg v k l u G -> 1 <= k < Z.of_nat v - 1 -> conference (Z.of_nat v) k l u <> 0 ->
  exists es, eig (Z.of_nat v) k l u = Ok es /\ forall x, det v (char_matrix v G x) = zprod (map (fun e => x - e) (with_multiplicity es)).
Proof.
  intros HG Hk Hc. destruct (eig_graph_proof v k l u G HG Hk Hc) as (es & E & _ & S & _). exists es. split; [auto|].
  intro x. now apply spectrum_char.
Qed.
