(** [maximize] with a stable argsort: it does not depend on the argsort
    function, and it leaves matrices in canonical column order alone. *)
From Coq Require Import Sorting.Permutation Sorting.Sorted.
From Verif Require Import Np ModelGauss Model ModelSort Spec QSpec SortSpec Lib Graph PartProps AnyFacts SortFacts MaxFacts SortWitness.
From Coq Require Import ZifyBool ZifyNat.

(** ** a stable argsort is unique *)
Lemma sorted_perm_unique {A} (R : A -> A -> Prop) x : forall y, (forall a b, R a b -> R b a -> False) ->
  StronglySorted R x -> StronglySorted R y -> Permutation x y -> x = y.
Proof.
  induction x as [|a x IH]; intros y HR Hx Hy HP.
  - now apply Permutation_nil in HP.
  - destruct y as [|b y]; [now apply Permutation_sym, Permutation_nil in HP|].
    inversion Hx as [|? ? Hx1 Hx2]; subst. inversion Hy as [|? ? Hy1 Hy2]; subst. rewrite Forall_forall in Hx2, Hy2.
    assert (a = b).
    { assert (Ha : In a (b :: y)) by (apply (Permutation_in _ HP); now left).
      assert (Hb : In b (a :: x)) by (apply (Permutation_in _ (Permutation_sym HP)); now left).
      destruct Ha as [->|Ha]; auto. destruct Hb as [->|Hb]; auto. exfalso. eapply HR; eauto. }
    subst b. f_equal. apply IH; auto. now apply Permutation_cons_inv in HP.
Qed.
Lemma nth_sorted {A} (R : A -> A -> Prop) (d : A) q :
  (forall i j, (i < j < length q)%nat -> R (nth i q d) (nth j q d)) -> StronglySorted R q.
Proof.
  induction q as [|a q IH]; intros H; constructor.
  - apply IH. intros i j Hij. apply (H (S i) (S j)). simpl. lia.
  - apply Forall_forall. intros x Hx. apply (In_nth _ _ d) in Hx. destruct Hx as (j & Hj & <-). apply (H 0%nat (S j)). simpl. lia.
Qed.
Lemma stable_sorted n f l : argsorts f -> stable_upto n f -> (length l <= n)%nat -> StronglySorted (key_lt l) (f l).
Proof.
  intros Hf Hs Hl. destruct (Hf l) as [HP HO]. assert (HLen : length (f l) = length l) by (rewrite (Permutation_length HP); apply seq_length).
  apply (nth_sorted _ 0%nat). rewrite HLen. intros i j Hij. specialize (HO i j Hij). pose proof (Hs l i j Hl Hij). unfold key_lt.
  destruct (Z.eq_dec (nth (nth i (f l) 0%nat) l 0) (nth (nth j (f l) 0%nat) l 0)); [right; auto|left; lia].
Qed.
Lemma stable_unique n f g l : argsorts f -> stable_upto n f -> argsorts g -> stable_upto n g -> (length l <= n)%nat -> f l = g l.
Proof.
  intros Hf Sf Hg Sg Hl. apply (sorted_perm_unique (key_lt l)).
  - unfold key_lt. intros; lia.
  - now apply (stable_sorted n).
  - now apply (stable_sorted n).
  - eapply Permutation_trans; [apply Hf|apply Permutation_sym, Hg].
Qed.

(** ** the result does not depend on the stable argsort used *)
Section ext.
  Variables (f g : list Z -> list nat) (v : nat).
  Hypothesis Hf : argsorts f.
  Hypothesis Sf : stable_upto (v - 1) f.
  Hypothesis Hg : argsorts g.
  Hypothesis Sg : stable_upto (v - 1) g.

  Lemma sort_range_same row c0 c1 M : symmetric v M -> (c1 <= v)%nat -> sort_range f row c0 c1 M = sort_range g row c0 c1 M.
  Proof.
    intros HM Hc. unfold sort_range. destruct (Nat.leb_spec c0 row); auto. destruct (Nat.leb_spec c1 c0); auto.
    rewrite (stable_unique (v - 1) f g); auto. rewrite map_length. unfold segment. rewrite firstn_length. lia.
  Qed.
  Lemma div_sort_same si M : symmetric v M -> instr_ok v si -> div_sort f si M = div_sort g si M.
  Proof.
    intros HM (d & Ed & H1 & H2 & H3). unfold div_sort. rewrite Ed. cbv zeta.
    set (c0 := if (S (irow si) =? ic0 si)%nat then S (ic0 si) else ic0 si).
    rewrite sort_range_same by (auto; lia).
    destruct (sort_any g v M Hg (S (irow si)) c0 d M) as (N & d1 & E & [G _] & _); [split; auto; apply same_graph_refl|lia|].
    rewrite E. cbn [bind fst snd]. now rewrite sort_range_same by auto.
  Qed.
  Lemma run_same n : forall M q, symmetric v M -> (forall si, In si q -> instr_ok v si) ->
    iter2 n (sort_step f) (M, q) = iter2 n (sort_step g) (M, q)
    /\ forall M' q', iter2 n (sort_step g) (M, q) = inl (M', q') -> symmetric v M' /\ forall si, In si q' -> instr_ok v si.
  Proof.
    assert (ST : forall M q, symmetric v M -> (forall si, In si q -> instr_ok v si) ->
      sort_step f (M, q) = sort_step g (M, q)
      /\ forall M' q', sort_step g (M, q) = inl (M', q') -> symmetric v M' /\ forall si, In si q' -> instr_ok v si).
    { intros M [|si q] HM Hq; cbn [sort_step]; [split; [auto|discriminate]|].
      rewrite (div_sort_same si M HM) by (apply Hq; now left). split; auto. intros M' q'.
      destruct (div_sort_ok g v M Hg si M) as (N & out & E & [G _] & _ & Ho); [split; auto; apply same_graph_refl|apply Hq; now left|].
      rewrite E. intros EE. injection EE as <- <-. split; auto. intros x Hx. apply in_app_iff in Hx. destruct Hx as [Hx|Hx]; [apply Hq; now right|now apply Ho]. }
    induction n as [|n IH]; intros M q HM Hq; cbn [iter2]; [now apply ST|].
    destruct (IH M q HM Hq) as [E1 K1]. rewrite E1. destruct (iter2 n (sort_step g) (M, q)) as [[M1 q1]|r] eqn:E.
    - destruct (K1 M1 q1 eq_refl) as [A B]. apply IH; auto.
    - split; [auto|discriminate].
  Qed.
  Lemma maximize_same M : symmetric v M -> maximize f M = maximize g M.
  Proof.
    intros HM. assert (HL : length M = v) by apply HM. unfold maximize. rewrite HL. rewrite sort_range_same by auto.
    destruct (Nat.lt_ge_cases 1 v) as [Hv|Hv].
    - destruct (sort_range_spec g v M 0 1 v Hg HM ltac:(lia) (Nat.le_refl v)) as (h & N & d & E & HN & _ & _ & _ & _ & _ & _ & Hd).
      rewrite E. cbn [bind fst snd]. unfold while_. destruct d as [d|].
      + destruct (run_same (S v) N [Ins 0 1 v (Some d)]) as [-> _]; auto.
        intros si [<-|[]]. exists d. unfold inside in Hd. simpl. repeat split; lia.
      + assert (EE : forall a n, iter2 n (sort_step a) (N, [Ins 0 1 v None]) = inr (Raise TypeError)); [|now rewrite !EE].
        intros a. induction n as [|n IH]; simpl; [reflexivity|]. now rewrite IH.
    - rewrite sort_range_skip by lia. cbn [bind fst snd].
      assert (EE : forall a n, iter2 n (sort_step a) (M, [Ins 0 1 v None]) = inr (Raise TypeError)); [|unfold while_; now rewrite !EE].
      intros a. induction n as [|n IH]; simpl; [reflexivity|]. now rewrite IH.
  Qed.
End ext.

(** ** canonical matrices are left alone *)
Section fixed.
  Variables (argsort : list Z -> list nat) (v : nat) (M : list (list Z)).
  Hypothesis Harg : argsorts argsort.
  Hypothesis Hst : stable_upto (v - 1) argsort.
  Hypothesis HM : symmetric v M.
  Hypothesis HB : binary v M.
  Hypothesis HC : canonical v M.

  Lemma increasing_id g c0 n : (forall i, (i < n)%nat -> (c0 <= g (c0 + i)%nat < c0 + n)%nat) ->
    (forall i j, (i < j < n)%nat -> (g (c0 + i)%nat < g (c0 + j)%nat)%nat) -> forall i, (i < n)%nat -> g (c0 + i)%nat = (c0 + i)%nat.
  Proof.
    intros H1 H2.
    assert (LO : forall i, (i < n)%nat -> (c0 + i <= g (c0 + i)%nat)%nat).
    { induction i as [|i IH]; intros Hi; [specialize (H1 0%nat Hi); lia|]. specialize (IH ltac:(lia)). specialize (H2 i (S i) ltac:(lia)). lia. }
    assert (HI : forall m i, (i < n)%nat -> (n - i <= m)%nat -> (g (c0 + i)%nat <= c0 + i)%nat).
    { induction m as [|m IH]; intros i Hi Hm; [lia|]. destruct (Nat.eq_dec (S i) n) as [E|E]; [specialize (H1 i Hi); lia|].
      specialize (IH (S i) ltac:(lia) ltac:(lia)). specialize (H2 i (S i) ltac:(lia)). lia. }
    intros i Hi. specialize (LO i Hi). specialize (HI n i Hi ltac:(lia)). lia.
  Qed.
  Lemma rows_eq N : shape v v N -> (forall i j, (i < v)%nat -> (j < v)%nat -> cell N i j = cell M i j) -> N = M.
  Proof.
    intros [L1 R1] H. destruct HM as [[L2 R2] _]. apply (nth_ext _ _ [] []); [lia|]. intros i Hi.
    assert (RN : length (nth i N []) = v) by (apply R1, nth_In; lia). assert (RM : length (nth i M []) = v) by (apply R2, nth_In; lia).
    apply (nth_ext _ _ 0 0); [lia|]. intros j Hj. apply (H i j); lia.
  Qed.
  Lemma sort_fixed row c0 c1 : (c1 <= v)%nat -> flat M row c0 c1 ->
    exists d, sort_range argsort row c0 c1 M = Ok (M, d)
      /\ (forall si, In si (queue_if row c0 c1 d) -> si = Ins row c0 c1 (idiv si) /\ known v M si).
  Proof.
    intros Hc1 HF. assert (G0 : good2 v M M) by (split; [auto|split; [auto|now left]]).
    destruct (sort_mono argsort v M Harg Hst row c0 c1 M G0 Hc1 HF) as (N & d & E & G1 & Q & _ & _).
    assert (N = M); [|subst N; eauto].
    destruct (Nat.lt_ge_cases row c0) as [L1|L1]; [destruct (Nat.lt_ge_cases c0 c1) as [L2|L2]|].
    2,3: rewrite sort_range_skip in E by lia; congruence.
    destruct (sort_range_spec argsort v M row c0 c1 Harg HM ltac:(lia) Hc1) as (g & N' & d' & E' & HN & Hg & Hc & Hout & Hin & Hdesc & Hs & _).
    rewrite E' in E. injection E as -> ->. specialize (Hs Hst).
    assert (Hrow : g row = row) by (apply Hout; [lia|unfold inside; lia]).
    assert (MON : forall a b, (c0 <= a)%nat -> (a < b < c1)%nat -> cell M row b <= cell M row a).
    { intros a b Ha Hb. apply HC; [lia|lia|]. intros i Hi. apply HF; auto; unfold inside; lia. }
    assert (ID : forall i, (i < c1 - c0)%nat -> g (c0 + i)%nat = (c0 + i)%nat).
    { apply increasing_id.
      - intros i Hi. specialize (Hin (c0 + i)%nat). unfold inside in Hin. lia.
      - intros i j Hij. assert (Ii : inside c0 c1 (c0 + i)) by (unfold inside; lia). assert (Ij : inside c0 c1 (c0 + j)) by (unfold inside; lia).
        pose proof (Hdesc _ _ Ii Ij ltac:(lia)) as D. pose proof (Hs _ _ Ii Ij ltac:(lia)) as S.
        apply Hin in Ii, Ij. unfold inside in Ii, Ij. rewrite !Hc, Hrow in D, S by lia.
        destruct (Z.eq_dec (cell M row (g (c0 + i)%nat)) (cell M row (g (c0 + j)%nat))) as [Eq|Ne]; [now apply S|].
        destruct (Nat.lt_total (g (c0 + i)%nat) (g (c0 + j)%nat)) as [L|[L|L]]; [auto|rewrite L in Ne; lia|].
        specialize (MON (g (c0 + j)%nat) (g (c0 + i)%nat) ltac:(lia) ltac:(lia)). lia. }
    assert (ID' : forall i, (i < v)%nat -> g i = i).
    { intros i Hi. destruct (Nat.lt_ge_cases i c0) as [A|A]; [apply Hout; auto; unfold inside; lia|].
      destruct (Nat.lt_ge_cases i c1) as [B|B]; [|apply Hout; auto; unfold inside; lia].
      replace i with (c0 + (i - c0))%nat by lia. apply ID. lia. }
    apply rows_eq; [apply HN|]. intros i j Hi Hj. rewrite Hc by auto. now rewrite !ID'.
  Qed.
  Lemma div_fixed si : known v M si -> exists out, div_sort argsort si M = Ok (M, out) /\ forall x, In x out -> known v M x.
  Proof.
    intros (d & Ed & H1 & H2 & H3 & F1 & F2). unfold div_sort. rewrite Ed. cbv zeta.
    set (c0 := if (S (irow si) =? ic0 si)%nat then S (ic0 si) else ic0 si).
    assert (Hc0 : (ic0 si <= c0)%nat) by (unfold c0; destruct (_ =? _)%nat; lia).
    destruct (sort_fixed (S (irow si)) c0 d ltac:(lia) ltac:(apply (flat_sub _ _ (ic0 si) d); auto)) as (d1 & E1 & Q1).
    destruct (sort_fixed (S (irow si)) d (ic1 si) H3 F2) as (d2 & E2 & Q2).
    rewrite E1. cbn [bind fst snd]. rewrite E2. cbn [bind fst snd].
    eexists. split; [reflexivity|]. intros x Hx. apply in_app_iff in Hx. destruct Hx as [Hx|Hx]; [now apply Q1|now apply Q2].
  Qed.
  Lemma run_fixed n st N : fst st = M -> (forall x, In x (snd st) -> known v M x) -> while_ n (sort_step argsort) st = Ok N -> N = M.
  Proof.
    intros H1 H2. apply (while_inv (fun st => fst st = M /\ forall x, In x (snd st) -> known v M x) (fun N => N = M)); [|auto].
    intros [M' [|si q]] [E K]; cbn [sort_step fst snd] in *; subst M'; auto.
    destruct (div_fixed si (K si ltac:(now left))) as (out & E & Ho). rewrite E. cbn [fst snd]. split; auto.
    intros x Hx. apply in_app_iff in Hx. destruct Hx as [Hx|Hx]; auto. apply K. now right.
  Qed.
  Lemma maximize_fixed : (exists j, (1 <= j < v)%nat /\ cell M 0 j = 0) -> maximize argsort M = Ok M.
  Proof.
    intros Hj. destruct (maximize_proof argsort v M Harg HM) as [[_ (N & E & _)]|[H _]].
    2:{ exfalso. destruct Hj as (j & Hj & E). now apply (H j). }
    rewrite E. f_equal. assert (HL : length M = v) by apply HM. unfold maximize in E. rewrite HL in E.
    destruct (sort_fixed 0 1 v (Nat.le_refl v)) as (d & E1 & Q); [intros i a b Hi; lia|].
    rewrite E1 in E. cbn [bind fst snd] in E. destruct d as [d|].
    2:{ exfalso. unfold while_ in E.
        assert (EE : forall n, iter2 n (sort_step argsort) (M, [Ins 0 1 v None]) = inr (Raise TypeError)); [|rewrite EE in E; discriminate].
        induction n as [|n IH]; simpl; [reflexivity|]. now rewrite IH. }
    apply (run_fixed (S v) (M, [Ins 0 1 v (Some d)]) N); auto. intros x [<-|[]].
    assert (Hd : (0 < d)%nat).
    { destruct (sort_range_spec argsort v M 0 1 v Harg HM ltac:(destruct Hj; lia) (Nat.le_refl v)) as (g & N' & d' & E' & HH).
      rewrite E' in E1. injection E1 as -> ->. destruct HH as (_ & _ & _ & _ & _ & _ & _ & Hd & _). unfold inside in Hd. lia. }
    destruct d as [|d]; [lia|]. apply (Q (Ins 0 1 v (Some (S d)))). now left.
  Qed.
End fixed.
