(** [maximize] with a stable argsort is idempotent: a second run makes the same
    calls of [_sort], and none of them moves anything. *)
From Coq Require Import Sorting.Permutation Sorting.Sorted.
From Verif Require Import Np ModelGauss Model ModelSort Spec QSpec SortSpec Lib Graph PartProps AnyFacts SortFacts MaxFacts SortWitness MaxFix.
From Coq Require Import ZifyBool ZifyNat.

(** row [r] has its ones in [a .. d) and its zeros in [d .. b) *)
Definition ones_to (M : list (list Z)) (r a b d : nat) : Prop :=
  forall j, inside a b j -> cell M r j = if (j <? d)%nat then 1 else 0.
Definition div_of (d c1 : nat) : option nat := if (d <? c1)%nat then Some d else None.
(** sorting [c0 .. c1) does not mix the two parts of [a .. b) *)
Definition harmless (a b d c0 c1 : nat) : Prop :=
  (b <= c0 \/ c1 <= a \/ c1 <= c0 \/ (a <= c0 /\ c1 <= b /\ (c1 <= d \/ d <= c0)))%nat.

Inductive runs (f : list Z -> list nat) : list (list Z) -> list instr -> list (list Z) -> Prop :=
| runs_end : forall M, runs f M [] M
| runs_step : forall M si q M' out N, div_sort f si M = Ok (M', out) ->
    runs f M' (q ++ out) N -> runs f M (si :: q) N.

Section idem.
  Variables (argsort : list Z -> list nat) (v : nat).
  Hypothesis Harg : argsorts argsort.
  Hypothesis Hst : stable_upto (v - 1) argsort.

  Definition nice (M : list (list Z)) : Prop := symmetric v M /\ binary v M.

  Lemma sort_moves row c0 c1 M : nice M -> (row < c0 < c1)%nat -> (c1 <= v)%nat ->
    exists N d, sort_range argsort row c0 c1 M = Ok (N, div_of d c1) /\ nice N
      /\ (c0 <= d <= c1)%nat /\ ones_to N row c0 c1 d
      /\ forall r a b e, (r <= row)%nat -> (b <= v)%nat -> harmless a b e c0 c1 -> ones_to M r a b e -> ones_to N r a b e.
  Proof.
    intros [HM HB] Hr Hc1.
    destruct (sort_range_spec argsort v M row c0 c1 Harg HM Hr Hc1) as (g & N & d & E & HN & Hg & Hc & Hout & Hin & Hdesc & _ & Hd).
    assert (HBN : binary v N) by (apply (st_binary v M N g); auto).
    assert (KEEP : forall r a b e, (r <= row)%nat -> (b <= v)%nat -> harmless a b e c0 c1 -> ones_to M r a b e -> ones_to N r a b e).
    { intros r a b e Hle Hb Hh H j Hj. unfold inside in Hj. rewrite Hc by lia. rewrite (Hout r) by (unfold inside; lia).
      destruct (Nat.lt_ge_cases j c0) as [L|L]; [rewrite Hout by (unfold inside; lia); now apply H|].
      destruct (Nat.lt_ge_cases j c1) as [L2|L2]; [|rewrite Hout by (unfold inside; lia); now apply H].
      specialize (Hin j ltac:(unfold inside; lia)). unfold inside in Hin. unfold harmless in Hh.
      rewrite (H (g j)) by (unfold inside; lia).
      destruct (Nat.ltb_spec (g j) e), (Nat.ltb_spec j e); auto; lia. }
    destruct d as [p|].
    - destruct Hd as (D1 & D2 & D3). unfold inside in D1. exists N, p.
      split; [unfold div_of; destruct (Nat.ltb_spec p c1); [exact E|lia]|]. split; [split; auto|]. split; [lia|]. split; [|exact KEEP].
      intros j Hj. unfold inside in Hj. destruct (Nat.ltb_spec j p) as [L|L].
      + specialize (D3 j ltac:(lia)). destruct (HBN row j ltac:(lia) ltac:(lia)); auto. contradiction.
      + destruct (Nat.eq_dec j p) as [->|]; auto. specialize (Hdesc p j). unfold inside in Hdesc.
        destruct (HBN row j ltac:(lia) ltac:(lia)); lia.
    - exists N, c1. split; [unfold div_of; rewrite Nat.ltb_irrefl; exact E|]. split; [split; auto|]. split; [lia|]. split; [|exact KEEP].
      intros j Hj. specialize (Hd j Hj). unfold inside in Hj. destruct (Nat.ltb_spec j c1); [|lia].
      destruct (HBN row j ltac:(lia) ltac:(lia)); auto. contradiction.
  Qed.

  (** a range that is in order is left alone *)
  Lemma sort_still row c0 c1 d M : nice M -> (row < c0 < c1)%nat -> (c1 <= v)%nat -> (c0 <= d <= c1)%nat ->
    ones_to M row c0 c1 d -> sort_range argsort row c0 c1 M = Ok (M, div_of d c1).
  Proof.
    intros [HM HB] Hr Hc1 Hd HO.
    destruct (sort_range_spec argsort v M row c0 c1 Harg HM Hr Hc1) as (g & N & e & E & HN & Hg & Hc & Hout & Hin & Hdesc & Hs & He).
    specialize (Hs Hst).
    assert (Hrow : g row = row) by (apply Hout; [lia|unfold inside; lia]).
    assert (ID : forall i, (i < c1 - c0)%nat -> g (c0 + i)%nat = (c0 + i)%nat).
    { apply increasing_id.
      - intros i Hi. specialize (Hin (c0 + i)%nat). unfold inside in Hin. lia.
      - intros i j Hij. assert (Ii : inside c0 c1 (c0 + i)) by (unfold inside; lia). assert (Ij : inside c0 c1 (c0 + j)) by (unfold inside; lia).
        pose proof (Hdesc _ _ Ii Ij ltac:(lia)) as D. pose proof (Hs _ _ Ii Ij ltac:(lia)) as S.
        apply Hin in Ii, Ij. pose proof (HO _ Ii) as Oi. pose proof (HO _ Ij) as Oj. unfold inside in Ii, Ij.
        rewrite !Hc, Hrow in D, S by lia. rewrite Oi, Oj in D, S.
        destruct (Nat.ltb_spec (g (c0 + i)%nat) d), (Nat.ltb_spec (g (c0 + j)%nat) d); try (apply S; reflexivity); lia. }
    assert (ID' : forall i, (i < v)%nat -> g i = i).
    { intros i Hi. destruct (Nat.lt_ge_cases i c0) as [A|A]; [apply Hout; auto; unfold inside; lia|].
      destruct (Nat.lt_ge_cases i c1) as [B|B]; [|apply Hout; auto; unfold inside; lia].
      replace i with (c0 + (i - c0))%nat by lia. apply ID. lia. }
    assert (EN : N = M).
    { apply (rows_eq v M HM N); [apply HN|]. intros i j Hi Hj. rewrite Hc by auto. now rewrite !ID'. }
    subst N. rewrite E. f_equal. f_equal. unfold div_of. destruct e as [p|].
    - destruct He as (P1 & P2 & P3). unfold inside in P1. rewrite HO in P2 by (unfold inside; lia).
      destruct (Nat.ltb_spec p d); [lia|]. destruct (Nat.ltb_spec d c1); [|lia]. f_equal.
      destruct (Nat.eq_dec d p); auto. exfalso. apply (P3 d); [lia|]. rewrite HO by (unfold inside; lia). now rewrite Nat.ltb_irrefl.
    - destruct (Nat.ltb_spec d c1); auto. exfalso. apply (He d); [unfold inside; lia|].
      rewrite HO by (unfold inside; lia). now rewrite Nat.ltb_irrefl.
  Qed.

  (** both, including the calls that return at once *)
  Lemma sort_both row c0 c1 M : nice M -> (c1 <= v)%nat ->
    exists N d, sort_range argsort row c0 c1 M = Ok (N, d) /\ nice N
      /\ (forall r a b e, (r <= row)%nat -> (b <= v)%nat -> harmless a b e c0 c1 -> ones_to M r a b e -> ones_to N r a b e)
      /\ exists e, ((row < c0)%nat -> ones_to N row c0 c1 e)
         /\ (forall x, In x (queue_if row c0 c1 d) -> x = Ins row c0 c1 (Some e) /\ (row < c0)%nat /\ (c0 <= e < c1)%nat)
         /\ forall P, nice P -> ((row < c0)%nat -> ones_to P row c0 c1 e) -> sort_range argsort row c0 c1 P = Ok (P, d).
  Proof.
    intros HN Hc1. destruct (Nat.lt_ge_cases row c0) as [L1|L1]; [destruct (Nat.lt_ge_cases c0 c1) as [L2|L2]|].
    2,3: exists M, None; rewrite sort_range_skip by lia; split; [auto|]; split; [auto|]; split; [auto|]; exists 0%nat;
       split; [intros H j Hj; unfold inside in Hj; lia|split; [intros x []|intros; apply sort_range_skip; lia]].
    destruct (sort_moves row c0 c1 M HN ltac:(lia) Hc1) as (N & d & E & HN' & Hd & HO & K).
    exists N, (div_of d c1). split; [auto|]. split; [auto|]. split; [auto|]. exists d. split; [auto|]. split.
    - intros x Hx. unfold div_of in Hx. destruct (Nat.ltb_spec d c1); [|easy]. destruct d as [|d]; [easy|].
      simpl in Hx. destruct Hx as [<-|[]]. repeat split; lia.
    - intros P HP HOP. apply sort_still; auto; lia.
  Qed.

  (** what is known about a queued range *)
  Definition queued (M : list (list Z)) (x : instr) : Prop := exists d, x = Ins (irow x) (ic0 x) (ic1 x) (Some d)
    /\ (irow x < ic0 x)%nat /\ (ic0 x <= d < ic1 x)%nat /\ (ic1 x <= v)%nat /\ ones_to M (irow x) (ic0 x) (ic1 x) d.
  (** [ones_to] facts that working on [x] and its parts cannot destroy *)
  Definition spares (r a b e : nat) (x : instr) : Prop := (r <= S (irow x))%nat
    /\ forall d, idiv x = Some d -> harmless a b e (ic0 x) d /\ harmless a b e d (ic1 x).

  Lemma harmless_sub a b e c0 c1 c0' c1' : (c0 <= c0')%nat -> (c1' <= c1)%nat -> harmless a b e c0 c1 -> harmless a b e c0' c1'.
  Proof. unfold harmless. lia. Qed.

  Lemma div_both si M : nice M -> queued M si ->
    exists N out, div_sort argsort si M = Ok (N, out) /\ nice N
      /\ (forall r a b e, (b <= v)%nat -> spares r a b e si -> ones_to M r a b e -> ones_to N r a b e)
      /\ (forall x, In x out -> irow x = S (irow si) /\ queued N x /\ (ic0 si <= ic0 x)%nat /\ (ic1 x <= ic1 si)%nat
            /\ forall r a b e, spares r a b e si -> spares r a b e x)
      /\ ForallOrdPairs (fun x y => apart (ic0 x) (ic1 x) y) out
      /\ forall P, nice P ->
           (forall a b e, ones_to N (S (irow si)) a b e -> (ic0 si <= a)%nat -> (b <= ic1 si)%nat ->
              (forall x, In x out -> spares (S (irow si)) a b e x) -> ones_to P (S (irow si)) a b e) ->
           div_sort argsort si P = Ok (P, out).
  Proof.
    intros HM (d & Ex & H1 & H2 & H3 & HO). assert (Ed : idiv si = Some d) by now rewrite Ex.
    unfold div_sort. rewrite Ed. cbv zeta. clear Ex.
    set (c0 := if (S (irow si) =? ic0 si)%nat then S (ic0 si) else ic0 si).
    assert (Hc0 : (ic0 si <= c0)%nat) by (unfold c0; destruct (_ =? _)%nat; lia).
    destruct (sort_both (S (irow si)) c0 d M HM ltac:(lia)) as (N1 & d1 & E1 & G1 & K1 & e1 & O1 & Q1 & P1).
    destruct (sort_both (S (irow si)) d (ic1 si) N1 G1 H3) as (N2 & d2 & E2 & G2 & K2 & e2 & O2 & Q2 & P2).
    rewrite E1. cbn [bind fst snd]. rewrite E2. cbn [bind fst snd].
    assert (O1' : (S (irow si) < c0)%nat -> ones_to N2 (S (irow si)) c0 d e1).
    { intros L. apply K2; auto; [lia|]. unfold harmless. lia. }
    eexists _, _. split; [reflexivity|]. split; [auto|]. split; [|split; [|split]].
    - intros r a b e Hb [Hr Hh] H. destruct (Hh d Ed) as [Ha1 Ha2]. apply K2; auto. apply K1; auto.
      apply (harmless_sub a b e (ic0 si) d); auto.
    - intros x Hx. apply in_app_iff in Hx. destruct Hx as [Hx|Hx].
      + destruct (Q1 x Hx) as (-> & L1 & L2). cbn [irow ic0 ic1]. split; [auto|]. split.
        { exists e1. cbn [irow ic0 ic1]. repeat (split; [auto; lia|]). now apply O1'. }
        split; [lia|]. split; [lia|]. intros r a b e [Hr Hh]. split; [simpl; lia|]. cbn [idiv ic0 ic1]. intros d' Ed'.
        assert (d' = e1) by congruence. subst d'. destruct (Hh d Ed) as [Ha1 Ha2].
        split; apply (harmless_sub a b e (ic0 si) d); auto; lia.
      + destruct (Q2 x Hx) as (-> & L1 & L2). cbn [irow ic0 ic1]. split; [auto|]. split.
        { exists e2. cbn [irow ic0 ic1]. repeat (split; [auto; lia|]). now apply O2. }
        split; [lia|]. split; [lia|]. intros r a b e [Hr Hh]. split; [simpl; lia|]. cbn [idiv ic0 ic1]. intros d' Ed'.
        assert (d' = e2) by congruence. subst d'. destruct (Hh d Ed) as [Ha1 Ha2].
        split; apply (harmless_sub a b e d (ic1 si)); auto; lia.
    - apply fop_app.
      + destruct d1 as [[|p]|]; simpl; repeat constructor.
      + destruct d2 as [[|p]|]; simpl; repeat constructor.
      + intros x y Hx Hy. destruct (Q1 x Hx) as (-> & _), (Q2 y Hy) as (-> & _). unfold apart. simpl. lia.
    - intros P HP HK. rewrite (P1 P HP).
      + cbn [bind fst snd]. rewrite (P2 P HP); [reflexivity|]. intros L. apply HK; [now apply O2|lia|lia|].
        intros x Hx. apply in_app_iff in Hx. destruct Hx as [Hx|Hx].
        * destruct (Q1 x Hx) as (-> & L1 & L2). split; [simpl; lia|]. cbn [idiv ic0 ic1]. intros d' Ed'. unfold harmless.
          assert (d' = e1) by congruence. lia.
        * destruct (Q2 x Hx) as (-> & L1 & L2). split; [simpl; lia|]. cbn [idiv ic0 ic1]. intros d' Ed'. unfold harmless.
          assert (d' = e2) by congruence. lia.
      + intros L. apply HK; [now apply O1'|lia|lia|].
        intros x Hx. apply in_app_iff in Hx. destruct Hx as [Hx|Hx].
        * destruct (Q1 x Hx) as (-> & L1 & L2). split; [simpl; lia|]. cbn [idiv ic0 ic1]. intros d' Ed'. unfold harmless.
          assert (d' = e1) by congruence. lia.
        * destruct (Q2 x Hx) as (-> & L1 & L2). split; [simpl; lia|]. cbn [idiv ic0 ic1]. intros d' Ed'. unfold harmless.
          assert (d' = e2) by congruence. lia.
  Qed.

  Lemma levels_low si q : levels (si :: q) -> forall x, In x q -> (irow si <= irow x)%nat.
  Proof.
    intros (r & q1 & q2 & E & H1 & H2) x Hx. destruct q1 as [|y q1]; simpl in E.
    - subst q2. rewrite (H2 si), (H2 x) by (simpl; auto). lia.
    - injection E as <- ->. rewrite (H1 si) by (simpl; auto). apply in_app_iff in Hx.
      destruct Hx as [Hx|Hx]; [rewrite (H1 x)|rewrite (H2 x)]; simpl; auto; lia.
  Qed.

  Lemma runs_again M q N : runs argsort M q N -> nice M -> (forall x, In x q -> queued M x) -> levels q ->
    ForallOrdPairs (fun x y => apart (ic0 x) (ic1 x) y) q ->
    nice N /\ runs argsort N q N
    /\ forall r a b e, (b <= v)%nat -> (forall x, In x q -> spares r a b e x) -> ones_to M r a b e -> ones_to N r a b e.
  Proof.
    induction 1 as [M|M si q M' out N E _ IH]; intros HM Hq HL HF; [split; [auto|]; split; [constructor|auto]|].
    destruct (div_both si M HM (Hq si ltac:(now left))) as (M1 & out1 & E1 & HM1 & K & Ho & Hp & HP).
    rewrite E in E1. assert (M1 = M' /\ out1 = out) by (split; congruence). destruct H as [-> ->]. clear E1.
    destruct (levels_head si q HL) as [L1 L2]. pose proof (levels_low si q HL) as L3.
    inversion HF as [|x0 l0 HFs HFq]; subst. rewrite Forall_forall in HFs.
    assert (HQ : forall x, In x q -> spares (irow x) (ic0 x) (ic1 x) (match idiv x with Some d => d | None => 0%nat end) si).
    { intros x Hx. destruct (Hq x ltac:(now right)) as (d & Ex & B1 & B2 & B3 & _). destruct (Hq si ltac:(now left)) as (ds & Es & S1 & S2 & S3 & _).
      split; [apply L1; now right|]. intros d' Ed'. specialize (HFs x Hx). unfold apart in HFs. rewrite Es in Ed'. simpl in Ed'.
      assert (d' = ds) by congruence. unfold harmless. lia. }
    destruct IH as (HN & HR & HK).
    - exact HM1.
    - intros x Hx. apply in_app_iff in Hx. destruct Hx as [Hx|Hx]; [|now apply Ho].
      pose proof (HQ x Hx) as Hs. destruct (Hq x ltac:(now right)) as (d & Ex & B1 & B2 & B3 & HO). exists d.
      split; [auto|]. split; [auto|]. split; [auto|]. split; [auto|]. apply K; auto. rewrite Ex in Hs. exact Hs.
    - apply L2. intros x Hx. now apply Ho.
    - apply fop_app; auto. intros x y Hx Hy. specialize (HFs x Hx). destruct (Ho y Hy) as (_ & _ & A1 & A2 & _). unfold apart in *.
      destruct HFs; [right|left]; lia.
    - split; [auto|]. split.
      + apply (runs_step argsort N si q N out N); auto. apply HP; auto. intros a b e HO Ha Hb Hs. destruct (Hq si ltac:(now left)) as (ds & Es & S1 & S2 & S3 & _).
        apply HK; [lia| |exact HO]. intros x Hx. apply in_app_iff in Hx. destruct Hx as [Hx|Hx]; [|now apply Hs].
        destruct (Hq x ltac:(now right)) as (d & Ex & B1 & B2 & B3 & _). specialize (L3 x Hx). specialize (HFs x Hx). unfold apart in HFs.
        split; [lia|]. intros d' Ed'. rewrite Ex in Ed'. simpl in Ed'. assert (d' = d) by congruence. unfold harmless. lia.
      + intros r a b e Hb Hs HO. apply HK; auto.
        * intros x Hx. apply in_app_iff in Hx. destruct Hx as [Hx|Hx]; [apply Hs; now right|]. apply Ho; auto. apply Hs. now left.
        * apply K; auto. apply Hs. now left.
  Qed.
  Lemma runs_det M q N N' : runs argsort M q N -> runs argsort M q N' -> N = N'.
  Proof.
    intros H. revert N'. induction H as [M|M si q M' out N E _ IH]; intros N' H'; inversion H' as [|? ? ? M1 out1 ? E1 R1]; subst; auto.
    rewrite E in E1. apply IH. assert (M1 = M' /\ out1 = out) as [<- <-] by (split; congruence). exact R1.
  Qed.
  Lemma iter_runs n : forall M q, match iter2 n (sort_step argsort) (M, q) with
    | inl (M', q') => forall N, runs argsort M' q' N -> runs argsort M q N
    | inr (Ok N) => runs argsort M q N
    | inr _ => True end.
  Proof.
    induction n as [|n IH]; intros M q; cbn [iter2].
    - destruct q as [|si q]; cbn [sort_step]; [constructor|]. destruct (div_sort argsort si M) as [[M' out]| |e] eqn:E; auto.
      intros N H. now apply (runs_step argsort M si q M' out N).
    - pose proof (IH M q) as H1. destruct (iter2 n (sort_step argsort) (M, q)) as [[M1 q1]|r]; auto.
      pose proof (IH M1 q1) as H2. destruct (iter2 n (sort_step argsort) (M1, q1)) as [[M2 q2]|[N| |e]]; auto.
  Qed.
  Lemma while_runs n M q N : while_ n (sort_step argsort) (M, q) = Ok N -> runs argsort M q N.
  Proof.
    unfold while_. pose proof (iter_runs n M q) as H. destruct (iter2 n (sort_step argsort) (M, q)) as [[M1 q1]|r]; [discriminate|].
    intros ->. exact H.
  Qed.
  Lemma no_div n M N : while_ n (sort_step argsort) (M, [Ins 0 1 v None]) = Ok N -> False.
  Proof.
    unfold while_. assert (EE : forall n, iter2 n (sort_step argsort) (M, [Ins 0 1 v None]) = inr (Raise TypeError)); [|rewrite EE; discriminate].
    clear. induction n as [|n IH]; simpl; [reflexivity|]. now rewrite IH.
  Qed.

  Lemma maximize_idem M N : symmetric v M -> binary v M -> maximize argsort M = Ok N -> maximize argsort N = Ok N.
  Proof.
    intros HM HB E. assert (HL : length M = v) by apply HM.
    destruct (maximize_proof argsort v M Harg HM) as [[(j & Hj & E0) (N' & E' & HN & HG)]|[_ E']]; [|congruence].
    assert (N' = N) by congruence. subst N'. clear E'. assert (HLN : length N = v) by apply HN.
    unfold maximize in E. rewrite HL in E.
    destruct (sort_moves 0 1 v M (conj HM HB) ltac:(lia) (Nat.le_refl v)) as (M1 & d & E1 & HM1 & Hd & HO & _).
    rewrite E1 in E. cbn [bind fst snd] in E. unfold div_of in E. destruct (Nat.ltb_spec d v) as [Ld|Ld].
    2:{ now apply no_div in E. }
    assert (Q1 : queued M1 (Ins 0 1 v (Some d))) by (exists d; simpl; repeat (split; [auto; lia|]); exact HO).
    destruct (runs_again M1 [Ins 0 1 v (Some d)] N (while_runs _ _ _ _ E) HM1) as (HN' & R & K).
    { intros x [<-|[]]. exact Q1. }
    { exists 0%nat, [Ins 0 1 v (Some d)], []. split; [auto|]. split; [now intros x [<-|[]]|intros x []]. }
    { repeat constructor. }
    assert (HON : ones_to N 0 1 v d).
    { apply K; auto. intros x [<-|[]]. split; [simpl; lia|]. cbn [idiv ic0 ic1]. intros d' Ed'. assert (d' = d) by congruence. unfold harmless. lia. }
    destruct (maximize_proof argsort v N Harg HN) as [[_ (P & EP & _)]|[H0 _]].
    2:{ exfalso. apply (H0 d); [lia|]. rewrite HON by (unfold inside; lia). now rewrite Nat.ltb_irrefl. }
    rewrite EP. f_equal. unfold maximize in EP. rewrite HLN in EP.
    rewrite (sort_still 0 1 v d N HN' ltac:(lia) (Nat.le_refl v) Hd HON) in EP. cbn [bind fst snd] in EP.
    unfold div_of in EP. destruct (Nat.ltb_spec d v); [|lia].
    apply (runs_det N [Ins 0 1 v (Some d)]); [now apply (while_runs (S v))|exact R].
  Qed.
End idem.
