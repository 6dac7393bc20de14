(** More about elimination: it is exact on solvable systems (C11), and what it
    does with columns of zeros in front (C90). *)
From Coq Require Import ZifyBool ZifyNat Sorting.Sorted.
From Verif Require Import Np ModelGauss Model Spec Lib BitFacts Cone ElimFacts ElimProps QFacts Total WideElim.

(** ** solvable systems *)
Lemma cone_same C S r v y z : wide C S -> holds S y -> holds S z -> cone C S r v -> dot r y = dot r z.
Proof.
  intros HS Hy Hz. induction 1 as [v Hv|row b r v Hin H IH]; [now rewrite !dot_repeat0|].
  assert (L : length row = length r) by (rewrite (HS _ _ Hin), (cone_length _ _ _ _ HS H); reflexivity).
  rewrite !dot_vadd by exact L. rewrite (Hy _ _ Hin), (Hz _ _ Hin). lia.
Qed.
Theorem elim_solvable_proof A b : elim_input A b -> (exists y, solves (mrows A) b y) ->
  exists A' b', elim A b = Ok (A', b') /\ forall x, solves (mrows A') b' x <-> solves (mrows A) b x.
Proof.
  intros HI (y & Hy). destruct (elim_input_spec A b HI) as (A' & b' & HE & HR). exists A', b'. split; [exact HE|].
  assert (L' : length (mrows A') = length b') by (symmetry; apply (er_len _ _ _ _ _ HR)).
  assert (L : length (mrows A) = length b) by apply HI.
  intros x. split; intros Hx; [|apply holds_solves; [exact L'|]; apply (er_sol _ _ _ _ _ HR); now apply holds_solves].
  apply holds_solves; [exact L|]. apply holds_solves in Hx; [|exact L']. apply holds_solves in Hy; [|exact L].
  intros row v Hin. rewrite <- (Hy _ _ Hin).
  apply (cone_same (mcols A) (msys (mrows A') b') row v); [|exact Hx|now apply (er_sol _ _ _ _ _ HR)|now apply (er_cone _ _ _ _ _ HR)].
  intros r z Hr. apply in_combine_l in Hr. now apply (er_rows _ _ _ _ _ HR).
Qed.

(** ** columns of zeros in front *)
Lemma pack_zeros n x : pack (repeat 0 n ++ x) = pack x.
Proof. induction n as [|n IH]; [reflexivity|]. cbn [repeat app]. now rewrite pack_zero_head. Qed.
Lemma pack_skip z row : (forall j, (j < z)%nat -> nth j row 0 = 0) -> pack (skipn z row) = pack row.
Proof.
  revert row. induction z as [|z IH]; intros row H; [reflexivity|]. destruct row as [|a row]; [reflexivity|].
  pose proof (H 0%nat ltac:(lia)) as Ha. cbn [nth] in Ha. subst a. cbn [skipn]. rewrite pack_zero_head. apply IH.
  intros j Hj. apply (H (S j)). lia.
Qed.
Lemma pack_zero row : bits row -> (length row <= 63)%nat -> (pack row = 0 <-> forall j, nth j row 0 = 0).
Proof.
  induction row as [|a row IH]; intros HB L.
  - split; [intros _ [|j]; reflexivity|reflexivity].
  - assert (HB' : bits row) by (intros x Hx; apply HB; now right). cbn [length] in L.
    assert (Ha : a = 0 \/ a = 1) by (apply HB; now left). destruct Ha as [-> | ->].
    + rewrite pack_zero_head, (IH HB' ltac:(lia)). split; [intros H [|j]; [reflexivity|apply H]|intros H j; apply (H (S j))].
    + split; intros H; [|specialize (H 0%nat); discriminate]. exfalso.
      rewrite binary_value_pack in H by (auto; cbn [length]; lia). cbn [binary_value] in H.
      rewrite <- (binary_value_pack row) in H by (auto; lia).
      pose proof (pack_range row HB' ltac:(lia)). pose proof (Z.pow_pos_nonneg 2 (Z.of_nat (length row))). lia.
Qed.
Lemma encode_good C A b E : (1 <= C <= 63)%nat -> (forall row, In row (mrows A) -> length row = C /\ bits row) ->
  (forall x, In x b -> 0 <= x) -> map ekey E = map pack (mrows A) -> map eval_ E = b -> Forall (good C (zsum b)) E.
Proof.
  intros HC Hr Hx Hk Hv. apply Forall_forall. intros e He. split.
  - assert (Hin : In (ekey e) (map pack (mrows A))) by (rewrite <- Hk; now apply in_map).
    apply in_map_iff in Hin. destruct Hin as (row & <- & Hrow). destruct (Hr _ Hrow) as [<- HB]. apply pack_range; auto; lia.
  - assert (Hin : In (eval_ e) b) by (rewrite <- Hv; now apply in_map). split; [now apply Hx|].
    clear - Hx Hin. induction b as [|y b IH]; [easy|]. rewrite zsum_cons.
    assert (0 <= zsum b) by (apply zsum_nonneg; intros; apply Hx; now right). pose proof (Hx y (or_introl eq_refl)).
    destruct Hin as [->|Hin]; [lia|]. specialize (IH ltac:(intros; apply Hx; now right) Hin). lia.
Qed.
Lemma entries_ext E : forall E', map ekey E = map ekey E' -> map eval_ E = map eval_ E' -> map eidx E = map eidx E' -> E = E'.
Proof.
  induction E as [|[[a i] x] E IH]; intros [|[[a' i'] x'] E'] H1 H2 H3; try discriminate; [reflexivity|].
  unfold ekey, eidx, eval_ in *. cbn [map fst snd] in *. injection H1 as -> H1. injection H2 as -> H2. injection H3 as -> H3.
  f_equal. now apply IH.
Qed.
Theorem elim_leading_proof A b z : (mcols A <= 63)%nat -> (z < mcols A)%nat -> length b = mnrows A ->
  (forall row, In row (mrows A) -> length row = mcols A /\ bits row) -> (forall x, In x b -> 0 <= x) ->
  (forall row j, In row (mrows A) -> (j < z)%nat -> nth j row 0 = 0) ->
  elim A b = elim (Mat (mcols A - z) (map (skipn z) (mrows A))) b.
Proof.
  intros HC Hz Hb Hr Hx H0. set (A' := Mat (mcols A - z) (map (skipn z) (mrows A))).
  assert (HN : mnrows A' = mnrows A) by (unfold mnrows, A'; cbn [mrows]; apply map_length).
  destruct (encode_any A b ltac:(lia) Hb) as (E & HE & Hk & Hv & Hi & Hl).
  destruct (encode_any A' b ltac:(cbn; lia) ltac:(congruence)) as (E' & HE' & Hk' & Hv' & Hi' & Hl').
  assert (E' = E) as ->.
  { apply entries_ext; [|congruence|congruence]. rewrite Hk, Hk'. unfold A'. cbn [mrows]. rewrite map_map.
    apply map_ext_in. intros row Hrow. apply pack_skip. intros j Hj. now apply H0. }
  unfold elim. rewrite HE, HE'. cbn [bind]. rewrite HN. change (mcols A') with (mcols A - z)%nat.
  assert (Hr' : forall row, In row (mrows A') -> length row = (mcols A - z)%nat /\ bits row).
  { intros row Hrow. apply in_map_iff in Hrow. destruct Hrow as (r & <- & Hrow). destruct (Hr _ Hrow) as [L HB].
    split; [rewrite skipn_length; lia|]. intros x Hx'. apply HB. rewrite <- (firstn_skipn z r). apply in_or_app. now right. }
  pose proof (encode_good (mcols A - z) A' b E ltac:(lia) Hr' Hx Hk' Hv) as HG.
  destruct (elim_core_spec (mcols A - z) (zsum b) (mnrows A) E HG ltac:(lia)) as (E1 & HE1 & _).
  rewrite HE1, (elim_core_more (2 * mnrows A + (mcols A - z) + 1) (2 * mnrows A + mcols A + 1) _ _ ltac:(lia) HE1). reflexivity.
Qed.
Theorem elim_stop_proof A b : (1 <= mcols A <= 63)%nat -> length b = mnrows A ->
  (forall row, In row (mrows A) -> length row = mcols A /\ bits row) -> (forall x, In x b -> 0 <= x) ->
  (elim A b = Raise StopIteration <-> forall row j, In row (mrows A) -> nth j row 0 = 0).
Proof.
  intros HC Hb Hr Hx. destruct (encode_any A b ltac:(lia) Hb) as (E & HE & Hk & Hv & Hi & Hl).
  pose proof (encode_good (mcols A) A b E HC Hr Hx Hk Hv) as HG.
  destruct (elim_core_spec (mcols A) (zsum b) (mnrows A) E HG ltac:(lia)) as (E1 & HE1 & _ & HP & HR & _).
  unfold elim. rewrite HE. cbn [bind]. rewrite HE1. cbn [bind]. split.
  - intros HD row j Hrow. assert (E1 = []) as -> by (destruct E1; [reflexivity|cbn in HD; discriminate]).
    destruct (Hr _ Hrow) as [L HB]. apply pack_zero; [exact HB|lia|].
    assert (Hin : In (pack row) (map ekey E)) by (rewrite Hk; now apply in_map).
    apply in_map_iff in Hin. destruct Hin as (e & He & Hin). rewrite <- He.
    pose proof (red_cone _ _ _ _ HR e Hin) as HCo. cbn in HCo.
    assert (HZ : row_of (mcols A) (ekey e) = repeat 0 (mcols A)) by (inversion HCo; [reflexivity|easy]).
    rewrite Forall_forall in HG. pose proof (proj1 (HG _ Hin)) as HK.
    rewrite <- (pack_row_of (mcols A) (ekey e)) by lia. rewrite HZ. rewrite <- (app_nil_r (repeat 0 _)). apply pack_zeros.
  - intros H0. destruct E1 as [|e E1]; [reflexivity|exfalso].
    assert (HZ : remove_zerokeys E = []).
    { assert (F : forall x, In x E -> ekey x = 0).
      { intros x Hin. assert (Hin' : In (ekey x) (map pack (mrows A))) by (rewrite <- Hk; now apply in_map).
        apply in_map_iff in Hin'. destruct Hin' as (row & <- & Hrow). destruct (Hr _ Hrow) as [L HB].
        apply pack_zero; [exact HB|lia|]. intros j. now apply H0. }
      clear - F. unfold remove_zerokeys. induction E as [|x E IH]; [reflexivity|]. cbn [filter].
      rewrite (F x (or_introl eq_refl)). cbn. apply IH. intros; apply F; now right. }
    unfold elim_core in HE1. rewrite HZ in HE1. cbn in HE1. discriminate.
Qed.
(** the solver's step: the number of columns must stay the same *)
Theorem eliminate_first_proof Q : (1 <= mcols (qA Q) <= 63)%nat -> length (qb Q) = mnrows (qA Q) -> length (qbounds Q) = mcols (qA Q) ->
  (forall row, In row (mrows (qA Q)) -> length row = mcols (qA Q) /\ bits row) -> (forall x, In x (qb Q) -> 0 <= x) ->
  (forall row, In row (mrows (qA Q)) -> nth 0 row 0 = 0) ->
  eliminate Q = Raise AssertionError \/ eliminate Q = Raise StopIteration.
Proof.
  intros HC Hb HB Hr Hx H0. unfold eliminate, eliminate_body. destruct (Nat.eqb_spec (mcols (qA Q)) 0) as [E|_]; [lia|].
  destruct (Nat.eq_dec (mcols (qA Q)) 1) as [E1|N1].
  { assert (HS : elim (qA Q) (qb Q) = Raise StopIteration).
    { apply elim_stop_proof; auto. intros row j Hrow. destruct j as [|j]; [auto|]. destruct (Hr _ Hrow). apply nth_overflow. lia. }
    rewrite HS. now right. }
  rewrite (elim_leading_proof _ _ 1) by (auto; try lia; intros row j Hrow Hj; replace j with 0%nat by lia; auto).
  set (A' := Mat (mcols (qA Q) - 1) (map (skipn 1) (mrows (qA Q)))).
  destruct (elim_any A' (qb Q)) as [[-> |(A2 & b2 & E)] HS].
  { cbn. lia. } { unfold mnrows, A' in *. cbn [mrows]. now rewrite map_length. }
  { intros row Hrow. apply in_map_iff in Hrow. destruct Hrow as (r & <- & Hrow). destruct (Hr _ Hrow) as [L HBi].
    split; [rewrite skipn_length; cbn [A' mcols]; lia|]. intros x Hin. apply HBi. rewrite <- (firstn_skipn 1 r). apply in_or_app. now right. }
  { exact Hx. }
  { now right. }
  left. rewrite E. cbn [bind]. destruct (nonneg b2); [|reflexivity]. cbn [assert_ bind]. unfold post_check. cbn [qA qb qbounds].
  pose proof (es_cols _ _ _ _ (HS _ _ E)) as L1. pose proof (es_cols63 _ _ _ _ (HS _ _ E)) as L2. cbn [A' mcols] in L1.
  destruct (Nat.eqb_spec (mcols A2) 0) as [E0|_]; [lia|]. cbn [andb].
  destruct (Nat.eqb_spec (length (qbounds Q)) (mcols A2)) as [E0|_]; [lia|reflexivity].
Qed.
