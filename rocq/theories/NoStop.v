(** Row questions in which every unknown occurs in an equation never end in a
    StopIteration (C90). *)
From Coq Require Import ZifyBool ZifyNat.
From Verif Require Import Np ModelGauss Model Spec Lib BitFacts Cone ElimFacts ElimProps QFacts StepFacts ForkFacts AnyFacts Total WideElim ElimMore.

Definition nost {A} (r : res A) : Prop := r <> Raise StopIteration.
Ltac no := unfold nost; discriminate.
Lemma nost_bind {A B} (x : res A) (f : A -> res B) : nost x -> (forall a, x = Ok a -> nost (f a)) -> nost (bind x f).
Proof. unfold nost. destruct x; cbn [bind]; intros H1 H2; auto; [discriminate|]. intros E. apply H1. now injection E as ->. Qed.
Lemma nost_assert c : nost (assert_ c).
Proof. destruct c; no. Qed.
Lemma nost_mapM {A B} (f : A -> res B) l : (forall a, In a l -> nost (f a)) -> nost (mapM f l).
Proof.
  induction l as [|a l IH]; intros H; cbn [mapM]; [no|]. apply nost_bind; [apply H; now left|]. intros b _.
  apply nost_bind; [apply IH; intros; apply H; now right|]. intros; no.
Qed.
Lemma nost_mk_answer v loc n : nost (mk_answer v loc n).
Proof.
  unfold mk_answer. apply nost_bind; [apply nost_assert|]. intros _ _. apply nost_bind; [|intros; no].
  destruct loc; [no|]. do 2 (apply nost_bind; [apply nost_assert|]; intros _ _). apply nost_assert.
Qed.
Lemma nost_mk_question A b q bd a : nost (mk_question A b q bd a).
Proof.
  unfold mk_question. do 5 (apply nost_bind; [apply nost_assert|]; intros _ _).
  apply nost_bind; [|intros; no]. destruct a; [no|]. apply nost_mk_answer.
Qed.
Lemma nost_answer_quota a : nost (answer_quota a).
Proof. unfold answer_quota. cbv zeta. apply nost_bind; [apply nost_assert|]. intros; no. Qed.
Lemma nost_post_check Q : nost (post_check Q).
Proof.
  unfold post_check. cbv zeta. destruct (_ && _); [no|]. apply nost_bind; [apply nost_assert|]. intros _ _.
  destruct (_ && _); [no|]. apply nost_bind; [apply nost_answer_quota|]. intros. destruct (any2 _ _ _); no.
Qed.
Lemma nost_question_copy Q : nost (question_copy Q).
Proof. unfold question_copy. apply nost_bind; [apply nost_mk_answer|]. intros. apply nost_mk_question. Qed.
Lemma nost_spend xs : forall q, nost (spend xs q).
Proof. induction xs as [|x xs IH]; intros q; cbn [spend]; [no|]. apply nost_bind; [apply nost_assert|]. intros; apply IH. Qed.
Lemma nost_reduce_col Q : nost (reduce_col Q).
Proof.
  unfold reduce_col, reduce_col_body. cbv zeta. apply nost_bind; [|intros; apply nost_post_check]. destruct (_ <? 2)%nat; [no|].
  apply nost_bind; [unfold unique_encode; destruct (Nat.eqb _ 0); no|]. intros enc _. destruct (_ <? _)%nat; [no|]. destruct (existsb _ _); [no|].
  apply nost_bind; [apply nost_assert|]. intros _ _. apply nost_bind; [apply nost_mk_answer|]. intros a _.
  apply nost_bind; [apply nost_assert|]. intros; no.
Qed.
Lemma nost_zero_in_b Q : nost (zero_in_b Q).
Proof.
  unfold zero_in_b, zero_in_b_body. cbv zeta. apply nost_bind; [|intros; apply nost_post_check].
  do 2 (apply nost_bind; [apply nost_assert|]; intros _ _). no.
Qed.
Lemma nost_only_1 Q : nost (only_1_element_in_row Q).
Proof.
  unfold only_1_element_in_row, only_1_body, only_1_with. cbv zeta. apply nost_bind; [|intros; apply nost_post_check].
  apply nost_bind; [apply nost_assert|]. intros _ _. rewrite match_nil. destruct (Nat.eqb _ 0); [no|].
  destruct (existsb _ _); [no|]. destruct (_ <? _); [no|]. destruct (any2 _ _ _); [no|]. apply nost_bind; [apply nost_spend|]. intros q _.
  do 2 (apply nost_bind; [apply nost_assert|]; intros _ _). no.
Qed.
Lemma nost_fork_enum Q : nost (fork_enum Q).
Proof.
  unfold fork_enum. apply nost_bind; [apply nost_post_check|]. intros _ _. apply nost_bind; [apply nost_assert|]. intros _ _.
  apply nost_bind; [unfold argmin; destruct (qbounds Q); no|]. intros m _. apply nost_bind; [|intros; no]. apply nost_mapM. intros q _.
  unfold fork_one. cbv zeta. destruct (existsb _ _); [no|]. apply nost_bind; [apply nost_mk_answer|]. intros a _.
  apply nost_bind; [apply nost_mk_question|]. intros; no.
Qed.
Lemma nost_binarize a : nost (binarize a).
Proof.
  unfold binarize. apply nost_bind; [apply nost_assert|]. intros _ _. apply nost_bind; [apply nost_answer_quota|]. intros q _.
  apply nost_bind; [apply nost_assert|]. intros; no.
Qed.

(** ** every unknown occurs *)
Definition covers (C : nat) (rows : list (list Z)) : Prop := forall j, (j < C)%nat -> exists row, In row rows /\ nth j row 0 = 1.
Lemma covers_pick C rows js : covers C rows -> (forall j, In j js -> (j < C)%nat) -> covers (length js) (map (pick 0 js) rows).
Proof.
  intros H Hj i Hi. destruct (H (nth i js 0%nat)) as (row & Hin & E); [apply Hj; now apply nth_In|].
  exists (pick 0 js row). split; [now apply in_map|]. now rewrite nth_pick.
Qed.
Lemma covers_delete C rows cs : (forall row, In row rows -> length row = C) -> NoDup cs -> (forall j, In j cs -> (j < C)%nat) ->
  covers C rows -> covers (C - length cs) (map (delete cs) rows).
Proof.
  intros HL HN Hc H. destruct (keep_length cs C HN Hc) as [<- _].
  assert (E : map (delete cs) rows = map (pick 0 (keep cs C)) rows).
  { apply map_ext_in. intros row Hr. rewrite (delete_pick 0). now rewrite (HL _ Hr). }
  rewrite E. apply (covers_pick C); [exact H|]. intros j Hj. now apply in_keep in Hj.
Qed.
Definition covered (Q : question) : Prop := covers (qcols Q) (mrows (qA Q)).
Lemma loose_len Q : loose Q -> forall row, In row (mrows (qA Q)) -> length row = qcols Q.
Proof. intros HL row Hr. now apply (lo_rows _ HL). Qed.

Lemma groups_nonempty l : forall d : list (Z * list nat), (forall p, In p d -> snd p <> []) ->
  forall p, In p (fold_left (fun d kj => group_add (fst kj) (snd kj) d) l d) -> snd p <> [].
Proof.
  induction l as [|[k j] l IH]; intros d Hd; cbn [fold_left fst snd]; [exact Hd|]. apply IH. intros p Hp.
  destruct (group_add_cases k j d) as [E|(d1 & ls & d2 & E1 & E2)].
  - rewrite E in Hp. apply in_app_iff in Hp. destruct Hp as [Hp|[<-|[]]]; [auto|discriminate].
  - rewrite E2 in Hp. apply in_app_iff in Hp. destruct Hp as [Hp|[<-|Hp]]; [apply Hd; rewrite E1; apply in_app_iff; now left| |apply Hd; rewrite E1; apply in_app_iff; right; now right].
    cbn [snd]. destruct ls; discriminate.
Qed.
Lemma covered_reduce_col Q Q' : loose Q -> covered Q -> reduce_col Q = Ok Q' -> covered Q'.
Proof.
  intros HL HC H. unfold reduce_col in H. apply bind_ok in H. destruct H as (Q1 & H & HP). apply post_check_id in HP. subst Q1.
  unfold reduce_col_body in H. cbv zeta in H. destruct (_ <? 2)%nat; [now injection H as <-|].
  apply bind_ok in H. destruct H as (enc & He & H).
  assert (Le : length enc = qcols Q).
  { unfold unique_encode in He. destruct (Nat.eqb _ 0); [discriminate|]. injection He as <-. now rewrite map_length, seq_length. }
  destruct (_ <? _)%nat; [discriminate|]. destruct (existsb _ _); [discriminate|].
  apply bind_ok in H. destruct H as (u1 & _ & H). apply bind_ok in H. destruct H as (a & _ & H). apply bind_ok in H. destruct H as (u2 & _ & H).
  injection H as <-. unfold covered, qcols. cbn [qA mcols mrows]. apply (covers_pick (qcols Q)); [exact HC|].
  intros j Hj. apply in_map_iff in Hj. destruct Hj as (ls & <- & Hls). rewrite <- Le. apply (groups_in enc ls); [exact Hls|].
  unfold groups in Hls. apply in_map_iff in Hls. destruct Hls as (p & <- & Hp).
  apply groups_nonempty in Hp; [|easy]. destruct (snd p); [easy|now left].
Qed.
Lemma covered_zero_in_b Q Q' : loose Q -> covered Q -> zero_in_b Q = Ok Q' -> covered Q'.
Proof.
  intros HL HC H. unfold zero_in_b in H. apply bind_ok in H. destruct H as (Q1 & H & HP). apply post_check_id in HP. subst Q1.
  unfold zero_in_b_body in H. cbv zeta in H. change (lower_upper_bound (mrows (qA Q)) (qb Q) (qbounds Q)) with (qbounds (tighten Q)) in H.
  apply bind_ok in H. destruct H as (u1 & _ & H). apply bind_ok in H. destruct H as (u2 & _ & H). pose proof (tighten_len Q HL) as HT.
  remember (qbounds (tighten Q)) as bd eqn:Ebd. injection H as <-. unfold covered, qcols. cbn [qA mcols mrows].
  apply covers_delete; [now apply loose_len|apply where_NoDup| |exact HC].
  intros j Hj. apply (where_spec _ 0) in Hj. unfold qcols in HT. lia.
Qed.
Lemma covered_only_1 Q Q' : loose Q -> covered Q -> only_1_element_in_row Q = Ok Q' -> covered Q'.
Proof.
  intros HL HC H. unfold only_1_element_in_row in H. apply bind_ok in H. destruct H as (Q1 & H & HP). apply post_check_id in HP. subst Q1.
  destruct (locs_rcs _ _ (one_element_row_locs_ok (mrows (qA Q)))) as [HN HI].
  unfold only_1_body in H. set (rcs := one_element_row_locs (mrows (qA Q))) in *. unfold only_1_with in H. cbv zeta in H.
  rewrite match_nil in H. apply bind_ok in H. destruct H as (u & _ & H). destruct (Nat.eqb _ 0); [now injection H as <-|].
  destruct (existsb _ _); [discriminate|]. destruct (_ <? _); [discriminate|]. destruct (any2 _ _ _); [discriminate|].
  apply bind_ok in H. destruct H as (q' & _ & H). apply bind_ok in H. destruct H as (u1 & _ & H). apply bind_ok in H. destruct H as (u2 & _ & H).
  injection H as <-. unfold covered, qcols. cbn [qA mcols mrows]. apply covers_delete; [now apply loose_len|exact HN| |exact HC].
  intros j Hj. apply in_map_iff in Hj. destruct Hj as ([r c] & <- & Hrc). destruct (HI r c Hrc) as [Hr Hs]. apply single_iff in Hs.
  destruct (lo_rows _ HL (nth r (mrows (qA Q)) [])) as [Lr _]; [now apply nth_In|]. cbn [snd]. unfold qcols in Lr. rewrite <- Lr. apply Hs.
Qed.
Lemma covered_fork Q qs : loose Q -> covered Q -> fork_enum Q = Ok qs -> forall Q', In Q' qs -> covered Q'.
Proof.
  intros HL HC H. unfold fork_enum in H. apply bind_ok in H. destruct H as (? & _ & H). apply bind_ok in H. destruct H as (? & _ & H).
  apply bind_ok in H. destruct H as (m & Hm & H). apply bind_ok in H. destruct H as (os & Ho & H). injection H as <-.
  assert (Hmc : (m < length (qbounds Q))%nat).
  { destruct (argmin_lt (qbounds Q)) as (m' & E & L); [intros E; rewrite E in Hm; discriminate|]. rewrite E in Hm. injection Hm as <-. exact L. }
  rewrite (lo_bdlen _ HL) in Hmc.
  intros Q' Hin. apply in_flat_map in Hin. destruct Hin as ([q|] & Hin & HQ); [|easy]. destruct HQ as [<-|[]].
  destruct (mapM_in _ _ _ _ Ho Hin) as (c & _ & Hc). unfold fork_one in Hc. cbv zeta in Hc. destruct (existsb _ _); [discriminate|].
  apply bind_ok in Hc. destruct Hc as (a & _ & Hc). apply bind_ok in Hc. destruct Hc as (Q1 & H1 & Hc). injection Hc as ->.
  unfold mk_question in H1. do 5 (apply bind_ok in H1; destruct H1 as (? & _ & H1)). cbn [bind] in H1. injection H1 as <-.
  unfold covered, qcols. cbn [qA mcols mrows]. apply (covers_delete (qcols Q) _ [m]); [now apply loose_len| | |exact HC].
  - constructor; [easy|constructor].
  - intros j [<-|[]]. exact Hmc.
Qed.

(** ** elimination keeps the unknowns *)
Lemma elim_covers A b A' b' : (1 <= mcols A <= 63)%nat -> length b = mnrows A ->
  (forall row, In row (mrows A) -> length row = mcols A /\ bits row) -> (forall x, In x b -> 0 <= x) ->
  covers (mcols A) (mrows A) -> elim A b = Ok (A', b') -> mcols A' = mcols A -> covers (mcols A) (mrows A').
Proof.
  intros HC Hb Hr Hx HV HE HD. destruct (encode_any A b ltac:(lia) Hb) as (E & HE0 & Hk & Hv & Hi & Hl).
  pose proof (encode_good (mcols A) A b E HC Hr Hx Hk Hv) as HG.
  destruct (elim_core_spec (mcols A) (zsum b) (mnrows A) E HG ltac:(lia)) as (E1 & HE1 & _ & HP & HR & _).
  unfold elim in HE. rewrite HE0 in HE. cbn [bind] in HE. rewrite HE1 in HE. cbn [bind] in HE.
  pose proof (red_good _ _ _ _ HR) as HG1. rewrite Forall_forall in HG, HG1.
  assert (EA : mrows A' = map (fun e => row_of (mcols A) (ekey e)) E1).
  { unfold decode in HE. rewrite match_nil in HE. destruct (Nat.eqb _ 0); [discriminate|]. injection HE as <- _. cbn [mrows mcols] in *. rewrite HD.
    rewrite map_map. apply map_ext_in. intros e He. apply pad_left_dec2bin. pose proof (proj1 (HG1 _ He)). pose proof (HP _ He). lia. }
  rewrite EA. intros j Hj. destruct (HV j Hj) as (row & Hrow & E0). destruct (Hr _ Hrow) as [Lr Br].
  assert (Hin : In (pack row) (map ekey E)) by (rewrite Hk; now apply in_map). apply in_map_iff in Hin. destruct Hin as (e & Ek & Hin).
  pose proof (red_cone _ _ _ _ HR e Hin) as HCo.
  assert (HW : row_of (mcols A) (ekey e) = row) by (rewrite Ek, <- Lr; apply row_of_pack; auto; lia).
  rewrite HW in HCo.
  destruct (cone_column_one (mcols A) (esys (mcols A) E1) row (eval_ e) j (esys_wide _ _)) as (r1 & b1 & Hin1 & E2 & _); auto; [|lia|].
  - intros r1 b1 H1. apply in_map_iff in H1. destruct H1 as (e1 & Ee & He1). injection Ee as <- <-. split; [apply row_of_bits|].
    apply (HG1 _ He1).
  - apply in_map_iff in Hin1. destruct Hin1 as (e1 & Ee & He1). injection Ee as <- <-. exists (row_of (mcols A) (ekey e1)).
    split; [apply in_map_iff; eauto|exact E2].
Qed.
Lemma eliminate_covered Q : loose Q -> covered Q -> (qcols Q <= 63)%nat -> nost (eliminate Q) /\ forall Q', eliminate Q = Ok Q' -> covered Q'.
Proof.
  intros HL HC H63. unfold eliminate, eliminate_body. fold (qcols Q). destruct (Nat.eqb_spec (qcols Q) 0) as [E0|N0].
  { cbn [bind]. split; [apply nost_post_check|]. intros Q' H. apply post_check_id in H. now subst Q'. }
  split.
  - apply nost_bind; [|intros; apply nost_post_check]. apply nost_bind; [|intros [A' b'] _; apply nost_bind; [apply nost_assert|intros; no]].
    intros HS. pose proof (proj1 (elim_stop_proof (qA Q) (qb Q) ltac:(unfold qcols in *; lia) (lo_blen _ HL) (lo_rows _ HL) (lo_b _ HL)) HS) as H0.
    destruct (HC 0%nat ltac:(lia)) as (row & Hrow & E). rewrite (H0 row 0%nat Hrow) in E. discriminate.
  - intros Q' H. apply bind_ok in H. destruct H as (Q1 & H & HP). pose proof (post_check_bounds _ _ HP) as HD. apply post_check_id in HP. subst Q1.
    apply bind_ok in H. destruct H as ([A' b'] & HA & H). apply bind_ok in H. destruct H as (u & _ & H). injection H as <-.
    unfold covered, qcols in *. cbn [qA qbounds] in *.
    assert (ED : mcols A' = mcols (qA Q)) by (rewrite <- HD; apply (lo_bdlen _ HL)). rewrite ED.
    apply (elim_covers (qA Q) (qb Q) A' b'); auto; [lia|apply (lo_blen _ HL)|apply (lo_rows _ HL)|apply (lo_b _ HL)].
Qed.

(** ** the loops *)
Lemma while_keeps {S A} (I : S -> Prop) (P : res A -> Prop) (step : S -> S + res A) n :
  (forall s, I s -> match step s with inl s' => I s' | inr r => P r end) -> P (Raise OutOfFuel) -> forall s, I s -> P (while_ n step s).
Proof.
  intros H HF. unfold while_.
  assert (G : forall s, I s -> match iter2 n step s with inl s' => I s' | inr r => P r end).
  { induction n as [|n IH]; intros s Hs; cbn [iter2]; [now apply H|]. pose proof (IH s Hs) as H1. destruct (iter2 n step s) as [s'|r]; [now apply IH|exact H1]. }
  intros s Hs. specialize (G s Hs). now destruct (iter2 n step s).
Qed.
Record plain (Q : question) : Prop := { pl_loose : loose Q; pl_covered : covered Q; pl_cols : (qcols Q <= 63)%nat }.
Lemma plain_less Q Q' : plain Q -> less Q Q' -> covered Q' -> plain Q'.
Proof. intros [H1 H2 H3] [L1 L2 L3] HC. constructor; auto; lia. Qed.
Lemma refine_step_plain Q : plain Q -> match refine_step Q with inl Q' => plain Q' | inr r => nost r /\ forall Q', r = Ok Q' -> plain Q' end.
Proof.
  intros HQ. pose proof (pl_loose _ HQ) as HL. unfold refine_step.
  destruct (question_copy Q) as [Qd| |e] eqn:EC; cbn [bind]; [|split; no|split; [|discriminate]; pose proof (nost_question_copy Q) as E; now rewrite EC in E].
  destruct (reduce_col Q) as [Q1| |e] eqn:E1; cbn [bind]; [|split; no|split; [|discriminate]; pose proof (nost_reduce_col Q) as E; now rewrite E1 in E].
  pose proof (plain_less Q Q1 HQ (proj1 (reduce_col_less Q Q1 HL E1)) (covered_reduce_col Q Q1 HL (pl_covered _ HQ) E1)) as P1.
  destruct (eliminate_covered Q1 (pl_loose _ P1) (pl_covered _ P1) (pl_cols _ P1)) as [N2 C2].
  destruct (eliminate Q1) as [Q2| |e] eqn:E2; cbn [bind]; [|split; no|split; [exact N2|discriminate]].
  pose proof (plain_less Q1 Q2 P1 (proj1 (proj2 (eliminate_any Q1 (pl_loose _ P1)) Q2 E2)) (C2 Q2 eq_refl)) as P2.
  destruct (zero_in_b Q2) as [Q3| |e] eqn:E3; cbn [bind]; [|split; no|split; [|discriminate]; pose proof (nost_zero_in_b Q2) as E; now rewrite E3 in E].
  pose proof (plain_less Q2 Q3 P2 (proj1 (proj2 (zero_in_b_any Q2 (pl_loose _ P2)) Q3 E3)) (covered_zero_in_b Q2 Q3 (pl_loose _ P2) (pl_covered _ P2) E3)) as P3.
  destruct (only_1_element_in_row Q3) as [Q4| |e] eqn:E4; cbn [bind]; [|split; no|split; [|discriminate]; pose proof (nost_only_1 Q3) as E; now rewrite E4 in E].
  pose proof (plain_less Q3 Q4 P3 (proj1 (proj2 (only_1_any Q3 (pl_loose _ P3)) Q4 E4)) (covered_only_1 Q3 Q4 (pl_loose _ P3) (pl_covered _ P3) E4)) as P4.
  destruct (question_eqb Q4 Qd); [|exact P4]. split; [no|]. intros Q' E. now injection E as <-.
Qed.
Lemma refine_plain Q : plain Q -> nost (refine Q) /\ forall Q', refine Q = Ok Q' -> plain Q'.
Proof.
  intros HQ. unfold refine. apply (while_keeps plain (fun r => nost r /\ forall Q', r = Ok Q' -> plain Q')); [|split; no|exact HQ].
  apply refine_step_plain.
Qed.
Lemma question_step_plain s : (forall P, In P (fst s) -> plain P) ->
  match question_step s with inl s' => forall P, In P (fst s') -> plain P | inr r => nost r end.
Proof.
  destruct s as [[|P rest] out]; intros Hs; cbn [question_step fst] in *; [no|].
  assert (HP : plain P) by (apply Hs; now left). assert (Hr : forall P', In P' rest -> plain P') by (intros; apply Hs; now right).
  destruct (refine_plain P HP) as [R1 R2]. destruct (refine P) as [P'| |e]; [|exact Hr|intros E; apply R1; now injection E as ->].
  pose proof (R2 P' eq_refl) as HP'. destruct (answer_unknown (qans P')).
  - pose proof (nost_fork_enum P') as F. destruct (fork_enum P') as [qs| |e] eqn:EF; [|exact Hr|intros E; apply F; now injection E as ->].
    cbn [fst]. intros P2 Hin. apply in_app_iff in Hin. destruct Hin as [Hin|Hin]; [apply in_rev in Hin|auto].
    pose proof (pl_loose _ HP') as HL'. pose proof (proj1 (fork_enum_any P' qs HL' EF) P2 Hin) as L2.
    constructor; [exact L2|exact (covered_fork P' qs HL' (pl_covered _ HP') EF P2 Hin)|].
    enough (qcols P2 <= qcols P')%nat by (pose proof (pl_cols _ HP'); lia).
    clear - EF Hin. unfold fork_enum in EF. apply bind_ok in EF. destruct EF as (? & _ & H). apply bind_ok in H. destruct H as (? & _ & H).
    apply bind_ok in H. destruct H as (m & Hm & H). apply bind_ok in H. destruct H as (os & Ho & H). injection H as <-.
    apply in_flat_map in Hin. destruct Hin as ([q|] & Hin & HQ); [|easy]. destruct HQ as [<-|[]].
    destruct (mapM_in _ _ _ _ Ho Hin) as (c & _ & Hc). unfold fork_one in Hc. cbv zeta in Hc. destruct (existsb _ _); [discriminate|].
    apply bind_ok in Hc. destruct Hc as (a & _ & Hc). apply bind_ok in Hc. destruct Hc as (Q1 & H1 & Hc). injection Hc as ->.
    unfold mk_question in H1. do 5 (apply bind_ok in H1; destruct H1 as (? & _ & H1)). cbn [bind] in H1. injection H1 as <-.
    unfold qcols. cbn [qA mcols]. lia.
  - pose proof (nost_binarize (qans P')) as F. destruct (binarize (qans P')) as [x| |e]; [exact Hr|exact Hr|]. intros E. apply F. now injection E as ->.
Qed.
Theorem solve_question_plain Q : plain Q -> (exists xs, solve_question Q = Ok xs) \/ solve_question Q = Raise AssertionError.
Proof.
  intros HQ. pose proof (solve_question_any Q (pl_loose _ HQ)) as HA.
  assert (HN : nost (solve_question Q)).
  { unfold solve_question. apply (while_keeps (fun s => forall P, In P (fst s) -> plain P) nost); [apply question_step_plain|no|].
    intros P [<-|[]]. exact HQ. }
  destruct (solve_question Q) as [xs| |e]; [left; eauto|easy|right]. destruct e; cbn in HA; try discriminate; [reflexivity|now destruct HN].
Qed.
(** ** in terms of the constructor *)
Definition sure {A} (r : res A) : Prop := r = Raise AssertionError \/ exists a, r = Ok a.
Lemma sure_bind {A B} (x : res A) (f : A -> res B) : sure x -> (forall a, x = Ok a -> sure (f a)) -> sure (bind x f).
Proof. intros [-> |(a & ->)] H; [now left|]. now apply H. Qed.
Lemma sure_assert c : sure (assert_ c).
Proof. destruct c; [right; now exists tt|now left]. Qed.
Lemma sure_mk_answer v loc n : sure (mk_answer v loc n).
Proof.
  unfold mk_answer. apply sure_bind; [apply sure_assert|]. intros _ _. apply sure_bind; [|intros; right; eauto].
  destruct loc; [right; now exists tt|]. do 2 (apply sure_bind; [apply sure_assert|]; intros _ _). apply sure_assert.
Qed.
Lemma sure_mk_question A b q bd a : sure (mk_question A b q bd a).
Proof.
  unfold mk_question. do 5 (apply sure_bind; [apply sure_assert|]; intros _ _).
  apply sure_bind; [|intros; right; eauto]. destruct a; [right; eauto|]. apply sure_mk_answer.
Qed.
Theorem solve_question_runs_proof C A b q bd : (C <= 63)%nat -> A <> [] ->
  (forall row, In row A -> length row = C /\ bits row) ->
  (forall j, (j < C)%nat -> exists row, In row A /\ nth j row 0 = 1) -> (forall x, In x bd -> x <= 127) ->
  (Q <- mk_question (Mat C A) b q bd None ;; solve_question Q) = Raise AssertionError
  \/ exists xs, (Q <- mk_question (Mat C A) b q bd None ;; solve_question Q) = Ok xs.
Proof.
  intros HC HA Hr HV Hbd. apply (sure_bind (mk_question (Mat C A) b q bd None) solve_question); [apply sure_mk_question|].
  intros Q HQ. unfold sure. enough (HP : plain Q) by (destruct (solve_question_plain Q HP); auto).
  unfold mk_question in HQ. apply bind_ok in HQ. destruct HQ as (u1 & A1 & HQ). apply bind_ok in HQ. destruct HQ as (u2 & A2 & HQ).
  apply bind_ok in HQ. destruct HQ as (u3 & A3 & HQ). apply bind_ok in HQ. destruct HQ as (u4 & _ & HQ).
  apply bind_ok in HQ. destruct HQ as (u5 & A5 & HQ). apply bind_ok in HQ. destruct HQ as (a & Ha & HQ).
  apply assert_ok in A1, A2, A3, A5. apply Nat.eqb_eq in A1, A2. injection HQ as <-.
  constructor; [constructor|..]; unfold covered, qcols; cbn [qA qb qbounds qans mcols mrows] in *; auto.
  - intros x. now apply nonneg_in.
  - intros x Hx. split; [now apply (nonneg_in bd)|auto].
  - unfold mnrows. cbn [mrows]. destruct A; [easy|cbn [length]; lia].
  - unfold default_answer, mk_answer in Ha. apply bind_ok in Ha. destruct Ha as (? & _ & Ha). apply bind_ok in Ha. destruct Ha as (? & _ & Ha).
    injection Ha as <-. unfold unknown_loc. cbn [av]. clear. unfold where_. generalize 0%nat as i. induction C as [|C IH]; intros i; [reflexivity|].
    cbn. now rewrite IH.
Qed.
Theorem eliminate_first_exact Q : (1 <= mcols (qA Q) <= 63)%nat -> length (qb Q) = mnrows (qA Q) -> length (qbounds Q) = mcols (qA Q) ->
  (forall row, In row (mrows (qA Q)) -> length row = mcols (qA Q) /\ bits row) -> (forall x, In x (qb Q) -> 0 <= x) ->
  (forall row, In row (mrows (qA Q)) -> nth 0 row 0 = 0) ->
  if forallb (forallb (Z.eqb 0)) (mrows (qA Q)) then eliminate Q = Raise StopIteration else eliminate Q = Raise AssertionError.
Proof.
  intros HC Hb HB Hr Hx H0. pose proof (elim_stop_proof (qA Q) (qb Q) HC Hb Hr Hx) as HS.
  assert (HF : forallb (forallb (Z.eqb 0)) (mrows (qA Q)) = true <-> forall row j, In row (mrows (qA Q)) -> nth j row 0 = 0).
  { rewrite forallb_forall. split.
    - intros H row j Hrow. destruct (Nat.lt_ge_cases j (length row)) as [L|L]; [|now apply nth_overflow].
      specialize (H row Hrow). rewrite forallb_forall in H. specialize (H (nth j row 0) (nth_In _ _ L)). lia.
    - intros H row Hrow. apply forallb_forall. intros x Hin. apply (In_nth _ _ 0) in Hin. destruct Hin as (j & _ & <-). rewrite H by exact Hrow. reflexivity. }
  destruct (forallb _ _).
  - unfold eliminate, eliminate_body. destruct (Nat.eqb_spec (mcols (qA Q)) 0) as [E|_]; [lia|].
    rewrite (proj2 HS) by (now apply HF). reflexivity.
  - destruct (eliminate_first_proof Q HC Hb HB Hr Hx H0) as [E|E]; [exact E|exfalso].
    assert (ES : elim (qA Q) (qb Q) = Raise StopIteration).
    { unfold eliminate, eliminate_body in E. destruct (Nat.eqb_spec (mcols (qA Q)) 0) as [E'|_]; [lia|].
      destruct (elim (qA Q) (qb Q)) as [[A' b']| |e]; cbn [bind] in E; [|discriminate|congruence].
      destruct (assert_ (nonneg b')) as [u| |e] eqn:EA; cbn [bind] in E; [|discriminate|destruct (nonneg b'); cbn in EA; congruence].
      now apply nost_post_check in E. }
    pose proof (proj2 HF (proj1 HS ES)). discriminate.
Qed.
