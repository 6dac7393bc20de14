(** The solver properties (C01-C09) in terms of [Spec]. *)
From Verif Require Import Np ModelGauss Model Spec Lib Cone ElimFacts QFacts StepFacts ForkFacts GroupFacts LevelFacts Graph SolveFacts AnyFacts ElimProps.
From Coq Require Import ZifyBool ZifyNat.

(** ** C08 *)
Lemma mk_question_fresh C A b q Q : (C <= 63)%nat -> ((2 <= C)%nat -> (length b <= 64)%nat) ->
  shape (length b) C A -> (forall row, In row A -> bits row) ->
  (forall x, In x b -> x <= 127) -> In (repeat 1 C, q) (combine A b) ->
  mk_question (Mat C A) b q (repeat 1 C) None = Ok Q -> fresh C Q /\ mrows (qA Q) = A /\ qb Q = b.
Proof.
  intros HC HR [HA HA'] HB Hb Ho E. unfold mk_question in E.
  inv_bind E. inv_bind E. inv_bind E. inv_bind E. inv_bind E. inv_bind E. injection E as <-.
  rewrite default_answer_ok in E5. injection E5 as <-. cbn [qA qb mrows].
  assert (Hn : forall x, In x b -> 0 <= x).
  { intros x Hx. unfold assert_ in E2. destruct (nonneg b) eqn:En; [|discriminate]. unfold nonneg in En.
    rewrite forallb_forall in En. specialize (En x Hx). lia. }
  split; [|auto]. constructor; auto.
  - cbn [qb qquota]. apply in_combine_r in Ho. split; [now apply Hn|now apply Hb].
  - split; [lia|]. intros ->. lia.
  - intros H2. left. unfold mnrows. cbn [mrows qA]. rewrite HA. auto.
Qed.

Lemma solve_question_proof C A b q : (C <= 63)%nat -> ((2 <= C)%nat -> (length b <= 64)%nat) ->
  shape (length b) C A -> (forall row, In row A -> bits row) ->
  (forall x, In x b -> 0 <= x <= 127) -> In (repeat 1 C, q) (combine A b) ->
  equal_columns_adjacent C A ->
  exists Q xs, mk_question (Mat C A) b q (repeat 1 C) None = Ok Q
    /\ solve_question Q = Ok xs /\ NoDup xs
    /\ (forall x, length x = C -> bits x -> ones_first A x -> solves A b x -> In x xs)
    /\ (forall x, In x xs -> length x = C /\ bits x /\ ones_first A x /\ stays_below A b x
          /\ (C = 0%nat -> solves A b x)).
Proof.
  intros HC HR HA HB Hb Ho Hadj.
  assert (E : exists Q, mk_question (Mat C A) b q (repeat 1 C) None = Ok Q).
  { destruct HA as [HA HA']. unfold mk_question, mnrows. cbn [mrows mcols]. rewrite HA, repeat_length, !Nat.eqb_refl. cbn [assert_ bind].
    rewrite (nonneg_true b) by (intros x Hx; now apply Hb). cbn [assert_ bind].
    pose proof (Hb q (in_combine_r _ _ _ _ Ho)) as Hq. destruct (Z.leb_spec 0 q); [|lia]. cbn [assert_ bind].
    rewrite nonneg_true by (intros x Hx; apply repeat_spec in Hx; lia). cbn [assert_ bind]. rewrite default_answer_ok. cbn [bind]. eauto. }
  destruct E as (Q & E). exists Q.
  destruct (mk_question_fresh C A b q Q) as (HF & EA & Eb); auto. { intros x Hx. now apply Hb. }
  rewrite <- EA in Hadj. destruct (solve_question_fresh C Q HF Hadj) as (xs & ES & Hnd & H1 & H2).
  exists xs. split; auto. split; auto. split; auto. unfold qsys in *. rewrite EA, Eb in *.
  destruct HA as [HA HA']. split.
  - intros x HL Hx Hof Hs. apply H2; auto. now apply holds_solves.
  - intros x Hx. destruct (H1 x Hx) as (A1 & A2 & A3 & A4). split; auto. split; auto. split; auto.
    split; [now apply below_stays|]. intros HC0.
    destruct (existsb (fun y => negb (y =? 0)) (qb Q)) eqn:Ex.
    + rewrite (solve_question_no_columns C Q HF HC0 Ex) in ES. injection ES as <-. easy.
    + rewrite existsb_none in Ex. apply holds_solves; auto. intros row y Hin. rewrite Eb in Ex.
      assert (Ey : y = 0) by (apply in_combine_r in Hin; specialize (Ex y Hin); lia).
      destruct x; [|simpl in A1; lia]. rewrite dot_nil_r. lia.
Qed.

(** ** C07 *)
Lemma from_matrix_cases v R M Q : partial_matrix v R M -> (R < v)%nat -> (v <= 66)%nat ->
  from_matrix (Mat v M) = Ok Q -> fresh (v - R - 1) Q /\ (level v R M -> equal_columns_adjacent (v - R - 1) (mrows (qA Q))).
Proof.
  intros HV HR Hv E. rewrite (from_matrix_eq v R M HV ltac:(lia) HR) in E.
  match type of E with (if existsb ?p ?b then _ else _) = _ => destruct (existsb p b) eqn:Ex; [discriminate|] end.
  injection E as <-. split; [exact (Q_fresh v R M HV ltac:(lia) HR (or_introl Hv) Ex)|]. intros HL. apply (Q_adjacent v R M HV ltac:(lia) HR HL).
Qed.
Lemma solve_from_matrix_proof v R M Q : level v R M -> (R < v)%nat -> (v <= 66)%nat ->
  from_matrix (Mat v M) = Ok Q ->
  exists xs, solve_question Q = Ok xs
    /\ forall x, In x xs -> stays_below (mrows (qA Q)) (qb Q) x /\ (R = v - 1 -> solves (mrows (qA Q)) (qb Q) x)%nat.
Proof.
  intros HL HR Hv E. destruct (from_matrix_cases v R M Q) as [HF Hadj]; auto; [apply HL|]. specialize (Hadj HL).
  destruct (solve_question_fresh _ Q HF Hadj) as (xs & ES & _ & H1 & _). exists xs. split; auto.
  intros x Hx. destruct (H1 x Hx) as (A1 & _ & _ & A4).
  assert (HLn : length (mrows (qA Q)) = length (qb Q)) by (symmetry; apply (f_blen _ _ HF)).
  split; [now apply below_stays|]. intros ER. assert (HC0 : (v - R - 1 = 0)%nat) by lia.
  destruct (existsb (fun y => negb (y =? 0)) (qb Q)) eqn:Ex.
  - rewrite (solve_question_no_columns _ Q HF HC0 Ex) in ES. injection ES as <-. easy.
  - rewrite existsb_none in Ex. apply holds_solves; auto. intros row y Hin.
    assert (Ey : y = 0) by (apply in_combine_r in Hin; specialize (Ex y Hin); lia).
    destruct x; [|simpl in A1; lia]. rewrite dot_nil_r. lia.
Qed.

(** ** C09 *)
Lemma next_row_eq M x : next_row M x = new_row M x.
Proof.
  unfold next_row, new_row. f_equal. apply nth_ext0.
  - unfold column. now rewrite !map_length, seq_length.
  - intros i Hi. rewrite map_length, seq_length in Hi. rewrite (nth_map_in _ _ _ 0%nat) by now rewrite seq_length.
    rewrite nth_seq0 by auto. unfold column. now rewrite (nth_map_in _ _ _ (@nil Z)).
Qed.
Lemma fits_row_iff v R M k l u x : partial_matrix v R M -> (R < v)%nat ->
  (fits_row k l u M x <-> zsum (new_row M x) = k /\ forall i, (i < R)%nat -> dot (nth i M []) (new_row M x) = if cell M i R =? 0 then u else l).
Proof.
  intros HV HR. unfold fits_row. rewrite next_row_eq. rewrite (lv_len _ _ _ HV).
  split; intros [A B]; split; auto; intros i Hi; rewrite B by auto;
  destruct (lv_bit _ _ _ HV i R Hi HR) as [E|E]; rewrite E; reflexivity.
Qed.
Lemma from_matrix_proof v R M k l u : partial_matrix v R M -> (R < v <= 127)%nat ->
  vklu (Mat v M) = Ok (Z.of_nat v, k, l, u) -> 0 <= u <= 127 ->
  (exists Q, from_matrix (Mat v M) = Ok Q /\ mcols (qA Q) = (v - R - 1)%nat
     /\ forall x, length x = (v - R - 1)%nat -> (solves (mrows (qA Q)) (qb Q) x <-> fits_row k l u M x))
  \/ (from_matrix (Mat v M) = NoSolution
     /\ forall x, length x = (v - R - 1)%nat -> bits x -> ~ fits_row k l u M x).
Proof.
  intros HV HR EV Hu. rewrite (vklu_level v R M HV ltac:(lia) ltac:(lia)) in EV. injection EV as Ek El Eu. subst k l u.
  rewrite (from_matrix_eq v R M HV ltac:(lia) ltac:(lia)).
  match goal with |- context [if existsb ?p ?b then _ else _] => set (bb := b) in *; destruct (existsb p bb) eqn:Ex end.
  - right. split; auto. intros x HL Hb Hf. apply (fits_row_iff v R) in Hf; auto; [|lia].
    revert Hf. apply (Q_negative v R M HV ltac:(lia) ltac:(lia) Hu x HL); auto.
  - left. eexists. split; [reflexivity|]. split; [reflexivity|]. intros x HL.
    rewrite (fits_row_iff v R) by (auto; lia).
    rewrite <- (Q_holds v R M HV ltac:(lia) ltac:(lia) Hu x HL). unfold qsys. rewrite holds_solves; [reflexivity|].
    cbn [qA qb mrows]. unfold bb. rewrite !app_length, (b0_length v R M HV ltac:(lia) ltac:(lia)), map_length, (lv_len _ _ _ HV). reflexivity.
Qed.

(** ** what the search reaches (C03) *)
Inductive reach : mat -> mat -> Prop :=
| reach_here m : reach m m
| reach_next m ms m' t : advance m = Ok ms -> In m' ms -> reach m' t -> reach m t.

Lemma mapM_reached {A B} (f : A -> res B) l ys x y : mapM f l = Ok ys -> In x l -> f x = Ok y -> In y ys.
Proof.
  revert ys. induction l as [|a l IH]; intros ys E Hx Ey; [easy|]. simpl in E. inv_bind E. inv_bind E.
  injection E as <-. destruct Hx as [->|Hx].
  - rewrite Ey in E0. injection E0 as ->. now left.
  - right. eapply IH; eauto.
Qed.
Lemma advance_unsolved m ms : advance m = Ok ms -> solved m = false.
Proof. unfold advance. intros E. inv_bind E. unfold assert_ in E0. destruct (solved m); [discriminate|reflexivity]. Qed.
Lemma advance_all_reached l out m ms m' : advance_all (lst_undone l) = Ok out -> In m l ->
  advance m = Ok ms -> In m' ms -> In m' out.
Proof.
  unfold advance_all. intros E Hm Ea Hm'. inv_bind E. injection E as <-. apply in_concat. exists ms. split; auto.
  eapply mapM_reached; eauto. apply filter_In. split; auto. now rewrite (advance_unsolved m ms).
Qed.
Lemma solve_loop_reach fuel : forall lst ys out, solve_loop fuel lst ys = Ok out ->
  (forall t, In t ys -> In t out) /\ (forall m t, In m lst -> reach m t -> solved t = true -> In t out).
Proof.
  induction fuel as [|fuel IH]; intros lst ys out E; destruct lst as [|a lst]; try discriminate;
  try (injection E as <-; split; [auto|easy]).
  set (L := a :: lst) in *. change (solve_loop (S fuel) L ys) with
    (lst' <- advance_all (lst_undone L) ;; solve_loop fuel lst' (ys ++ lst_done L)) in E.
  inv_bind E. destruct (IH _ _ _ E) as [H1 H2]. split.
  - intros t Ht. apply H1, in_app_iff. now left.
  - intros m t Hm Hr Hs. destruct Hr as [m|m ms m' t Ea Hin Hr].
    + apply H1, in_app_iff. right. apply filter_In. auto.
    + apply (H2 m'); auto. eapply advance_all_reached; eauto.
Qed.
Lemma solve_reach m out t : solve m = Ok out -> reach m t -> solved m = false -> solved t = true -> In t out.
Proof.
  unfold solve. intros E Hr Hm Hs. inv_bind E. inv_bind E. destruct (solve_loop_reach _ _ _ _ E) as [H1 H2].
  destruct Hr as [m|m ms m' t Ea Hin Hr]; [congruence|]. rewrite Ea in E0. injection E0 as <-.
  destruct Hr as [m'|m' ms' m'' t Ea' Hin' Hr].
  - apply H1. apply filter_In. auto.
  - apply (H2 m''); auto. eapply advance_all_reached; eauto.
Qed.
(** a matrix each of whose partial matrices the search extends by the next row *)
Definition step_ok (t : mat) (r : nat) : bool :=
  match advance (Mat (mcols t) (firstn r (mrows t))) with
  | Ok ms => existsb (mat_eqb (Mat (mcols t) (firstn (S r) (mrows t)))) ms
  | _ => false
  end.
Lemma steps_reach t : forall n r, (r + n = length (mrows t))%nat -> forallb (step_ok t) (seq r n) = true ->
  reach (Mat (mcols t) (firstn r (mrows t))) t.
Proof.
  induction n as [|n IH]; intros r Hn H.
  - rewrite firstn_all2 by lia. destruct t. constructor.
  - simpl in H. apply andb_true_iff in H. destruct H as [H1 H2]. unfold step_ok in H1.
    destruct (advance _) as [ms| |] eqn:E; try discriminate. apply existsb_exists in H1. destruct H1 as (m' & Hin & Em).
    apply mat_eqb_spec in Em. subst m'. eapply reach_next; eauto. apply IH; auto. lia.
Qed.

(** ** C30 *)
Lemma seed_proof v k l u : admissible v k l u ->
  exists r0 r1, seed (Z.of_nat v) k l u = Ok (Mat v [r0; r1])
    /\ length r0 = v /\ length r1 = v
    /\ (forall j, (j < v)%nat -> nth j r0 0 = if (1 <=? Z.of_nat j) && (Z.of_nat j <=? k) then 1 else 0)
    /\ bits r1 /\ dot r0 r1 = l /\ zsum r1 = Z.min k (l + Z.of_nat v - k)
    /\ (u <= k -> zsum r1 = k)
    /\ (k < Z.of_nat v - 1 -> l <= 127 -> vklu (Mat v [r0; r1]) = Ok (Z.of_nat v, k, l, u)).
Proof.
  intros (Hv & Hk & Hl & Hu & He).
  exists (nth 0 (seed_rows v k l) []), (nth 1 (seed_rows v k l) []).
  pose proof (seed_level v k l) as HV.
  assert (E : seed_rows v k l = [nth 0 (seed_rows v k l) []; nth 1 (seed_rows v k l) []]) by reflexivity.
  rewrite <- E. split; [now apply seed_ok|].
  pose proof (seed_row1 v k l Hk Hl) as H1. pose proof (seed_dot v k l Hk Hl) as Hd.
  split; [unfold seed_rows, build; simpl; now rewrite map_length, seq_length|].
  split; [unfold seed_rows, build; simpl; now rewrite map_length, seq_length|].
  split.
  { intros j Hj. unfold seed_rows, build. simpl. rewrite (nth_map_in _ _ _ 0%nat), nth_seq0 by (rewrite ?seq_length; auto).
    unfold seed0. destruct (Z.leb_spec 1 (Z.of_nat j)), (Z.leb_spec (Z.of_nat j) k), (Z.ltb_spec (Z.of_nat j) (k + 1)); simpl; auto; lia. }
  split.
  { unfold seed_rows, build. simpl. intros a Ha. apply in_map_iff in Ha. destruct Ha as (j & <- & _). unfold seed1, bit.
    destruct (_ || _); auto. }
  split; auto. split; auto. split.
  - intros Huk. rewrite H1. apply Z.min_l. destruct (Z.eq_dec k (Z.of_nat v - 1)) as [->|Hne]; [nia|].
    assert ((k - l - 1) * k <= (Z.of_nat v - k - 1) * k) by nia. nia.
  - intros Hkv Hl'. pose proof (seed_par_k v k l Hk) as Hpk. unfold par_k in Hpk. rewrite E. unfold vklu. cbn [mrows mcols].
    rewrite Hpk, Hd, i8_id by lia. unfold np_floordiv. destruct (Z.eqb_spec (Z.of_nat v - k - 1) 0); [lia|].
    rewrite <- He, Z.mul_comm, Z.div_mul by lia. reflexivity.
Qed.
Lemma assert_srg_proof v k l u M : (1 <= v)%nat -> srg v k l u M -> assert_srg (Z.of_nat v) k l u = Ok tt.
Proof. intros Hv H. unfold assert_srg. now rewrite (srg_equation v k l u M Hv H), Z.eqb_refl. Qed.

(** ** C03 *)
Lemma solve_weak_proof v k l u : admissible v k l u -> (v <= 67)%nat -> u <= 127 ->
  exists ms, run_main (Z.of_nat v) k l u = Ok ms
    /\ forall m, In m ms ->
       (forall i, (i < v)%nat -> degree v (mrows m) i <= k)
       /\ (forall i j, (i < v)%nat -> (j < v)%nat -> i <> j ->
             common v (mrows m) i j <= if cell (mrows m) i j =? 1 then l else u)
       /\ (forall i, (i < v)%nat -> i = 0%nat \/ i = (v - 1)%nat \/ cell (mrows m) (v - 1) i = 1 -> degree v (mrows m) i = k)
       /\ common v (mrows m) 0 1 = l
       /\ (forall j, (j < v - 1)%nat -> common v (mrows m) (v - 1) j = if cell (mrows m) (v - 1) j =? 1 then l else u)
       /\ (srg v k l u (mrows m) <-> forall i, (i < v)%nat -> degree v (mrows m) i = k).
Proof.
  intros Ha Hv Hu. destruct (solve_weak v k l u Ha Hv Hu) as (ms & E & H1).
  destruct (solve_sound_regular v k l u Ha Hv Hu) as (ms' & E' & H2). rewrite E in E'. injection E' as <-.
  exists ms. split; auto. intros m Hm. destruct (H1 m Hm) as (A1 & A2 & A3 & _ & A5 & A6 & A7). destruct (H2 m Hm) as (B1 & B2).
  split; auto. split; auto. split.
  - intros i Hi [->|[->|H]]; auto.
  - auto.
Qed.
Lemma run_main_found v k l u t ms : run_main (Z.of_nat v) k l u = Ok ms -> (3 <= v)%nat ->
  mcols t = v -> length (mrows t) = v -> seed (Z.of_nat v) k l u = Ok (Mat v (firstn 2 (mrows t))) ->
  forallb (step_ok t) (seq 2 (v - 2)) = true -> In t ms.
Proof.
  unfold run_main. intros E Hv Hc Hr Es H. inv_bind E. rewrite Es in E. cbn [bind] in E.
  apply (solve_reach _ _ _ E).
  - rewrite <- Hc at 1. apply (steps_reach t (v - 2)); auto. lia.
  - unfold solved, mnrows. cbn [mcols mrows]. rewrite firstn_length. lia.
  - unfold solved, mnrows. rewrite Hc, Hr. lia.
Qed.
(** ** C04-C06 *)
Lemma solve_distinct_proof v k l u : admissible v k l u -> (v <= 67)%nat ->
  exists ms, run_main (Z.of_nat v) k l u = Ok ms /\ NoDup ms.
Proof. intros Ha Hv. destruct (solve_well_formed v k l u Ha Hv) as (ms & E & H1 & _). eauto. Qed.
Lemma solve_terminates_proof v k l u : admissible v k l u -> (v <= 67)%nat ->
  exists ms, run_main (Z.of_nat v) k l u = Ok ms.
Proof. intros Ha Hv. destruct (solve_well_formed v k l u Ha Hv) as (ms & E & _). eauto. Qed.
Lemma solve_canonical_proof v k l u : admissible v k l u -> (v <= 67)%nat ->
  exists ms, run_main (Z.of_nat v) k l u = Ok ms /\ forall m, In m ms -> canonical v (mrows m).
Proof.
  intros Ha Hv. destruct (solve_well_formed v k l u Ha Hv) as (ms & E & _ & H). exists ms. split; auto.
  intros m Hm. now apply H.
Qed.
