(** fork_enum splits a refined question into disjoint cases; solve_question
    terminates and finds every solution once. *)
From Verif Require Import Np ModelGauss Model Spec Lib BitFacts Cone ElimFacts QFacts StepFacts.
From Coq Require Import ZifyBool ZifyNat Sorting.Sorted.

(** ** argmin *)
Lemma argmin_from_lt l : forall i best m, (best < i)%nat -> (argmin_from i best m l < i + length l)%nat.
Proof.
  induction l as [|x l IH]; intros i best m H; simpl; [lia|].
  destruct (x <? m); [specialize (IH (S i) i x ltac:(lia))|specialize (IH (S i) best m ltac:(lia))]; lia.
Qed.
Lemma argmin_lt l : l <> [] -> exists m, argmin l = Ok m /\ (m < length l)%nat.
Proof.
  destruct l as [|x l]; intros H; [easy|]. eexists. split; [reflexivity|].
  pose proof (argmin_from_lt l 1 0 x ltac:(lia)). simpl. lia.
Qed.

(** ** values *)
Lemma in_zrange a b x : In x (zrange a b) <-> a <= x < b.
Proof.
  unfold zrange. rewrite in_map_iff. split.
  - intros (i & <- & Hi). apply in_seq in Hi. lia.
  - intros H. exists (Z.to_nat (x - a)). split; [lia|]. apply in_seq. lia.
Qed.
Lemma zrange_nodup a b : NoDup (zrange a b).
Proof.
  unfold zrange. apply FinFun.Injective_map_NoDup; [intros x y H; lia|apply seq_NoDup].
Qed.
Lemma zrange_length a b : length (zrange a b) = Z.to_nat (b - a).
Proof. unfold zrange. now rewrite map_length, seq_length. Qed.

Lemma prodb_delete1 m : forall l, (m < length l)%nat -> prodb l = (nth m l 0 + 2) * prodb (delete [m] l).
Proof.
  assert (Hsh : forall (l : list Z) i j, delete_from (S i) [S j] l = delete_from i [j] l).
  { induction l as [|a l IH]; intros i j; simpl; auto. rewrite IH. reflexivity. }
  assert (Hn : forall (l : list Z) i, delete_from (S i) [0%nat] l = l).
  { induction l as [|a l IH]; intros i; simpl; auto. now rewrite IH. }
  induction m as [|m IH]; intros [|a l] Hm; simpl in Hm; try lia.
  - unfold delete. simpl. rewrite Hn. reflexivity.
  - unfold delete. simpl. rewrite Hsh. specialize (IH l ltac:(lia)). unfold delete in IH. rewrite IH. ring.
Qed.

(** ** fork_enum *)
Lemma mapM_ok {A B} (f : A -> res B) (g : A -> B) l : (forall x, In x l -> f x = Ok (g x)) -> mapM f l = Ok (map g l).
Proof.
  induction l as [|x l IH]; intros H; simpl; auto. rewrite (H x) by now left. cbn [bind].
  rewrite IH by (intros y Hy; apply H; now right). reflexivity.
Qed.

Lemma normal_tight s Q : base s Q -> normal Q -> tighten Q = Q.
Proof.
  intros HB (_ & HZ & _). destruct (zero_in_b_body_spec s Q HB) as (Q' & E & _ & _ & _ & N).
  rewrite HZ in E. injection E as <-. destruct (N eq_refl) as [<- _]. reflexivity.
Qed.

Lemma fork_enum_spec s Q : refined s Q -> (1 <= qcols Q)%nat ->
  exists m qs, (m < qcols Q)%nat /\ argmin (qbounds Q) = Ok m
    /\ fork_enum Q = Ok qs
    /\ Forall2 (fun q Q' => substituted [m] [q] Q Q' /\ base s Q' /\ distinct Q')
         (fork_enum_values (qquota Q) (qbounds Q) m) qs.
Proof.
  intros (HB & HD & _ & (HP & _) & HN) HC.
  destruct (argmin_lt (qbounds Q)) as (m & Em & Hm).
  { intros E. pose proof (i_bdlen _ _ HB) as HL. rewrite E in HL. simpl in HL. lia. }
  rewrite (i_bdlen _ _ HB) in Hm.
  assert (HT : forall row x, In (row, x) (qsys Q) -> nth m row 0 <> 0 -> nth m (qbounds Q) 0 <= x).
  { pose proof (normal_tight s Q HB HN) as ET.
    pose proof (proj1 (tighten_spec s Q HB m (nth m (qbounds Q) 0) Hm)) as H.
    rewrite ET in H. apply H. lia. }
  assert (HbQ : nth m (qbounds Q) 0 <= qquota Q).
  { destruct (column_row s Q m HB Hm) as (row & x & Hin & H1 & Hx).
    specialize (HT row x Hin ltac:(lia)). lia. }
  assert (Hbm : 0 <= nth m (qbounds Q) 0 <= 127).
  { apply (i_bd _ _ HB), nth_In. now rewrite (i_bdlen _ _ HB). }
  set (vals := fork_enum_values (qquota Q) (qbounds Q) m).
  assert (Hv : forall q, In q vals -> 0 <= q <= nth m (qbounds Q) 0).
  { intros q Hq. apply in_zrange in Hq. lia. }
  pose proof (i_blen _ _ HB) as HL. unfold mnrows in HL.
  (* the child for one value *)
  set (child := fun q => Qst (Mat (mcols (qA Q) - 1) (map (delete [m]) (mrows (qA Q))))
                  (map2 (fun bv row => i8 (bv - i8 (nth m row 0 * q))) (qb Q) (mrows (qA Q)))
                  (qquota Q - q) (delete [m] (qbounds Q))
                  (Ans (set_nth (nth m (unknown_loc (qans Q)) 0%nat) q (av (qans Q))) (aloc (qans Q)) (alen (qans Q)))).
  assert (Hb' : forall q, In q vals -> forall i, (i < length (qb Q))%nat ->
     nth i (qb (child q)) 0 = nth i (qb Q) 0 - nth m (nth i (mrows (qA Q)) []) 0 * q
     /\ 0 <= nth i (qb (child q)) 0).
  { intros q Hq i Hi. simpl. rewrite (nth_map2 _ _ _ _ 0 []) by lia. specialize (Hv q Hq).
    assert (Hin : In (nth i (mrows (qA Q)) [], nth i (qb Q) 0) (qsys Q)) by (apply nth_in_combine; auto; lia).
    destruct (qsys_good _ _ _ _ HB Hin) as (L & Bt & Hr).
    destruct (Bt (nth m (nth i (mrows (qA Q)) []) 0)) as [E|E]; [apply nth_In; lia| |].
    - rewrite E. rewrite (i8_id (0 * q)), i8_id by lia. lia.
    - specialize (HT _ _ Hin ltac:(lia)). rewrite E. rewrite (i8_id (1 * q)), i8_id by lia. lia. }
  assert (HLb : forall q, length (qb (child q)) = length (qb Q)) by (intros q; simpl; rewrite map2_length; lia).
  assert (Hbn : forall q, In q vals -> forall x, In x (qb (child q)) -> 0 <= x).
  { intros q Hq x Hx. apply (In_nth _ _ 0) in Hx. destruct Hx as (i & Hi & <-). rewrite HLb in Hi. now apply Hb'. }
  assert (HS : forall q, In q vals -> substituted [m] [q] Q (child q)).
  { intros q Hq. constructor; try reflexivity; auto.
    - intros i Hi. destruct (Hb' q Hq i Hi) as [-> _]. simpl. lia.
    - unfold zsum; simpl; lia. }
  assert (Hc1 : forall j, In j [m] -> (j < qcols Q)%nat) by (intros j [<-|[]]; auto).
  assert (Hnd : NoDup [m]) by (repeat constructor; easy).
  assert (HBc : forall q, In q vals -> base s (child q)).
  { intros q Hq. pose proof (Hv q Hq). apply (su_base s [m] [q] Q (child q)); auto.
    - intros x [<-|[]]. lia.
    - exact (Hbn q Hq).
    - simpl. lia. }
  exists m, (map child vals). split; auto. split; auto. split.
  - unfold fork_enum. rewrite HP. cbn [bind]. rewrite (i_ul _ _ HB).
    destruct (Nat.ltb_spec 0 (qcols Q)); [|lia]. cbn [assert_ bind]. rewrite Em. cbn [bind].
    fold vals. rewrite (mapM_ok _ (fun q => Some (child q))).
    + cbn [bind]. f_equal. clear. induction vals as [|q l IH]; simpl; auto. f_equal. exact IH.
    + intros q Hq. unfold fork_one.
      change (map2 (fun bv row => i8 (bv - i8 (nth m row 0 * q))) (qb Q) (mrows (qA Q))) with (qb (child q)).
      assert (Ex : existsb (fun x => x <? 0) (qb (child q)) = false).
      { apply existsb_none. intros x Hx. specialize (Hbn q Hq x Hx). lia. }
      rewrite Ex. rewrite (rooms_copy s) by apply (i_rooms _ _ HB). cbn [bind].
      pose proof (HBc q Hq) as HB'. unfold mk_question.
      change (delete [m] (qbounds Q)) with (qbounds (child q)).
      change (Mat (mcols (qA Q) - 1) (map (delete [m]) (mrows (qA Q)))) with (qA (child q)).
      change (qquota Q - q) with (qquota (child q)).
      fold (qcols (child q)). rewrite (i_blen _ _ HB'), (i_bdlen _ _ HB'), !Nat.eqb_refl. cbn [assert_ bind].
      rewrite (nonneg_true (qb (child q))) by exact (Hbn q Hq).
      rewrite (nonneg_true (qbounds (child q))) by (intros x Hx; now apply (i_bd _ _ HB') in Hx). cbn [assert_ bind].
      pose proof (i_quota _ _ HB') as HQ'. destruct (Z.leb_spec 0 (qquota (child q))); [|lia]. reflexivity.
  - assert (G : forall l, (forall q, In q l -> In q vals) ->
      Forall2 (fun q Q' => substituted [m] [q] Q Q' /\ base s Q' /\ distinct Q') l (map child l)).
    { induction l as [|q l IH]; intros Hl; simpl; constructor.
      - assert (Hq : In q vals) by (apply Hl; now left). split; [auto|]. split; [auto|].
        apply (su_distinct s [m] [q] Q (child q)); auto. intros x [<-|[]]. specialize (Hv q Hq). lia.
      - apply IH. intros; apply Hl; now right. }
    apply G. auto.
Qed.

(** ** bucket vectors and the expanded 0/1 vector *)
Definition bucket (n c : Z) : list Z := repeat 1 (Z.to_nat c) ++ repeat 0 (Z.to_nat (n - c)).
Definition expand (s w : list Z) : list Z := concat (map2 bucket s w).

Lemma bucket_length n c : 0 <= c <= n -> length (bucket n c) = Z.to_nat n.
Proof. intros H. unfold bucket. rewrite app_length, !repeat_length. lia. Qed.

Lemma nth_skipn {A} (d : A) n : forall l i, nth i (skipn n l) d = nth (n + i) l d.
Proof. induction n as [|n IH]; intros [|a l] i; simpl; auto. destruct i; auto. Qed.
Lemma slice_set_app pre post c x : 0 <= c <= Z.of_nat (length post) ->
  slice_set (Z.of_nat (length pre)) (Z.of_nat (length pre) + c) x (pre ++ post)
  = pre ++ repeat x (Z.to_nat c) ++ skipn (Z.to_nat c) post.
Proof.
  intros Hc. unfold slice_set, norm_idx. rewrite app_length.
  destruct (Z.ltb_spec (Z.of_nat (length pre)) 0); [lia|].
  destruct (Z.ltb_spec (Z.of_nat (length pre) + c) 0); [lia|].
  rewrite !Z.min_l by lia.
  apply nth_ext0.
  - rewrite map2_length, seq_length, !app_length, repeat_length, skipn_length. lia.
  - rewrite map2_length, seq_length, app_length. intros i Hi.
    rewrite (nth_map2 _ _ _ _ 0%nat 0) by (rewrite ?seq_length, ?app_length; lia).
    rewrite nth_seq0 by lia.
    destruct (Nat.lt_ge_cases i (length pre)) as [L|L].
    { rewrite !app_nth1 by auto. destruct (Z.leb_spec (Z.of_nat (length pre)) (Z.of_nat i)); [lia|]. reflexivity. }
    rewrite !app_nth2 by lia. destruct (Z.leb_spec (Z.of_nat (length pre)) (Z.of_nat i)); [|lia]. cbn [andb].
    destruct (Z.ltb_spec (Z.of_nat i) (Z.of_nat (length pre) + c)) as [H2|H2].
    + rewrite app_nth1 by (rewrite repeat_length; lia). rewrite nth_repeat_lt by lia. reflexivity.
    + rewrite app_nth2 by (rewrite repeat_length; lia). rewrite repeat_length, nth_skipn. f_equal. lia.
Qed.

Lemma skipn_repeat {A} (a : A) n m : skipn n (repeat a m) = repeat a (m - n).
Proof. revert m. induction n as [|n IH]; intros [|m]; simpl; auto. Qed.

Lemma binarize_loop_expand s : forall w pre, length w = length s ->
  (forall i, (i < length s)%nat -> 0 <= nth i w 0 <= nth i s 0) ->
  binarize_loop w s (Z.of_nat (length pre)) (pre ++ repeat 0 (Z.to_nat (zsum s))) = pre ++ expand s w.
Proof.
  induction s as [|n s IH]; intros [|c w] pre HL H; simpl in HL; try lia.
  - reflexivity.
  - pose proof (H 0%nat ltac:(simpl; lia)) as H0. simpl in H0.
    assert (Hs : forall i, (i < length s)%nat -> 0 <= nth i w 0 <= nth i s 0) by (intros i Hi; apply (H (S i)); simpl; lia).
    assert (Hz : 0 <= zsum s).
    { apply zsum_nonneg. intros a Ha. apply (In_nth _ _ 0) in Ha. destruct Ha as (i & Hi & <-). specialize (Hs i Hi). lia. }
    cbn [binarize_loop]. rewrite zsum_cons.
    rewrite slice_set_app by (rewrite repeat_length; lia).
    rewrite skipn_repeat.
    assert (E : pre ++ repeat 1 (Z.to_nat c) ++ repeat 0 (Z.to_nat (n + zsum s) - Z.to_nat c)
                = (pre ++ bucket n c) ++ repeat 0 (Z.to_nat (zsum s))).
    { unfold bucket. rewrite <- !app_assoc. do 2 f_equal. rewrite <- repeat_app. f_equal. lia. }
    rewrite E. replace (Z.of_nat (length pre) + n) with (Z.of_nat (length (pre ++ bucket n c)))
      by (rewrite app_length, bucket_length by lia; lia).
    rewrite IH by (auto; lia). unfold expand. simpl. now rewrite <- app_assoc.
Qed.

Lemma expand_length s : forall w, length w = length s ->
  (forall i, (i < length s)%nat -> 0 <= nth i w 0 <= nth i s 0) ->
  length (expand s w) = Z.to_nat (zsum s).
Proof.
  induction s as [|n s IH]; intros [|c w] HL H; simpl in HL; try lia; auto.
  pose proof (H 0%nat ltac:(simpl; lia)) as H0. simpl in H0.
  assert (Hs : forall i, (i < length s)%nat -> 0 <= nth i w 0 <= nth i s 0) by (intros i Hi; apply (H (S i)); simpl; lia).
  assert (Hz : 0 <= zsum s).
  { apply zsum_nonneg. intros a Ha. apply (In_nth _ _ 0) in Ha. destruct Ha as (i & Hi & <-). specialize (Hs i Hi). lia. }
  unfold expand in *. cbn [map2 concat]. rewrite app_length, bucket_length, IH, zsum_cons by (auto; lia). lia.
Qed.

Lemma repeat_prefix_inj n c c' (x y : list Z) : 0 <= c <= n -> 0 <= c' <= n ->
  bucket n c ++ x = bucket n c' ++ y -> c = c' /\ x = y.
Proof.
  intros Hc Hc' E.
  assert (L : length (bucket n c) = length (bucket n c')) by (rewrite !bucket_length; auto).
  assert (E1 : bucket n c = bucket n c').
  { apply (f_equal (firstn (length (bucket n c)))) in E. rewrite firstn_app, firstn_all, Nat.sub_diag in E.
    rewrite L, firstn_app, firstn_all, Nat.sub_diag in E. simpl in E. now rewrite !app_nil_r in E. }
  split.
  - apply (f_equal zsum) in E1. unfold bucket in E1. rewrite !zsum_app, !zsum_repeat in E1. lia.
  - rewrite E1 in E. now apply app_inv_head in E.
Qed.
Lemma expand_inj s : forall w w', length w = length s -> length w' = length s ->
  (forall i, (i < length s)%nat -> 0 <= nth i w 0 <= nth i s 0) ->
  (forall i, (i < length s)%nat -> 0 <= nth i w' 0 <= nth i s 0) ->
  expand s w = expand s w' -> w = w'.
Proof.
  induction s as [|n s IH]; intros [|c w] [|c' w'] HL HL' H H' E; simpl in HL, HL'; try lia; auto.
  unfold expand in E. cbn [map2 concat] in E.
  pose proof (H 0%nat ltac:(simpl; lia)) as H0. pose proof (H' 0%nat ltac:(simpl; lia)) as H0'. simpl in H0, H0'.
  apply repeat_prefix_inj in E; auto. destruct E as [-> E]. f_equal. apply IH; auto; try lia.
  - intros i Hi. apply (H (S i)). simpl. lia.
  - intros i Hi. apply (H' (S i)). simpl. lia.
Qed.

Lemma binarize_spec s a : rooms s a -> (forall i, (i < length s)%nat -> 0 <= nth i (av a) 0 <= nth i s 0) ->
  binarize a = Ok (expand s (av a)).
Proof.
  intros HR H. pose proof HR as (H1 & H2 & H3 & H4). unfold binarize.
  assert (E : forallb (fun x => negb (is_unknown x)) (av a) = true).
  { apply forallb_all. intros x Hx. apply (In_nth _ _ 0) in Hx. destruct Hx as (i & Hi & <-).
    specialize (H i ltac:(lia)). unfold is_unknown, UNKNOWN. lia. }
  rewrite E. cbn [assert_ bind]. rewrite (rooms_quota s) by auto. cbn [bind].
  assert (E2 : any2 Z.gtb (av a) s = false).
  { apply any2_gtb_false; auto. intros i Hi. apply H. lia. }
  rewrite E2. cbn [negb assert_ bind]. f_equal. rewrite H2.
  apply (binarize_loop_expand s (av a) []); auto.
Qed.

(** ** solve_question *)
Definition disj (R R' : question) : Prop :=
  forall w, extends (av (qans R)) w -> extends (av (qans R')) w -> False.

Lemma FOP_app {A} (P : A -> A -> Prop) l1 l2 :
  ForallOrdPairs P l1 -> ForallOrdPairs P l2 -> (forall x y, In x l1 -> In y l2 -> P x y) ->
  ForallOrdPairs P (l1 ++ l2).
Proof.
  induction 1 as [|a l1 Ha Hl IH]; intros H2 H; simpl; auto. constructor.
  - apply Forall_app. split; auto. apply Forall_forall. intros y Hy. apply H; auto. now left.
  - apply IH; auto. intros; apply H; auto. now right.
Qed.

(** [Q] is on the stack, standing for the solutions of [R] *)
Definition cand (s : list Z) (R Q : question) : Prop :=
  base s R /\ 1 <= prodb (qbounds R) <= prodb (qbounds Q)
  /\ ((refine Q = NoSolution /\ forall w, ~ solw s R w)
      \/ exists Q', refine Q = Ok Q' /\ refined s Q' /\ step s R Q').

Lemma cand_self s Q : base s Q -> distinct Q -> fits Q -> cand s Q Q.
Proof.
  intros HB HD HF. split; auto. split.
  - split; [|lia]. apply prodb_pos. intros x Hx. now apply (i_bd _ _ HB) in Hx.
  - now apply refine_distinct.
Qed.

Definition within (s w : list Z) : Prop := forall i, (i < length s)%nat -> 0 <= nth i w 0 <= nth i s 0.

Record qinv (s : list Z) (Q1 : question) (stack : list question) (out : list (list Z))
    (reps : list question) (ws : list (list Z)) : Prop := {
  v_cand : Forall2 (cand s) reps stack;
  v_weak : forall R w, In R reps -> weakw R w -> weakw Q1 w;
  v_out : out = map (expand s) ws;
  v_ws : forall w, In w ws -> weakw Q1 w /\ within s w;
  v_sol : forall w, solw s Q1 w -> In w ws \/ exists R, In R reps /\ solw s R w;
  v_nd : NoDup ws;
  v_sep : forall w R, In w ws -> In R reps -> ~ extends (av (qans R)) w;
  v_disj : ForallOrdPairs disj reps }.

Definition stack_mu (stack : list question) : Z := zsum (map (fun Q => prodb (qbounds Q)) stack).

Lemma Forall2_in_l {A B} (P : A -> B -> Prop) la lb a : Forall2 P la lb -> In a la -> exists b, In b lb /\ P a b.
Proof.
  induction 1 as [|x y la lb H H' IH]; intros Hin; [easy|]. destruct Hin as [<-|Hin].
  - exists y. split; auto. now left.
  - destruct (IH Hin) as (b & Hb & Hp). exists b. split; auto. now right.
Qed.
Lemma Forall2_in_r {A B} (P : A -> B -> Prop) la lb b : Forall2 P la lb -> In b lb -> exists a, In a la /\ P a b.
Proof.
  induction 1 as [|x y la lb H H' IH]; intros Hin; [easy|]. destruct Hin as [<-|Hin].
  - exists x. split; auto. now left.
  - destruct (IH Hin) as (a & Ha & Hp). exists a. split; auto. now right.
Qed.
Lemma Forall2_len {A B} (P : A -> B -> Prop) la lb : Forall2 P la lb -> length la = length lb.
Proof. induction 1; simpl; auto. Qed.
Lemma Forall2_rev {A B} (P : A -> B -> Prop) la lb : Forall2 P la lb -> Forall2 P (rev la) (rev lb).
Proof. induction 1; simpl; auto. apply Forall2_app; auto. Qed.

Lemma all_known Q s : base s Q -> qcols Q = 0%nat -> forall x, In x (av (qans Q)) -> 0 <= x.
Proof.
  intros HB HC x Hx. destruct (i_av _ _ HB x Hx) as [->|?]; auto. exfalso.
  pose proof (i_ul _ _ HB) as HL. rewrite HC in HL.
  apply (In_nth _ _ 0) in Hx. destruct Hx as (i & Hi & E).
  assert (Hin : In i (unknown_loc (qans Q))) by (apply in_unknown; auto).
  destruct (unknown_loc (qans Q)); [easy|discriminate].
Qed.

Lemma extends_self_known v w : (forall x, In x v -> 0 <= x) -> extends v w -> w = v.
Proof.
  intros Hk [HL H]. apply nth_ext0; auto. intros i Hi. destruct (H i ltac:(lia)) as [E|E]; auto.
  exfalso. assert (0 <= nth i v 0) by (apply Hk, nth_In; lia). unfold UNKNOWN in E. lia.
Qed.
Lemma extends_refl v : extends v v.
Proof. split; auto. Qed.

Lemma answer_unknown_cols s Q : base s Q -> answer_unknown (qans Q) = negb (Nat.eqb (qcols Q) 0).
Proof.
  intros HB. rewrite <- (i_ul _ _ HB). unfold answer_unknown, unknown_loc.
  destruct (Nat.eqb_spec (length (where_ is_unknown (av (qans Q)))) 0) as [E|E]; simpl.
  - apply existsb_none. intros x Hx. apply (where_from_nil is_unknown (av (qans Q)) 0); auto.
    unfold where_ in E. destruct (where_from 0 is_unknown (av (qans Q))); [reflexivity|discriminate].
  - destruct (existsb is_unknown (av (qans Q))) eqn:Ex; auto. rewrite existsb_none in Ex.
    exfalso. apply E. unfold where_. rewrite where_from_none by auto. reflexivity.
Qed.

Lemma solved_weak s Q : base s Q -> qcols Q = 0%nat -> weakw Q (av (qans Q)).
Proof.
  intros HB HC. pose proof (all_known Q s HB HC) as Hk. constructor.
  - apply extends_refl.
  - exact Hk.
  - intros row x Hin. destruct (qsys_good _ _ _ _ HB Hin) as (L & _ & H).
    destruct row; [simpl; lia|simpl in L; lia].
Qed.

Lemma question_step_spec s Q1 stack out reps ws : qinv s Q1 stack out reps ws ->
  match question_step (stack, out) with
  | inl (stack', out') => (exists reps' ws', qinv s Q1 stack' out' reps' ws') /\ stack_mu stack' < stack_mu stack
  | inr r => exists ws', r = Ok (rev (map (expand s) ws')) /\ NoDup ws'
       /\ (forall w, In w ws' -> weakw Q1 w /\ within s w) /\ (forall w, solw s Q1 w -> In w ws')
  end.
Proof.
  intros [V1 V2 V3 V4 V5 V6 V7 V8]. unfold question_step.
  destruct stack as [|Q rest].
  { inversion V1; subst. exists ws. conj; auto.
    intros w Hw. destruct (V5 w Hw) as [?|(R & [] & _)]; auto. }
  inversion V1 as [|R Q' reps' rest' Hc Hrest E1 E2]; subst reps.
  destruct Hc as (HBR & Hmu & Hc). inversion V8 as [|? ? Hd Hdr]; subst. rewrite Forall_forall in Hd.
  assert (Hmur : stack_mu rest < stack_mu (Q :: rest)).
  { unfold stack_mu. simpl. rewrite zsum_cons. lia. }
  assert (Hdrop : (forall w, ~ solw s R w) -> exists reps' ws', qinv s Q1 rest (map (expand s) ws) reps' ws').
  { intros Hno. exists reps', ws. constructor; auto.
    - intros R0 w Hin. apply V2. now right.
    - intros w Hw. destruct (V5 w Hw) as [?|(R0 & [<-|Hin] & Hs)]; auto; [exfalso; eapply Hno; eauto|].
      right. eauto.
    - intros w R0 Hw Hin. apply V7; auto. now right. }
  destruct Hc as [[E Hno]|(Q' & E & HR & HS)]; rewrite E; [split; auto|].
  pose proof HR as (HB' & HD' & HF' & (HP' & HP0 & HPr) & HN').
  pose proof (i_rooms _ _ HB') as Hrm. pose proof Hrm as (_ & _ & HLv & _).
  rewrite (answer_unknown_cols s) by auto.
  destruct (Nat.eqb_spec (qcols Q') 0) as [HC|HC]; cbn [negb].
  - (* complete *)
    pose proof (all_known Q' s HB' HC) as Hk.
    assert (Hw : within s (av (qans Q'))).
    { intros i Hi. split; [|now apply HPr]. apply Hk, nth_In. lia. }
    rewrite (binarize_spec s) by auto. split; auto.
    set (w0 := av (qans Q')) in *.
    assert (HwR : extends (av (qans R)) w0) by (apply (st_ext _ _ _ HS), extends_refl).
    exists reps', (w0 :: ws). constructor; auto.
    + intros R0 w Hin. apply V2. now right.
    + intros w [<-|Hin]; auto. split; auto. apply (V2 R); [now left|]. apply (st_weak _ _ _ HS).
      now apply (solved_weak s).
    + intros w Hs. destruct (V5 w Hs) as [?|(R0 & [<-|Hin] & Hs')]; [left; now right| |right; eauto].
      left. left. symmetry. apply extends_self_known; auto. apply (st_sol _ _ _ HS) in Hs'. apply Hs'.
    + constructor; auto. intros Hin. apply (V7 w0 R); auto. now left.
    + intros w R0 [<-|Hin] HR0; [|apply V7; auto; now right]. intros He. now apply (Hd R0 HR0 w0).
  - (* fork *)
    destruct (fork_enum_spec s Q' HR ltac:(lia)) as (m & qs & Hm & Em & EF & HF). rewrite EF.
    set (vals := fork_enum_values (qquota Q') (qbounds Q') m) in *.
    assert (Hvr : forall q, In q vals -> 0 <= q <= nth m (qbounds Q') 0) by (intros q Hq; apply in_zrange in Hq; lia).
    assert (Hvn : NoDup vals) by apply zrange_nodup.
    assert (Hc1 : forall j, In j [m] -> (j < qcols Q')%nat) by (intros j [<-|[]]; auto).
    assert (Hnd : NoDup [m]) by (repeat constructor; easy).
    assert (Hq : forall c, In c qs -> exists q, In q vals /\ substituted [m] [q] Q' c /\ base s c /\ distinct c
                 /\ forall w, (extends (av (qans c)) w <-> extends (av (qans Q')) w /\ nth m (unknowns Q' w) 0 = q)).
    { intros c Hin. destruct (Forall2_in_r _ _ _ _ HF Hin) as (q & Hqin & H1 & H2 & H3). exists q. conj; auto.
      intros w. rewrite (su_extends s [m] [q] Q' c) by (auto; intros x [<-|[]]; now apply Hvr).
      split; intros [A B]; split; auto; [injection B as ->; auto|unfold pick; simpl; now rewrite B]. }
    assert (Hmu' : stack_mu (rev qs ++ rest) < stack_mu (Q :: rest)).
    { unfold stack_mu. rewrite map_app, zsum_app. simpl. rewrite zsum_cons.
      assert (Hsum : zsum (map (fun Q0 => prodb (qbounds Q0)) (rev qs)) < prodb (qbounds Q)); [|lia].
      assert (Hqp : forall c, In c (rev qs) -> prodb (qbounds c) = prodb (delete [m] (qbounds Q'))).
      { intros c Hin. apply in_rev in Hin. destruct (Hq c Hin) as (q & _ & H1 & _). now rewrite (su_bounds _ _ _ _ H1). }
      rewrite (zsum_map_ext _ (fun _ => prodb (delete [m] (qbounds Q')))) by exact Hqp.
      assert (EL : length qs = length vals) by (symmetry; eapply Forall2_len; eauto).
      assert (Econst : forall (l : list question) x, zsum (map (fun _ => x) l) = x * Z.of_nat (length l)).
      { induction l as [|a l IH]; intros x; [unfold zsum; simpl; lia|]. cbn [map length]. rewrite zsum_cons, IH. lia. }
      rewrite Econst, rev_length, EL. unfold vals, fork_enum_values. rewrite zrange_length.
      pose proof (st_mu _ _ _ HS) as Hmu2.
      rewrite (prodb_delete1 m (qbounds Q')) in Hmu2 by (rewrite (i_bdlen _ _ HB'); auto).
      set (P := prodb (delete [m] (qbounds Q'))) in *.
      assert (HPp : 1 <= P) by (apply prodb_pos; intros x Hx; apply in_delete in Hx; now apply (i_bd _ _ HB') in Hx).
      set (b := nth m (qbounds Q') 0) in *.
      assert (0 <= b) by (apply (i_bd _ _ HB'), nth_In; rewrite (i_bdlen _ _ HB'); auto).
      nia. }
    split; auto. exists (rev qs ++ reps'), ws. constructor; auto.
    + apply Forall2_app; auto.
      assert (Hall : forall c, In c (rev qs) -> cand s c c).
      { intros c Hin. apply in_rev in Hin. destruct (Hq c Hin) as (q & _ & HSc & ? & ? & _). apply cand_self; auto.
        now apply (su_fits [m] [q] Q'). }
      clear - Hall. induction (rev qs) as [|c l IH]; constructor; [apply Hall; now left|]. apply IH. intros; apply Hall; now right.
    + intros R0 w Hin Hw. apply in_app_iff in Hin. destruct Hin as [Hin|Hin]; [|apply (V2 R0); auto; now right].
      apply in_rev in Hin. destruct (Hq R0 Hin) as (q & Hqv & HSu & _). apply (V2 R); [now left|].
      apply (st_weak _ _ _ HS). apply (su_weak s [m] [q] Q' R0); auto. intros x [<-|[]]. now apply Hvr.
    + intros w Hw. destruct (V5 w Hw) as [?|(R0 & [<-|Hin] & Hs)]; auto.
      2:{ right. exists R0. split; auto. apply in_app_iff. now right. }
      right. apply (st_sol _ _ _ HS) in Hs.
      assert (LU : length (unknowns Q' w) = qcols Q') by (rewrite unknowns_length; apply (i_ul _ _ HB')).
      assert (Hin : In (nth m (unknowns Q' w) 0) vals).
      { apply in_zrange. pose proof (sw_bd _ _ _ Hs m Hm) as H1.
        assert (0 <= nth m (unknowns Q' w) 0).
        { apply (pick_pos (unknown_loc (qans Q')) w); [apply (solw_pos s Q'); auto|]. apply nth_In.
          rewrite pick_length, (i_ul _ _ HB'); auto. }
        pose proof (sw_quota _ _ _ Hs) as H2. rewrite (zsum_split [m]) in H2 by (auto; rewrite LU; auto).
        assert (H3 : zsum (delete [m] (unknowns Q' w)) <= zsum (delete [m] (qbounds Q'))).
        { rewrite !(delete_pick 0), LU, (i_bdlen _ _ HB'). apply zsum_le_nth; [now rewrite !pick_length|].
          rewrite pick_length. intros i Hi. rewrite !nth_pick by auto. apply (sw_bd _ _ _ Hs).
          apply (in_keep [m] (qcols Q')). apply nth_In; auto. }
        unfold pick in H2. simpl in H2. unfold zsum at 2 in H2. simpl in H2. lia. }
      destruct (Forall2_in_l _ _ _ _ HF Hin) as (c & Hc & H1 & H2 & H3).
      exists c. split; [apply in_app_iff; left; now apply -> in_rev|].
      apply (su_sol s [m] [nth m (unknowns Q' w) 0] Q' c); auto.
      intros x [<-|[]]. now apply Hvr.
    + intros w R0 Hw HR0. apply in_app_iff in HR0. destruct HR0 as [HR0|HR0]; [|apply V7; auto; now right].
      apply in_rev in HR0. destruct (Hq R0 HR0) as (q & _ & _ & _ & _ & He). intros H. apply He in H.
      apply (V7 w R); [auto|now left|]. apply (st_ext _ _ _ HS). tauto.
    + apply FOP_app; auto.
      * assert (G : forall vs cs, Forall2 (fun q c => forall w, extends (av (qans c)) w -> nth m (unknowns Q' w) 0 = q) vs cs ->
                     NoDup vs -> ForallOrdPairs disj cs).
        { clear. induction 1 as [|q c vs cs Hqc HF IH]; intros Hn; constructor; inversion Hn as [|? ? N1 N2]; subst; auto.
          apply Forall_forall. intros c' Hc'. destruct (Forall2_in_r _ _ _ _ HF Hc') as (q' & Hq' & He').
          intros w W1 W2. apply Hqc in W1. apply He' in W2. apply N1. congruence. }
        apply (G (rev vals)); [|now apply NoDup_rev]. apply Forall2_rev.
        assert (Hvr' : forall q, In q vals -> 0 <= q) by (intros q Hq'; now apply Hvr).
        clear - HF Hc1 Hnd Hvr' HB'. induction HF as [|q c vs cs (H1 & H2 & H3) HF IH]; constructor.
        -- intros w He. apply (su_extends s [m] [q] Q' c) in He; auto; [|intros x [<-|[]]; apply Hvr'; now left].
           destruct He as [_ He]. injection He as He. exact He.
        -- apply IH. intros q' Hq'. apply Hvr'. now right.
      * intros c R0 Hin HR0 w W1 W2. apply in_rev in Hin. destruct (Hq c Hin) as (q & _ & _ & _ & _ & He).
        apply He in W1. apply (Hd R0 HR0 w); auto. apply (st_ext _ _ _ HS). tauto.
Qed.

Lemma prodb_fuel l : (forall b, In b l -> 0 <= b) ->
  prodb l < 2 ^ Z.of_nat (fold_right plus 1%nat (map (fun b => Z.to_nat (Z.log2 (b + 2)) + 1)%nat l)).
Proof.
  induction l as [|b l IH]; intros H; simpl fold_right.
  - change (2 ^ Z.of_nat 1) with 2. simpl. lia.
  - assert (Hb : 0 <= b) by (apply H; now left).
    specialize (IH ltac:(intros; apply H; now right)). fold (prodb l).
    rewrite Nat2Z.inj_add, Z.pow_add_r by lia.
    pose proof (Z.log2_spec (b + 2) ltac:(lia)) as [_ Hlog]. pose proof (Z.log2_nonneg (b + 2)).
    replace (Z.of_nat (Z.to_nat (Z.log2 (b + 2)) + 1)) with (Z.succ (Z.log2 (b + 2))) by lia.
    assert (1 <= prodb l) by (apply prodb_pos; intros; apply H; now right).
    change (prodb (b :: l)) with ((b + 2) * prodb l). nia.
Qed.

Lemma solve_question_spec s Q1 Q0 : cand s Q1 Q0 -> (forall b, In b (qbounds Q0) -> 0 <= b) ->
  exists ws, solve_question Q0 = Ok (map (expand s) ws) /\ NoDup ws
    /\ (forall w, In w ws -> weakw Q1 w /\ within s w)
    /\ (forall w, solw s Q1 w -> In w ws).
Proof.
  intros HC Hb0.
  assert (G : exists ws', solve_question Q0 = Ok (rev (map (expand s) ws')) /\ NoDup ws'
       /\ (forall w, In w ws' -> weakw Q1 w /\ within s w) /\ (forall w, solw s Q1 w -> In w ws')).
  { unfold solve_question.
    apply (while_spec question_step (fun st => exists reps ws, qinv s Q1 (fst st) (snd st) reps ws)
             (fun st => stack_mu (fst st))
             (fun r => exists ws', r = Ok (rev (map (expand s) ws')) /\ NoDup ws'
       /\ (forall w, In w ws' -> weakw Q1 w /\ within s w) /\ (forall w, solw s Q1 w -> In w ws'))).
    - intros [stack out] (reps & ws & HI). simpl. apply zsum_nonneg. intros a Ha.
      apply in_map_iff in Ha. destruct Ha as (Q & <- & Hin).
      destruct (Forall2_in_r _ _ _ _ (v_cand _ _ _ _ _ _ HI) Hin) as (R & _ & _ & Hmu & _). lia.
    - intros [stack out] (reps & ws & HI). simpl fst in *. simpl snd in *.
      pose proof (question_step_spec _ _ _ _ _ _ HI) as H. destruct (question_step (stack, out)) as [[st' out']|r]; exact H.
    - exists [Q1], []. simpl. constructor; auto.
      + intros R w [<-|[]]. auto.
      + intros w [].
      + intros w Hw. right. exists Q1. split; auto. now left.
      + constructor.
      + repeat constructor.
    - unfold stack_mu. simpl. rewrite zsum_cons. unfold zsum. simpl. rewrite Z.add_0_r. now apply prodb_fuel. }
  destruct G as (ws & E & H1 & H2 & H3). exists (rev ws). rewrite map_rev. split; auto. split; [now apply NoDup_rev|].
  split.
  - intros w Hw. apply H2. now apply in_rev.
  - intros w Hw. apply -> in_rev. auto.
Qed.
