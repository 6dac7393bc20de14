(** The search ends for every choice of the four arguments: no loop of the
    program runs forever, whatever the number of vertices (C85). *)
From Verif Require Import Np ModelGauss Model Spec Lib BitFacts ElimFacts QFacts StepFacts ForkFacts GroupFacts LevelFacts SolveFacts AnyFacts.
From Coq Require Import ZifyBool ZifyNat Sorting.Sorted.

(** ** the exceptions that a row question can end in *)
Definition fine (e : err) : bool := match e with AssertionError | StopIteration => true | _ => false end.
Definition ends {A} (r : res A) : Prop := match r with Raise e => fine e = true | _ => True end.
Ltac dis := first [exact I | discriminate | reflexivity].
Lemma ends_ok {A} (a : A) : ends (Ok a).
Proof. dis. Qed.
Lemma ends_bind {A B} (x : res A) (f : A -> res B) : ends x -> (forall a, x = Ok a -> ends (f a)) -> ends (bind x f).
Proof. destruct x; cbn [bind]; intros H1 H2; auto. Qed.
Lemma ends_assert c : ends (assert_ c).
Proof. destruct c; dis. Qed.
Lemma ends_mapM {A B} (f : A -> res B) l : (forall a, In a l -> ends (f a)) -> ends (mapM f l).
Proof.
  induction l as [|a l IH]; intros H; cbn [mapM]; [dis|]. apply ends_bind; [apply H; now left|]. intros b _.
  apply ends_bind; [apply IH; intros; apply H; now right|]. intros; dis.
Qed.
Lemma ends_mk_answer v loc n : ends (mk_answer v loc n).
Proof.
  unfold mk_answer. apply ends_bind; [apply ends_assert|]. intros _ _. apply ends_bind; [|intros; dis].
  destruct loc; [dis|]. apply ends_bind; [apply ends_assert|]. intros _ _. apply ends_bind; [apply ends_assert|]. intros _ _. apply ends_assert.
Qed.
Lemma ends_mk_question A b q bd a : ends (mk_question A b q bd a).
Proof.
  unfold mk_question. do 5 (apply ends_bind; [apply ends_assert|]; intros _ _).
  apply ends_bind; [|intros; dis]. destruct a; [dis|]. apply ends_mk_answer.
Qed.
Lemma ends_answer_quota a : ends (answer_quota a).
Proof. unfold answer_quota. cbv zeta. apply ends_bind; [apply ends_assert|]. intros; dis. Qed.
Lemma ends_post_check Q : ends (post_check Q).
Proof.
  unfold post_check. cbv zeta. destruct (_ && _); [dis|]. apply ends_bind; [apply ends_assert|]. intros _ _.
  destruct (_ && _); [dis|]. apply ends_bind; [apply ends_answer_quota|]. intros. destruct (any2 _ _ _); dis.
Qed.

(** ** the invariant: a question of the right shape, with no meaning assumed *)
Record loose (Q : question) : Prop := {
  lo_rows : forall row, In row (mrows (qA Q)) -> length row = qcols Q /\ bits row;
  lo_blen : length (qb Q) = mnrows (qA Q);
  lo_b : forall x, In x (qb Q) -> 0 <= x;
  lo_bdlen : length (qbounds Q) = qcols Q;
  lo_bd : forall x, In x (qbounds Q) -> 0 <= x <= 127;
  lo_some : (1 <= mnrows (qA Q))%nat;
  lo_ul : length (unknown_loc (qans Q)) = qcols Q }.
Definition vol (Q : question) : Z := prodb (qbounds Q).
Definition small (Q : question) : Prop := forall x, In x (qb Q) -> x <= 127.

Lemma vol_pos Q : loose Q -> 1 <= vol Q.
Proof. intros H. apply prodb_pos. intros x Hx. now apply (lo_bd _ H) in Hx. Qed.
Lemma i8_below x : 0 <= x -> 0 <= i8 x -> i8 x <= x.
Proof.
  intros H1 _. unfold i8, wrap. destruct ((_ <=? x) && (x <? _)); [lia|].
  pose proof (Z.div_mod (x + 128) (2 * 128) ltac:(lia)). assert (0 <= (x + 128) / (2 * 128)) by (apply Z.div_pos; lia). lia.
Qed.
Lemma bits_pick js row : bits row -> bits (pick 0 js row).
Proof.
  intros H a Ha. apply in_map_iff in Ha. destruct Ha as (j & <- & _).
  destruct (Nat.lt_ge_cases j (length row)) as [L|L]; [apply H; now apply nth_In|left; now apply nth_overflow].
Qed.
Lemma bits_delete js row : bits row -> bits (delete js row).
Proof. intros H a Ha. apply H. now apply in_delete in Ha. Qed.

(** ** grouping *)
Lemma group_add_cases k j d : 
  (group_add k j d = d ++ [(k, [j])]) \/ exists d1 ls d2, d = d1 ++ (k, ls) :: d2 /\ group_add k j d = d1 ++ (k, ls ++ [j]) :: d2.
Proof.
  induction d as [|[k' ls] d IH]; cbn [group_add]; [now left|]. destruct (Z.eqb_spec k' k) as [->|Hne].
  - right. exists [], ls, d. auto.
  - destruct IH as [->|(d1 & ls' & d2 & -> & ->)]; [now left|]. right. exists ((k', ls) :: d1), ls', d2. auto.
Qed.
Definition room (bd : list Z) (ls : list nat) : Z := zsum (pick 0 ls bd).
Definition volume (bd : list Z) (d : list (Z * list nat)) : Z := prodb (map (fun p => room bd (snd p)) d).
Lemma prodb_app a b : prodb (a ++ b) = prodb a * prodb b.
Proof. unfold prodb. induction a as [|x a IH]; cbn [app fold_right]; [lia|]. rewrite IH. ring. Qed.
Lemma prodb_cons a l : prodb (a :: l) = (a + 2) * prodb l.
Proof. reflexivity. Qed.
Lemma room_nonneg bd ls : (forall x, In x bd -> 0 <= x) -> 0 <= room bd ls.
Proof.
  intros H. apply zsum_nonneg. intros a Ha. apply in_map_iff in Ha. destruct Ha as (j & <- & _).
  destruct (Nat.lt_ge_cases j (length bd)) as [L|L]; [apply H; now apply nth_In|rewrite nth_overflow; lia].
Qed.
Lemma volume_pos bd d : (forall x, In x bd -> 0 <= x) -> 1 <= volume bd d.
Proof. intros H. apply prodb_pos. intros x Hx. apply in_map_iff in Hx. destruct Hx as (p & <- & _). now apply room_nonneg. Qed.
Lemma room_app bd a b : room bd (a ++ b) = room bd a + room bd b.
Proof. unfold room, pick. now rewrite map_app, zsum_app. Qed.
Lemma room_one bd j : room bd [j] = nth j bd 0.
Proof. unfold room, pick. cbn [map]. rewrite zsum_cons. unfold zsum. cbn. lia. Qed.
Lemma nth_nonneg bd j : (forall x, In x bd -> 0 <= x) -> 0 <= nth j bd 0.
Proof. intros H. rewrite <- room_one. now apply room_nonneg. Qed.
Lemma volume_add bd k j d : (forall x, In x bd -> 0 <= x) -> volume bd (group_add k j d) <= volume bd d * (nth j bd 0 + 2).
Proof.
  intros H. pose proof (nth_nonneg bd j H) as Hj. unfold volume. destruct (group_add_cases k j d) as [->|(d1 & ls & d2 & -> & ->)].
  - rewrite map_app, prodb_app. cbn [map snd]. rewrite room_one, prodb_cons. change (prodb []) with 1. lia.
  - rewrite !map_app, !prodb_app. cbn [map snd]. rewrite !prodb_cons, room_app, room_one.
    pose proof (volume_pos bd d1 H) as P1. pose proof (volume_pos bd d2 H) as P2. pose proof (room_nonneg bd ls H).
    unfold volume in *. set (a := prodb (map (fun p => room bd (snd p)) d1)) in *. set (c := prodb (map (fun p => room bd (snd p)) d2)) in *.
    set (r := room bd ls) in *. set (n := nth j bd 0) in *.
    assert (a * ((r + n + 2) * c) <= a * (((r + 2) * (n + 2)) * c)); [|lia]. apply Z.mul_le_mono_nonneg_l; [lia|].
    apply Z.mul_le_mono_nonneg_r; [lia|]. nia.
Qed.
Lemma volume_fold bd l : (forall x, In x bd -> 0 <= x) -> forall d,
  volume bd (fold_left (fun d kj => group_add (fst kj) (snd kj) d) l d) <= volume bd d * prodb (map (fun kj => nth (snd kj) bd 0) l).
Proof.
  intros H. induction l as [|[k j] l IH]; intros d; cbn [fold_left map fst snd].
  - change (prodb []) with 1. lia.
  - rewrite prodb_cons. etransitivity; [apply IH|]. pose proof (volume_add bd k j d H).
    assert (1 <= prodb (map (fun kj : Z * nat => nth (snd kj) bd 0) l)) by (apply prodb_pos; intros x Hx; apply in_map_iff in Hx; destruct Hx as (p & <- & _); now apply nth_nonneg).
    nia.
Qed.
Lemma groups_volume bd enc : (forall x, In x bd -> 0 <= x) -> length enc = length bd ->
  prodb (map (room bd) (groups enc)) <= prodb bd.
Proof.
  intros H L. unfold groups. rewrite map_map. change (volume bd (fold_left (fun d kj => group_add (fst kj) (snd kj) d) (map2 pair enc (seq 0 (length enc))) []) <= prodb bd).
  etransitivity; [apply volume_fold; auto|]. change (volume bd []) with 1.
  assert (E : map (fun kj => nth (snd kj) bd 0) (map2 pair enc (seq 0 (length enc))) = bd).
  { rewrite <- (map_map snd (fun j => nth j bd 0)), map2_pair_snd by now rewrite seq_length. rewrite L. apply map_nth_seq. }
  rewrite E. lia.
Qed.
Lemma groups_fold l : forall d, (length (fold_left (fun d kj => group_add (fst kj) (snd kj) d) l d) <= length d + length l)%nat
  /\ (length (fold_left (fun d kj => group_add (fst kj) (snd kj) d) l d) = (length d + length l)%nat ->
      fold_left (fun d kj => group_add (fst kj) (snd kj) d) l d = d ++ map (fun kj => (fst kj, [snd kj])) l).
Proof.
  induction l as [|[k j] l IH]; intros d; cbn [fold_left length map fst snd].
  - rewrite app_nil_r. split; [lia|auto].
  - specialize (IH (group_add k j d)). destruct IH as [I1 I2]. destruct (group_add_cases k j d) as [E|(d1 & ls & d2 & E1 & E2)].
    + rewrite E, app_length in *. cbn [length] in *. split; [lia|]. intros HL. rewrite I2 by lia. now rewrite <- app_assoc.
    + assert (L : length (group_add k j d) = length d) by (rewrite E2, E1, !app_length; reflexivity). split; lia.
Qed.
Lemma groups_small enc : (length (groups enc) <= length enc)%nat
  /\ (length (groups enc) = length enc -> groups enc = map (fun j => [j]) (seq 0 (length enc))).
Proof.
  unfold groups. rewrite map_length. destruct (groups_fold (map2 pair enc (seq 0 (length enc))) []) as [H1 H2].
  assert (L : length (map2 pair enc (seq 0 (length enc))) = length enc) by (rewrite map2_length, seq_length; lia).
  rewrite L in *. cbn [length] in *. split; [lia|]. intros H. rewrite H2 by lia. cbn [app]. rewrite map_map. cbn [snd].
  rewrite <- (map_map snd (fun j : nat => [j])), map2_pair_snd by now rewrite seq_length. reflexivity.
Qed.

Lemma nonneg_in l x : nonneg l = true -> In x l -> 0 <= x.
Proof. unfold nonneg. rewrite forallb_forall. intros H Hx. specialize (H _ Hx). lia. Qed.
Lemma assert_ok c a : assert_ c = Ok a -> c = true.
Proof. destruct c; [auto|dis]. Qed.
Lemma post_check_bounds Q Q' : post_check Q = Ok Q' -> length (qbounds Q) = qcols Q.
Proof.
  unfold post_check, qcols. cbv zeta. destruct (_ && _); [dis|]. intros H. apply bind_ok in H. destruct H as (u & H & _).
  apply assert_ok in H. now apply Nat.eqb_eq in H.
Qed.
Lemma question_copy_same Q Q' : question_copy Q = Ok Q' -> Q' = Q.
Proof.
  unfold question_copy. intros H. apply bind_ok in H. destruct H as (a & Ha & H).
  assert (a = qans Q) as ->.
  { unfold answer_copy, mk_answer in Ha. apply bind_ok in Ha. destruct Ha as (? & _ & Ha). apply bind_ok in Ha. destruct Ha as (? & _ & Ha).
    injection Ha as <-. now destruct (qans Q). }
  unfold mk_question in H. do 5 (apply bind_ok in H; destruct H as (? & _ & H)). cbn [bind] in H. injection H as <-. now destruct Q.
Qed.
Lemma ends_question_copy Q : ends (question_copy Q).
Proof. unfold question_copy. apply ends_bind; [apply ends_mk_answer|]. intros. apply ends_mk_question. Qed.

(** ** one step after the other keeps the shape and does not raise the measure *)
Record less (Q Q' : question) : Prop := {
  le_loose : loose Q';
  le_vol : vol Q' <= vol Q;
  le_cols : (qcols Q' <= qcols Q)%nat }.
Lemma less_trans A B C : less A B -> less B C -> less A C.
Proof. intros [a1 a2 a3] [b1 b2 b3]. constructor; auto; lia. Qed.

Lemma map_hd_single n : forall i, map (fun ls => hd 0%nat ls) (map (fun j => [j]) (seq i n)) = seq i n.
Proof. intros i. rewrite map_map. cbn [hd]. apply map_id. Qed.
Lemma concat_tl_single n : forall i, concat (map (@tl nat) (map (fun j => [j]) (seq i n))) = [].
Proof. induction n as [|n IH]; intros i; cbn [seq map tl concat app]; [reflexivity|apply IH]. Qed.

Lemma groups_fold_in n l : (forall kj, In kj l -> (snd kj < n)%nat) -> forall d : list (Z * list nat), (forall p j, In p d -> In j (snd p) -> (j < n)%nat) ->
  forall p j, In p (fold_left (fun d kj => group_add (fst kj) (snd kj) d) l d) -> In j (snd p) -> (j < n)%nat.
Proof.
  induction l as [|[k i] l IH]; intros Hl d Hd; cbn [fold_left fst snd]; [exact Hd|]. apply IH; [intros; apply Hl; now right|].
  pose proof (Hl (k, i) (or_introl eq_refl)) as Hi. cbn [snd] in Hi. intros p j Hp Hj.
  destruct (group_add_cases k i d) as [E|(d1 & ls & d2 & E1 & E2)].
  - rewrite E in Hp. apply in_app_iff in Hp. destruct Hp as [Hp|[<-|[]]]; [eauto|]. cbn [snd] in Hj. destruct Hj as [<-|[]]. exact Hi.
  - rewrite E2 in Hp. apply in_app_iff in Hp. destruct Hp as [Hp|[<-|Hp]]; [apply (Hd p j); [rewrite E1; apply in_app_iff; now left|auto]| |apply (Hd p j); [rewrite E1; apply in_app_iff; right; now right|auto]].
    cbn [snd] in Hj. apply in_app_iff in Hj. destruct Hj as [Hj|[<-|[]]]; [|exact Hi]. apply (Hd (k, ls) j); [rewrite E1; apply in_app_iff; right; now left|exact Hj].
Qed.
Lemma groups_in enc ls j : In ls (groups enc) -> In j ls -> (j < length enc)%nat.
Proof.
  unfold groups. intros H Hj. apply in_map_iff in H. destruct H as (p & <- & Hp).
  refine (groups_fold_in (length enc) _ _ [] _ p j Hp Hj); [|easy]. intros [k i] Hin. cbn [snd].
  assert (In i (seq 0 (length enc))); [|now apply in_seq in H].
  rewrite <- (map2_pair_snd enc (seq 0 (length enc))) by now rewrite seq_length. apply in_map_iff. exists (k, i). auto.
Qed.
Lemma ends_reduce_col Q : loose Q -> ends (reduce_col Q).
Proof.
  intros HL. unfold reduce_col, reduce_col_body. cbv zeta. apply ends_bind; [|intros; apply ends_post_check].
  destruct (_ <? 2)%nat; [dis|]. pose proof (lo_some _ HL) as HS. apply ends_bind.
  { unfold unique_encode. destruct (Nat.eqb_spec (mnrows (qA Q)) 0); [lia|dis]. }
  intros enc He. assert (Le : length enc = qcols Q).
  { unfold unique_encode in He. destruct (Nat.eqb _ 0); [dis|]. injection He as <-. now rewrite map_length, seq_length. }
  rewrite (lo_bdlen _ HL). unfold qcols. rewrite Nat.ltb_irrefl.
  destruct (existsb _ _) eqn:EX.
  { exfalso. apply existsb_exists in EX. destruct EX as (j & Hj & HE). apply in_concat in Hj. destruct Hj as (t & Ht & Hj).
    apply in_map_iff in Ht. destruct Ht as (ls & <- & Hls). assert (In j ls) by (destruct ls; [exact Hj|now right]).
    pose proof (groups_in enc ls j Hls H). rewrite (lo_ul _ HL) in HE. apply Nat.leb_le in HE. lia. }
  apply ends_bind; [apply ends_assert|]. intros _ _. apply ends_bind; [apply ends_mk_answer|]. intros a _.
  apply ends_bind; [apply ends_assert|]. intros; dis.
Qed.
Lemma reduce_col_less Q Q' : loose Q -> reduce_col Q = Ok Q' -> less Q Q' /\ (Q' = Q \/ (qcols Q' < qcols Q)%nat).
Proof.
  intros HL H. unfold reduce_col in H. apply bind_ok in H. destruct H as (Q1 & H & HP). apply post_check_id in HP. subst Q1.
  unfold reduce_col_body in H. cbv zeta in H. fold (qcols Q) in H.
  destruct (Nat.ltb_spec (qcols Q) 2) as [_|HC].
  { injection H as <-. split; [|auto]. constructor; auto; lia. }
  apply bind_ok in H. destruct H as (enc & He & H).
  assert (Le : length enc = qcols Q).
  { unfold unique_encode in He. destruct (Nat.eqb _ 0); [dis|]. injection He as <-. now rewrite map_length, seq_length. }
  clear He. destruct (_ <? _)%nat; [dis|]. destruct (existsb _ _); [dis|].
  apply bind_ok in H. destruct H as (u1 & H1 & H). apply assert_ok in H1.
  apply bind_ok in H. destruct H as (a & Ha & H). apply bind_ok in H. destruct H as (u2 & H2 & H). apply assert_ok in H2. injection H as <-.
  pose proof (lo_bdlen _ HL) as Hbl. destruct (groups_small enc) as [G1 G2].
  assert (Hnn : forall x, In x (qbounds Q) -> 0 <= x) by (intros x Hx; now apply (lo_bd _ HL) in Hx).
  pose proof (groups_volume (qbounds Q) enc Hnn ltac:(lia)) as GV.
  set (bn := map (fun ls => zsum (pick 0 ls (qbounds Q))) (groups enc)) in *.
  split; [constructor; [constructor|..]|]; unfold qcols, mnrows, vol; cbn [qA qb qbounds mcols mrows].
  - intros row Hr. apply in_map_iff in Hr. destruct Hr as (r & <- & Hr). destruct (lo_rows _ HL _ Hr) as [_ Hb].
    split; [unfold pick; now rewrite map_length|now apply bits_pick].
  - rewrite map_length. apply (lo_blen _ HL).
  - apply (lo_b _ HL).
  - unfold bn. now rewrite !map_length.
  - intros x Hx. split; [eapply nonneg_in; eauto|]. apply in_map_iff in Hx. destruct Hx as (z & <- & _). pose proof (i8_range z). lia.
  - rewrite map_length. apply (lo_some _ HL).
  - unfold answer_fits in H2. apply Nat.eqb_eq in H2. exact H2.
  - transitivity (prodb bn); [|exact GV].
    apply prodb_le; [now rewrite map_length|intros x Hx; eapply nonneg_in; eauto|].
    intros i Hi. rewrite map_length in Hi.
    assert (E : nth i (map i8 bn) 0 = i8 (nth i bn 0)) by (rewrite (nth_indep _ 0 (i8 0)) by (rewrite map_length; exact Hi); apply map_nth).
    rewrite E. apply i8_below.
    + assert (In (nth i bn 0) bn) as Hin by now apply nth_In. apply in_map_iff in Hin. destruct Hin as (ls & <- & _). now apply room_nonneg.
    + rewrite <- E. eapply nonneg_in; [exact H1|]. apply nth_In. now rewrite map_length.
  - rewrite map_length. unfold qcols in *. lia.
  - rewrite map_length. destruct (Nat.eq_dec (length (groups enc)) (length enc)) as [EG|NG]; [left|right; unfold qcols in *; lia].
    specialize (G2 EG). subst bn. rewrite G2, map_hd_single, concat_tl_single in *. rewrite map_length.
    assert (E1 : map i8 (map (fun ls => zsum (pick 0 ls (qbounds Q))) (map (fun j => [j]) (seq 0 (length enc)))) = qbounds Q).
    { rewrite !map_map, Le, <- Hbl. rewrite <- (map_nth_seq (qbounds Q)) at 2. apply map_ext_in. intros j Hj. apply in_seq in Hj.
      change (zsum (pick 0 [j] (qbounds Q))) with (room (qbounds Q) [j]). rewrite room_one. apply i8_id.
      assert (In (nth j (qbounds Q) 0) (qbounds Q)) as Hin by (apply nth_In; lia). apply (lo_bd _ HL) in Hin. lia. }
    rewrite E1. cbn [pick map] in Ha. rewrite !delete_nil in Ha.
    assert (a = qans Q) as ->.
    { unfold mk_answer in Ha. apply bind_ok in Ha. destruct Ha as (? & _ & Ha). apply bind_ok in Ha. destruct Ha as (? & _ & Ha).
      injection Ha as <-. now destruct (qans Q). }
    assert (E2 : map (pick 0 (seq 0 (length enc))) (mrows (qA Q)) = mrows (qA Q)).
    { rewrite <- (map_id (mrows (qA Q))) at 2. apply map_ext_in. intros row Hr. destruct (lo_rows _ HL _ Hr) as [Lr _].
      unfold pick. rewrite Le, <- Lr. apply map_nth_seq. }
    rewrite E2, seq_length, Le. unfold qcols. destruct Q as [[c r] b q bd an]. reflexivity.
Qed.

(** ** elimination *)
Lemma encode_any A b : mcols A <> 0%nat -> length b = mnrows A ->
  exists E, encode A b = Ok E /\ map ekey E = map pack (mrows A) /\ map eval_ E = b
    /\ map eidx E = map Z.of_nat (seq 0 (mnrows A)) /\ length E = mnrows A.
Proof.
  intros HC Hb. unfold encode. rewrite Hb, Nat.eqb_refl. cbn [assert_ bind].
  destruct (Nat.eqb_spec (mcols A) 0) as [E|_]; [easy|]. eexists. split; [reflexivity|].
  unfold mnrows in *. generalize 0%nat. generalize dependent b. generalize (mrows A) as rows. clear.
  induction rows as [|r rows IH]; intros [|x b] Hb i; cbn [length] in Hb; try dis; [repeat split|].
  injection Hb as Hb. destruct (IH b Hb (S i)) as (I2 & I3 & I4 & I5). cbn [map map2 seq length fst snd].
  rewrite I2, I3, I4, I5. repeat split.
Qed.
Lemma pack_below x : pack x < 9223372036854775808.
Proof.
  destruct x as [|a x]; cbn [pack]; [lia|]. generalize (pack x + i64 (Z.shiftl a (Z.of_nat (length x)))). intros z. unfold i64, wrap.
  destruct ((- (9223372036854775808) <=? z) && (z <? 9223372036854775808)) eqn:E; [lia|].
  pose proof (Z.mod_pos_bound (z + 9223372036854775808) (2 * 9223372036854775808) ltac:(lia)). lia.
Qed.
Lemma remove_zerokeys_twice E : remove_zerokeys (remove_zerokeys E) = remove_zerokeys E.
Proof. apply remove_zerokeys_id. intros e He. apply filter_In in He. lia. Qed.
Lemma elim_core_filter n E : elim_core n (remove_zerokeys E) = elim_core n E.
Proof. unfold elim_core. now rewrite remove_zerokeys_twice. Qed.
Lemma same_entries E : forall E1, map ekey E1 = map ekey E -> map eval_ E1 = map eval_ E ->
  forall e, In e E1 -> exists e', In e' E /\ ekey e = ekey e' /\ eval_ e = eval_ e'.
Proof.
  induction E as [|y E IH]; intros [|x E1] Hk Hv e He; try dis; [easy|]. cbn [map] in *.
  injection Hk as Hk1 Hk. injection Hv as Hv1 Hv. destruct He as [<-|He]; [exists y; cbn; auto|].
  destruct (IH _ Hk Hv e He) as (e' & ? & ?). exists e'. cbn; auto.
Qed.
Lemma irreducible_same E : forall E1, map ekey E1 = map ekey E -> map eval_ E1 = map eval_ E -> irreducible E -> irreducible E1.
Proof.
  induction E as [|y E IH]; intros [|x E1] Hk Hv HI; try dis; [exact HI|]. cbn [map] in *.
  injection Hk as Hk1 Hk. injection Hv as Hv1 Hv. intros [|a l1] m l2 EE e He; cbn [app] in EE.
  - injection EE as -> ->. destruct (same_entries E l2 Hk Hv e He) as (e' & He' & E1' & E2').
    rewrite <- (HI [] y E eq_refl e' He'). unfold reduces. congruence.
  - injection EE as -> ->. refine (IH _ Hk Hv _ l1 m l2 eq_refl e He).
    intros l m' l' El e' He'. apply (HI (y :: l) m' l'); [now rewrite El|auto].
Qed.
Lemma decode_same E E1 : map ekey E1 = map ekey E -> map eval_ E1 = map eval_ E -> decode E1 = decode E.
Proof.
  intros Hk Hv. unfold decode.
  assert (F1 : forall l : list entry, map (fun e => dec2bin (ekey e)) l = map dec2bin (map ekey l)) by (intros; now rewrite map_map).
  assert (F2 : forall l : list entry, map (fun e => i8 (eval_ e)) l = map i8 (map eval_ l)) by (intros; now rewrite map_map).
  rewrite !F1, !F2, Hk, Hv. destruct E, E1; try dis; reflexivity.
Qed.
Lemma while_more {S A} (step : S -> S + res A) n m s : (n <= m)%nat -> forall a, while_ n step s = Ok a -> while_ m step s = Ok a.
Proof.
  induction 1 as [|m _ IH]; intros a H; [exact H|]. specialize (IH a H). unfold while_ in *. cbn [iter2].
  destruct (iter2 m step s); [dis|exact IH].
Qed.
Lemma elim_core_more n m E E' : (n <= m)%nat -> elim_core n E = Ok E' -> elim_core m E = Ok E'.
Proof. unfold elim_core. intros L. cbv zeta. destruct (_ <=? 1)%nat; auto. now apply while_more. Qed.
Lemma ends_decode E : ends (decode E).
Proof. destruct E; dis. Qed.

Record elim_shape (C : nat) (b : list Z) (A' : mat) (b' : list Z) : Prop := {
  es_cols : (mcols A' <= C)%nat;
  es_cols63 : (1 <= mcols A' <= 63)%nat;
  es_rows : forall row, In row (mrows A') -> length row = mcols A' /\ bits row;
  es_blen : length b' = mnrows A';
  es_b : forall x, In x b' -> x <= 127;
  es_some : (1 <= mnrows A')%nat;
  es_again : (forall x, In x b -> x <= 127) -> elim A' b' = Ok (A', b') }.

Theorem elim_any A b : mcols A <> 0%nat -> length b = mnrows A ->
  (forall row, In row (mrows A) -> length row = mcols A /\ bits row) -> (forall x, In x b -> 0 <= x) ->
  (elim A b = Raise StopIteration \/ exists A' b', elim A b = Ok (A', b')) /\ forall A' b', elim A b = Ok (A', b') -> elim_shape (mcols A) b A' b'.
Proof.
  intros HC Hb Hrows Hpos. set (C := mcols A) in *.
  destruct (encode_any A b HC Hb) as (E0 & HE0 & Hk0 & Hv0 & _ & Hl0).
  assert (HG : forall B, (forall x, In x b -> x <= B) -> Forall (good (Nat.min C 63) B) (remove_zerokeys E0)).
  { intros B HB. apply Forall_forall. intros e He. apply filter_In in He. destruct He as [He Hp].
    assert (Hv : In (eval_ e) b) by (rewrite <- Hv0; now apply in_map). specialize (HB _ Hv). specialize (Hpos _ Hv).
    assert (Hk : In (ekey e) (map pack (mrows A))) by (rewrite <- Hk0; now apply in_map).
    apply in_map_iff in Hk. destruct Hk as (row & Hk & Hr). destruct (Hrows _ Hr) as [Lr Br].
    split; [|lia]. split; [lia|]. rewrite <- Hk. destruct (Nat.le_gt_cases C 63) as [L|L].
    - rewrite Nat.min_l by lia. rewrite <- Lr. apply pack_range; auto. lia.
    - rewrite Nat.min_r by lia. apply pack_below. }
  assert (HB0 : forall x, In x b -> x <= zsum b).
  { clear - Hpos. induction b as [|y b IH]; [easy|]. intros x Hx. rewrite zsum_cons.
    assert (0 <= zsum b) by (apply zsum_nonneg; intros; apply Hpos; now right). pose proof (Hpos y (or_introl eq_refl)).
    destruct Hx as [->|Hx]; [lia|]. specialize (IH ltac:(intros; apply Hpos; now right) _ Hx). lia. }
  assert (HG' : forall B, (forall x, In x b -> x <= B) -> Forall (good C B) (remove_zerokeys E0)).
  { intros B HB. specialize (HG B HB). rewrite Forall_forall in *. intros e He. destruct (HG e He) as [[G1 G2] G3]. split; [|exact G3]. split; [exact G1|].
    eapply Z.lt_le_trans; [exact G2|]. apply Z.pow_le_mono_r; lia. }
  assert (HN : (length (remove_zerokeys E0) <= mnrows A)%nat).
  { rewrite <- Hl0. unfold remove_zerokeys. clear. induction E0 as [|e E IH]; cbn [filter length]; [lia|]. destruct (0 <? ekey e); cbn [length]; lia. }
  destruct (elim_core_spec C (zsum b) (mnrows A) _ (HG' _ HB0) HN) as (E & HE & HS & HP & HR & HI).
  rewrite elim_core_filter in HE. unfold elim. rewrite HE0. cbn [bind]. fold C. rewrite HE. cbn [bind].
  split; [destruct E as [|e0 E']; [now left|right; unfold decode; cbv zeta; eauto]|]. intros A' b' HD.
  assert (HK : forall e, In e E -> 0 < ekey e < 2 ^ Z.of_nat (Nat.min C 63)).
  { intros e He. split; [now apply HP|]. destruct (Nat.le_gt_cases C 63) as [L|L].
    - rewrite Nat.min_l by lia. pose proof (red_good _ _ _ _ HR) as G. rewrite Forall_forall in G. now apply G in He as [[_ ?] _].
    - rewrite Nat.min_r by lia. pose proof (HG _ HB0) as G. rewrite Nat.min_r in G by lia.
      destruct (elim_core_spec 63 (zsum b) (mnrows A) _ G HN) as (E' & HE' & _ & _ & HR' & _). rewrite elim_core_filter in HE'.
      apply (elim_core_more _ (2 * mnrows A + C + 1)) in HE'; [|lia]. rewrite HE in HE'. injection HE' as <-.
      pose proof (red_good _ _ _ _ HR') as G'. rewrite Forall_forall in G'. now apply G' in He as [[_ ?] _]. }
  set (M := Nat.min C 63) in *. pose proof HD as HD0. unfold decode in HD.
  set (D := max_len (map (fun e => dec2bin (ekey e)) E)) in *.
  assert (HDE : forall e, In e E -> (length (dec2bin (ekey e)) <= D)%nat) by (intros e He; apply max_len_ge, in_map_iff; eauto).
  assert (HDM : (D <= M)%nat).
  { apply max_len_le. intros x Hx. apply in_map_iff in Hx. destruct Hx as (e & <- & He). apply dec2bin_length, HK, He. }
  assert (HKD : forall e, In e E -> 0 < ekey e < 2 ^ Z.of_nat D).
  { intros e He. pose proof (HDE e He) as L. destruct (HK e He) as [K1 _]. split; [exact K1|].
    destruct (ekey e) as [|p|p] eqn:Ek; try lia. pose proof (pos_bits_range p) as [_ R]. cbn [dec2bin] in L.
    eapply Z.lt_le_trans; [exact R|]. apply Z.pow_le_mono_r; lia. }
  assert (HA : A' = Mat D (map (fun e => row_of D (ekey e)) E) /\ b' = map (fun e => i8 (eval_ e)) E /\ E <> []).
  { destruct E as [|e0 E]; [dis|]. cbv zeta in HD. injection HD as <- <-. split; [|split; [reflexivity|dis]].
    fold D. change (Mat D (map (pad_left D) (map (fun e => dec2bin (ekey e)) (e0 :: E))) = Mat D (map (fun e => row_of D (ekey e)) (e0 :: E))).
    f_equal. rewrite map_map.
    apply map_ext_in. intros e He. apply pad_left_dec2bin, HKD, He. }
  destruct HA as (-> & -> & HE1). clear HD.
  assert (HD1 : (1 <= D)%nat).
  { destruct E as [|e0 E]; [easy|]. specialize (HKD e0 (or_introl eq_refl)). destruct D; [|lia]. change (2 ^ Z.of_nat 0) with 1 in HKD. lia. }
  assert (Hrow' : forall row, In row (map (fun e => row_of D (ekey e)) E) -> length row = D /\ bits row).
  { intros row Hr. apply in_map_iff in Hr. destruct Hr as (e & <- & He). split; [apply row_of_length|apply row_of_bits]. }
  constructor; cbn [mcols mrows]; unfold mnrows; cbn [mrows]; try lia.
  - exact Hrow'.
  - now rewrite !map_length.
  - intros x Hx. apply in_map_iff in Hx. destruct Hx as (e & <- & _). pose proof (i8_range (eval_ e)). lia.
  - rewrite map_length. destruct E; [easy|cbn [length]; lia].
  - intros Hsmall.
    destruct (elim_core_spec C 127 (mnrows A) _ (HG' _ Hsmall) HN) as (E' & HE' & _ & _ & HR' & _).
    rewrite elim_core_filter, HE in HE'. injection HE' as <-. pose proof (red_good _ _ _ _ HR') as G. rewrite Forall_forall in G.
    assert (Hi8 : map (fun e => i8 (eval_ e)) E = map eval_ E).
    { apply map_ext_in. intros e He. apply i8_id. destruct (G e He) as [_ ?]. lia. }
    assert (Hmk : map pack (map (fun e => row_of D (ekey e)) E) = map ekey E).
    { rewrite map_map. apply map_ext_in. intros e He. apply pack_row_of; [lia|]. specialize (HKD e He). lia. }
    rewrite Hi8 in *. set (A1 := Mat D (map (fun e => row_of D (ekey e)) E)) in *.
    destruct (encode_any A1 (map eval_ E)) as (E1 & HE1' & Hk1 & Hv1 & Hx1 & Hl1).
    { cbn. lia. } { unfold A1, mnrows. cbn [mrows]. now rewrite !map_length. }
    unfold elim. rewrite HE1'. cbn [bind]. change (mrows A1) with (map (fun e => row_of D (ekey e)) E) in Hk1. rewrite Hmk in Hk1.
    rewrite (elim_core_fixed D 127).
    + cbn [bind]. rewrite (decode_same E E1) by auto. exact HD0.
    + apply Forall_forall. intros e He. destruct (same_entries E E1 Hk1 Hv1 e He) as (e' & He' & K1 & K2).
      split; [rewrite K1; specialize (HKD e' He'); lia|rewrite K2; now apply G].
    + lia.
    + apply (ssorted_reindex E); auto. rewrite Hx1. apply seq_sorted.
    + intros e He. destruct (same_entries E E1 Hk1 Hv1 e He) as (e' & He' & K1 & K2). rewrite K1. now apply HP.
    + now apply (irreducible_same E).
Qed.

Lemma eliminate_any Q : loose Q -> ends (eliminate Q)
  /\ forall Q', eliminate Q = Ok Q' -> less Q Q' /\ qcols Q' = qcols Q /\ (qcols Q = 0%nat /\ Q' = Q \/ small Q' /\ (small Q -> eliminate_body Q' = Ok Q')).
Proof.
  intros HL. unfold eliminate, eliminate_body. fold (qcols Q). destruct (Nat.eqb_spec (qcols Q) 0) as [E0|N0].
  { cbn [bind]. split; [apply ends_post_check|]. intros Q' H. apply post_check_id in H. subst Q'. split; [constructor; auto; lia|auto]. }
  destruct (elim_any (qA Q) (qb Q) N0 (lo_blen _ HL) (lo_rows _ HL) (lo_b _ HL)) as [HE' HS].
  assert (HE : ends (elim (qA Q) (qb Q))) by (destruct HE' as [-> |(A' & b' & ->)]; dis). clear HE'. split.
  { apply ends_bind; [|intros; apply ends_post_check]. apply ends_bind; [exact HE|]. intros [A' b'] _. apply ends_bind; [apply ends_assert|]. intros; dis. }
  intros Q' H. apply bind_ok in H. destruct H as (Q1 & H & HP). pose proof (post_check_bounds _ _ HP) as HC. apply post_check_id in HP. subst Q1.
  apply bind_ok in H. destruct H as ([A' b'] & HA & H). apply bind_ok in H. destruct H as (u & Hn & H). apply assert_ok in Hn. injection H as <-.
  specialize (HS A' b' HA). unfold qcols in HC. cbn [qA qbounds] in HC.
  assert (EC : mcols A' = qcols Q) by (rewrite <- HC; apply (lo_bdlen _ HL)).
  split; [constructor; [constructor|..]|split; [|right; split]]; unfold qcols, vol, small; cbn [qA qb qbounds]; try exact EC; try lia.
  - apply (es_rows _ _ _ _ HS).
  - apply (es_blen _ _ _ _ HS).
  - intros x. now apply nonneg_in.
  - apply (lo_bd _ HL).
  - apply (es_some _ _ _ _ HS).
  - rewrite EC. apply (lo_ul _ HL).
  - rewrite EC. unfold qcols. lia.
  - apply (es_b _ _ _ _ HS).
  - intros Hs. unfold eliminate_body. cbn [qA qb qquota qbounds qans]. destruct (Nat.eqb_spec (mcols A') 0) as [|_]; [reflexivity|].
    rewrite (es_again _ _ _ _ HS Hs). cbn [bind]. rewrite Hn. reflexivity.
Qed.

(** ** bounds *)
Lemma tighten_len Q : loose Q -> length (qbounds (tighten Q)) = qcols Q.
Proof. intros HL. unfold tighten. cbn [qbounds]. rewrite lub_length; [apply (lo_bdlen _ HL)|]. intros row Hr. rewrite (lo_bdlen _ HL). now apply (lo_rows _ HL). Qed.
Lemma tighten_nth Q j : loose Q -> (j < qcols Q)%nat -> 0 <= nth j (qbounds (tighten Q)) 0 <= nth j (qbounds Q) 0.
Proof.
  intros HL Hj. assert (HR : forall row, In row (mrows (qA Q)) -> length row = length (qbounds Q)) by (intros row Hr; rewrite (lo_bdlen _ HL); now apply (lo_rows _ HL)).
  unfold tighten. cbn [qbounds]. split.
  - apply (lub_spec (mrows (qA Q)) (qb Q) (qbounds Q) j 0 HR); [rewrite (lo_bdlen _ HL); lia|]. split.
    + apply (lo_bd _ HL). apply nth_In. rewrite (lo_bdlen _ HL). lia.
    + intros row x Hin _. apply in_combine_r in Hin. now apply (lo_b _ HL).
  - apply (lub_spec (mrows (qA Q)) (qb Q) (qbounds Q) j (nth j (lower_upper_bound (mrows (qA Q)) (qb Q) (qbounds Q)) 0) HR); [rewrite (lo_bdlen _ HL); lia|lia].
Qed.
Lemma tighten_loose Q : loose Q -> loose (tighten Q).
Proof.
  intros HL. pose proof (tighten_len Q HL) as HT. constructor; [apply (lo_rows _ HL)|apply (lo_blen _ HL)|apply (lo_b _ HL)|exact HT| |apply (lo_some _ HL)|apply (lo_ul _ HL)].
  intros x Hx. apply (In_nth _ _ 0) in Hx. destruct Hx as (j & Hj & <-). rewrite HT in Hj. pose proof (tighten_nth Q j HL Hj).
  assert (In (nth j (qbounds Q) 0) (qbounds Q)) as Hin by (apply nth_In; rewrite (lo_bdlen _ HL); lia). apply (lo_bd _ HL) in Hin. lia.
Qed.
Lemma tighten_vol Q : loose Q -> vol (tighten Q) <= vol Q.
Proof.
  intros HL. unfold vol. apply prodb_le.
  - now rewrite tighten_len, (lo_bdlen _ HL).
  - intros x Hx. now apply (lo_bd _ (tighten_loose Q HL)) in Hx.
  - intros j Hj. rewrite tighten_len in Hj by auto. now apply tighten_nth.
Qed.
Lemma tighten_twice Q : loose Q -> tighten (tighten Q) = tighten Q.
Proof.
  intros HL. pose proof (tighten_len Q HL) as HT. pose proof (tighten_len _ (tighten_loose Q HL)) as HT2. change (qcols (tighten Q)) with (qcols Q) in HT2.
  assert (E : qbounds (tighten (tighten Q)) = qbounds (tighten Q)).
  { apply nth_ext0; [congruence|]. rewrite HT2. intros j Hj. apply Z.le_antisymm; [now apply (tighten_nth (tighten Q) j (tighten_loose Q HL))|].
    assert (HR : forall row, In row (mrows (qA Q)) -> length row = length (qbounds Q)) by (intros row Hr; rewrite (lo_bdlen _ HL); now apply (lo_rows _ HL)).
    apply (lub_spec (mrows (qA Q)) (qb Q) (qbounds (tighten Q))); [intros row Hr; rewrite HT; now apply (lo_rows _ HL)|lia|].
    split; [lia|]. apply (lub_spec (mrows (qA Q)) (qb Q) (qbounds Q) j (nth j (qbounds (tighten Q)) 0) HR); [rewrite (lo_bdlen _ HL); lia|]. unfold tighten. cbn [qbounds]. lia. }
  unfold tighten in *. cbn [qA qb qquota qbounds qans] in *. now rewrite E.
Qed.

Lemma in_map2_pair_r {A B} (x : list A) : forall (y : list B) a b, In (a, b) (map2 pair x y) -> In b y.
Proof.
  induction x as [|c x IH]; intros [|d y] a b H; cbn [map2] in H; try easy. destruct H as [E|H]; [injection E as _ ->; now left|right; eauto].
Qed.
Lemma delete_loose_row cs row n : NoDup cs -> (forall j, In j cs -> (j < n)%nat) -> length row = n /\ bits row ->
  length (delete cs row) = (n - length cs)%nat /\ bits (delete cs row).
Proof. intros H1 H2 [H3 H4]. split; [|now apply bits_delete]. rewrite delete_length; [now rewrite H3|auto|]. intros; rewrite H3; auto. Qed.

Lemma zero_in_b_parts Q : loose Q -> ends (zero_in_b Q)
  /\ forall Q', zero_in_b Q = Ok Q' -> less Q Q' /\ (qcols Q' < qcols Q \/ qcols Q' = qcols Q /\ Q' = tighten Q /\ zero_bound_loc (qbounds (tighten Q)) = []
       /\ length (unknown_loc (qans Q)) = length (qbounds (tighten Q)))%nat.
Proof.
  intros HL. unfold zero_in_b, zero_in_b_body. cbv zeta.
  change (lower_upper_bound (mrows (qA Q)) (qb Q) (qbounds Q)) with (qbounds (tighten Q)). split.
  { apply ends_bind; [|intros; apply ends_post_check]. apply ends_bind; [apply ends_assert|]. intros _ _. apply ends_bind; [apply ends_assert|]. intros; dis. }
  intros Q' H. apply bind_ok in H. destruct H as (Q1 & H & HP). apply post_check_id in HP. subst Q1.
  apply bind_ok in H. destruct H as (u1 & H1 & H). apply bind_ok in H. destruct H as (u2 & H2 & H). apply assert_ok in H1, H2.
  pose proof (tighten_loose Q HL) as TL. pose proof (tighten_len Q HL) as HT.
  pose proof (lo_bd _ TL) as TB. pose proof (tighten_vol Q HL) as TV. unfold vol in TV.
  remember (qbounds (tighten Q)) as bd eqn:Ebd. remember (zero_bound_loc bd) as z eqn:Ezd. injection H as <-.
  assert (Hz : NoDup z) by (rewrite Ezd; apply where_NoDup).
  assert (Hzr : forall j, In j z -> (j < qcols Q)%nat) by (intros j Hj; rewrite Ezd in Hj; apply (where_spec _ 0) in Hj; lia).
  split; [constructor; [constructor|..]|]; unfold qcols, vol; cbn [qA qb qbounds mcols mrows].
  - intros row Hr. apply in_map_iff in Hr. destruct Hr as (r & <- & Hr). apply delete_loose_row; auto. now apply (lo_rows _ HL).
  - unfold mnrows. cbn [mrows]. rewrite map_length. apply (lo_blen _ HL).
  - apply (lo_b _ HL).
  - rewrite delete_length; [now rewrite HT|auto|]. intros j Hj. rewrite HT. auto.
  - intros x Hx. apply in_delete in Hx. now apply TB.
  - unfold mnrows. cbn [mrows]. rewrite map_length. apply (lo_some _ HL).
  - unfold unknown_loc. cbn [qans av]. rewrite (assign_unknown_loc (av (qans Q)) (map (fun j => (j, 0)) z)).
    + rewrite map_map. cbn [fst]. rewrite map_id, delete_length; [|exact Hz|].
      * fold (unknown_loc (qans Q)). now rewrite (lo_ul _ HL).
      * fold (unknown_loc (qans Q)). rewrite (lo_ul _ HL). exact Hzr.
    + rewrite map_map. cbn [fst]. now rewrite map_id.
    + intros j x Hin. apply in_map_iff in Hin. destruct Hin as (j' & E & Hj). injection E as -> <-.
      fold (unknown_loc (qans Q)). rewrite (lo_ul _ HL). split; [now apply Hzr|lia].
  - etransitivity; [|exact TV]. apply prodb_delete_le. intros x Hx. now apply TB in Hx.
  - lia.
  - destruct z as [|j0 z'].
    + right. cbn [length map assign_all fold_left]. rewrite Nat.sub_0_r, delete_nil in *. split; [reflexivity|].
      assert (ER : map (delete []) (mrows (qA Q)) = mrows (qA Q)) by (rewrite <- (map_id (mrows (qA Q))) at 2; apply map_ext; intros; apply delete_nil).
      assert (EQ : Qst (Mat (mcols (qA Q)) (map (delete []) (mrows (qA Q)))) (qb Q) (qquota Q) bd (Ans (assign_all (unknown_loc (qans Q)) [] (av (qans Q))) (aloc (qans Q)) (alen (qans Q))) = tighten Q).
      { rewrite ER. rewrite Ebd. clear. destruct Q as [[c r] b q bnd [v lc n]]. reflexivity. }
      change (assign_all (unknown_loc (qans Q)) [] (av (qans Q))) with (av (qans Q)) in EQ. rewrite EQ. split; [reflexivity|].
      split; [reflexivity|now apply Nat.eqb_eq].
    + left. specialize (Hzr j0 (or_introl eq_refl)). unfold qcols in Hzr. cbn [length]. lia.
Qed.

Lemma zero_in_b_still Q : loose Q -> zero_bound_loc (qbounds (tighten Q)) = [] -> length (unknown_loc (qans Q)) = length (qbounds (tighten Q)) ->
  zero_in_b_body Q = Ok (tighten Q).
Proof.
  intros HL HZ HU. pose proof (lo_bd _ (tighten_loose Q HL)) as TB. unfold zero_in_b_body. cbv zeta.
  change (lower_upper_bound (mrows (qA Q)) (qb Q) (qbounds Q)) with (qbounds (tighten Q)). rewrite HZ, HU, Nat.eqb_refl, delete_nil. cbn [assert_ bind].
  rewrite nonneg_true by (intros x Hx; now apply TB in Hx). cbn [assert_ bind length map]. rewrite Nat.sub_0_r.
  assert (ER : map (delete []) (mrows (qA Q)) = mrows (qA Q)) by (rewrite <- (map_id (mrows (qA Q))) at 2; apply map_ext; intros; apply delete_nil).
  rewrite ER. clear. destruct Q as [[c r] b q bnd [v lc n]]. reflexivity.
Qed.
Lemma zero_in_b_any Q : loose Q -> ends (zero_in_b Q)
  /\ forall Q', zero_in_b Q = Ok Q' -> less Q Q' /\ (qcols Q' < qcols Q \/ qcols Q' = qcols Q /\ Q' = tighten Q /\ zero_in_b_body Q' = Ok Q')%nat.
Proof.
  intros HL. destruct (zero_in_b_parts Q HL) as [H1 H2]. split; [exact H1|]. intros Q' H. destruct (H2 Q' H) as [H3 H4]. split; [exact H3|].
  destruct H4 as [H4|(H4 & H5 & H6 & H7)]; [now left|right]. split; [exact H4|]. split; [exact H5|]. rewrite H5.
  rewrite <- (tighten_twice Q HL) at 2. apply zero_in_b_still; [now apply tighten_loose| |]; rewrite (tighten_twice Q HL); [exact H6|exact H7].
Qed.

Lemma ends_spend xs : forall q, ends (spend xs q).
Proof. induction xs as [|x xs IH]; intros q; cbn [spend]; [dis|]. apply ends_bind; [apply ends_assert|]. intros; apply IH. Qed.
Lemma match_nil {A B} (l : list A) (X Y : B) : match l with [] => X | _ :: _ => Y end = if Nat.eqb (length l) 0 then X else Y.
Proof. destruct l; reflexivity. Qed.
Lemma only_1_any Q : loose Q -> ends (only_1_element_in_row Q)
  /\ forall Q', only_1_element_in_row Q = Ok Q' -> less Q Q' /\ (Q' = Q /\ only_1_body Q = Ok Q \/ (qcols Q' < qcols Q)%nat).
Proof.
  intros HL. unfold only_1_element_in_row.
  destruct (locs_rcs _ _ (one_element_row_locs_ok (mrows (qA Q)))) as [HN HI].
  assert (E : ends (only_1_body Q) /\ forall Q', only_1_body Q = Ok Q' -> less Q Q' /\ (Q' = Q /\ only_1_body Q = Ok Q \/ (qcols Q' < qcols Q)%nat)).
  2:{ destruct E as [E1 E2]. split; [apply ends_bind; [exact E1|intros; apply ends_post_check]|].
      intros Q' H. apply bind_ok in H. destruct H as (Q1 & H & HP). apply post_check_id in HP. subst Q1. auto. }
  unfold only_1_body. set (rcs := one_element_row_locs (mrows (qA Q))) in *. unfold only_1_with. cbv zeta.
  rewrite match_nil. remember rcs as rs eqn:Ers. clear Ers rcs. rename rs into rcs. remember (map snd rcs) as cs eqn:Ecs.
  assert (Hcs : forall j, In j cs -> (j < qcols Q)%nat).
  { intros j Hj. rewrite Ecs in Hj. apply in_map_iff in Hj. destruct Hj as ([r c] & <- & Hrc). destruct (HI r c Hrc) as [Hr Hs]. apply single_iff in Hs.
    destruct (lo_rows _ HL (nth r (mrows (qA Q)) [])) as [Lr _]; [now apply nth_In|]. cbn [snd]. rewrite <- Lr. apply Hs. }
  destruct (assert_ _) as [u| |] eqn:EA; cbn [bind]; [|destruct (Nat.eqb _ _); dis|split; [|dis]; destruct (Nat.eqb _ _); cbn in EA; [dis|injection EA as <-; dis]].
  destruct (Nat.eqb_spec (length rcs) 0) as [_|Hnil].
  { split; [dis|]. intros Q' H. injection H as <-. split; [constructor; auto; lia|auto]. }
  assert (Hlc : length cs = length rcs) by (rewrite Ecs; apply map_length).
  destruct (existsb _ _); [split; dis|]. destruct (_ <? _); [split; dis|]. destruct (any2 _ _ _); [split; dis|].
  split.
  { apply ends_bind; [apply ends_spend|]. intros q _. apply ends_bind; [apply ends_assert|]. intros _ _. apply ends_bind; [apply ends_assert|]. intros; dis. }
  intros Q' H. apply bind_ok in H. destruct H as (q' & _ & H). apply bind_ok in H. destruct H as (u1 & H1 & H). apply bind_ok in H. destruct H as (u2 & H2 & H).
  apply assert_ok in H1, H2. injection H as <-.
  assert (Hq : (0 < qcols Q)%nat) by (destruct cs as [|j cs']; [cbn in Hlc; lia|specialize (Hcs j (or_introl eq_refl)); lia]).
  split; [constructor; [constructor|..]|right]; unfold qcols, vol in *; cbn [qA qb qbounds mcols mrows].
  - intros row Hr. apply in_map_iff in Hr. destruct Hr as (r & <- & Hr). apply delete_loose_row; auto. now apply (lo_rows _ HL).
  - unfold mnrows. cbn [mrows]. rewrite map2_length, !map_length. unfold matvec. rewrite !map_length. pose proof (lo_blen _ HL) as L. unfold mnrows in L. lia.
  - intros x. now apply nonneg_in.
  - rewrite delete_length; [now rewrite (lo_bdlen _ HL)|auto|]. intros j Hj. rewrite (lo_bdlen _ HL). now apply Hcs.
  - intros x Hx. apply in_delete in Hx. now apply (lo_bd _ HL).
  - unfold mnrows. cbn [mrows]. rewrite map_length. apply (lo_some _ HL).
  - unfold unknown_loc. cbn [qans av].
    assert (Hf : map fst (map2 pair cs (pick 0 (map fst rcs) (qb Q))) = cs).
    { apply map_fst_map2_pair. unfold pick. rewrite !map_length. exact Hlc. }
    rewrite (assign_unknown_loc (av (qans Q)) (map2 pair cs (pick 0 (map fst rcs) (qb Q)))); rewrite ?Hf; [|exact HN|].
    + fold (unknown_loc (qans Q)). rewrite delete_length; [now rewrite (lo_ul _ HL)|exact HN|]. rewrite (lo_ul _ HL). exact Hcs.
    + intros j x Hin. fold (unknown_loc (qans Q)). rewrite (lo_ul _ HL). split.
      * apply Hcs. rewrite <- Hf. apply in_map_iff. exists (j, x). auto.
      * apply in_map2_pair_r in Hin. apply in_map_iff in Hin. destruct Hin as (r & <- & Hr).
        apply nth_nonneg. apply (lo_b _ HL).
  - apply prodb_delete_le. intros x Hx. now apply (lo_bd _ HL) in Hx.
  - lia.
  - lia.
Qed.

(** ** the refinement loop *)
Definition smallb (Q : question) : bool := forallb (fun x => x <=? 127) (qb Q).
Lemma smallb_spec Q : smallb Q = true <-> small Q.
Proof. unfold smallb, small. rewrite forallb_forall. split; intros H x Hx; specialize (H x Hx); lia. Qed.
Definition turns (Q : question) : Z := 3 * Z.of_nat (qcols Q) + (if normalb Q then 0 else if smallb Q then 1 else 2).

Lemma eliminate_body_tighten Q : eliminate_body Q = Ok Q -> eliminate_body (tighten Q) = Ok (tighten Q).
Proof.
  unfold eliminate_body. cbn [qA qb qquota qbounds qans tighten]. destruct (Nat.eqb (mcols (qA Q)) 0); auto.
  destruct (elim (qA Q) (qb Q)) as [[Ae be]| |]; cbn [bind]; try dis. destruct (assert_ (nonneg be)); cbn [bind]; try dis.
  intros N. injection N as N. assert (EA : Ae = qA Q) by (rewrite <- N; reflexivity). assert (Eb : be = qb Q) by (rewrite <- N; reflexivity). now rewrite EA, Eb.
Qed.

Lemma refine_step_any Q : loose Q ->
  match refine_step Q with
  | inl Q' => less Q Q' /\ turns Q' < turns Q
  | inr r => ends r /\ forall Q', r = Ok Q' -> less Q Q'
  end.
Proof.
  intros HL. unfold refine_step.
  destruct (question_copy Q) as [Qd| |e] eqn:EC; cbn [bind].
  2:{ split; dis. }
  2:{ split; [|dis]. pose proof (ends_question_copy Q) as E. now rewrite EC in E. }
  apply question_copy_same in EC. subst Qd.
  destruct (reduce_col Q) as [Q1| |e] eqn:E1; cbn [bind].
  2:{ split; dis. }
  2:{ split; [|dis]. pose proof (ends_reduce_col Q HL) as E. now rewrite E1 in E. }
  destruct (reduce_col_less Q Q1 HL E1) as [L1 C1]. pose proof (le_loose _ _ L1) as HL1.
  destruct (eliminate_any Q1 HL1) as [N2 S2]. destruct (eliminate Q1) as [Q2| |e] eqn:E2; cbn [bind].
  2:{ split; dis. }
  2:{ split; [|dis]. exact N2. }
  destruct (S2 Q2 eq_refl) as (L2 & C2 & F2). pose proof (le_loose _ _ L2) as HL2.
  destruct (zero_in_b_any Q2 HL2) as [N3 S3]. destruct (zero_in_b Q2) as [Q3| |e] eqn:E3; cbn [bind].
  2:{ split; dis. }
  2:{ split; [|dis]. exact N3. }
  destruct (S3 Q3 eq_refl) as (L3 & F3). pose proof (le_loose _ _ L3) as HL3.
  destruct (only_1_any Q3 HL3) as [N4 S4]. destruct (only_1_element_in_row Q3) as [Q4| |e] eqn:E4; cbn [bind].
  2:{ split; dis. }
  2:{ split; [|dis]. exact N4. }
  destruct (S4 Q4 eq_refl) as (L4 & F4).
  assert (L : less Q Q4) by eauto using less_trans. clear N2 S2 N3 S3 N4 S4.
  destruct (question_eqb Q4 Q) eqn:EQ.
  { split; [dis|]. intros Q' E. injection E as <-. exact L. }
  split; [exact L|].
  destruct (Nat.lt_ge_cases (qcols Q4) (qcols Q)) as [LT|GE].
  { unfold turns. destruct (normalb Q4), (smallb Q4), (normalb Q), (smallb Q); lia. }
  pose proof (le_cols _ _ L1). pose proof (le_cols _ _ L2). pose proof (le_cols _ _ L3). pose proof (le_cols _ _ L4).
  destruct C1 as [->|]; [|lia]. destruct F3 as [|(C3 & T3 & B3)]; [lia|]. destruct F4 as [[-> B4]|]; [|lia].
  assert (NQ : normalb Q = false).
  { destruct (normalb Q) eqn:EN; [|reflexivity]. exfalso. apply normalb_spec in EN. destruct EN as (M1 & M2 & M3).
    unfold eliminate in E2. rewrite M1 in E2. cbn [bind] in E2. apply post_check_id in E2. subst Q2.
    unfold zero_in_b in E3. rewrite M2 in E3. cbn [bind] in E3. apply post_check_id in E3. rewrite E3 in EQ.
    assert (question_eqb Q Q = true) by now apply question_eqb_spec. congruence. }
  unfold turns. rewrite NQ. replace (qcols Q3) with (qcols Q) by lia.
  destruct F2 as [[Z2 ->]|[F2 F2']].
  { exfalso. assert (Q3 = Q).
    { rewrite T3. pose proof (tighten_len Q HL) as K. pose proof (lo_bdlen _ HL) as K2. rewrite Z2 in K, K2.
      destruct Q as [[c r] b q bd a]. unfold tighten in *. cbn [qA qb qquota qbounds qans mcols mrows] in *.
      apply length_zero_iff_nil in K, K2. now rewrite K, K2. }
    subst Q3. assert (question_eqb Q Q = true) by now apply question_eqb_spec. rewrite H3 in EQ. congruence. }
  assert (SQ : smallb Q3 = true).
  { apply smallb_spec. rewrite T3. exact F2. }
  rewrite SQ. destruct (smallb Q) eqn:ES; [|destruct (normalb Q3); lia].
  assert (NN : normalb Q3 = true).
  { apply normalb_spec. split; [|split; [exact B3|exact B4]]. rewrite T3. apply eliminate_body_tighten, F2'. now apply smallb_spec. }
  rewrite NN. lia.
Qed.

Lemma refine_any Q : loose Q -> ends (refine Q) /\ forall Q', refine Q = Ok Q' -> less Q Q'.
Proof.
  intros HL. unfold refine.
  apply (while_spec refine_step (fun P => loose P /\ less Q P) turns (fun r => ends r /\ forall Q', r = Ok Q' -> less Q Q')).
  - intros P _. unfold turns. destruct (normalb P), (smallb P); lia.
  - intros P [HP HQ]. pose proof (refine_step_any P HP) as S. destruct (refine_step P) as [P'|r].
    + destruct S as [S1 S2]. split; [split; [apply S1|eauto using less_trans]|exact S2].
    + destruct S as [S1 S2]. split; [exact S1|]. intros Q' E. eauto using less_trans.
  - split; [exact HL|]. constructor; auto; lia.
  - fold (qcols Q). unfold turns. rewrite Nat2Z.inj_add, Z.pow_add_r by lia. change (2 ^ Z.of_nat 3) with 8.
    pose proof (pow2_gt (qcols Q)). destruct (normalb Q), (smallb Q); lia.
Qed.

(** ** forking *)
Lemma ends_fork_one Q m q : ends (fork_one Q m q).
Proof.
  unfold fork_one. cbv zeta. destruct (existsb _ _); [dis|]. apply ends_bind; [apply ends_mk_answer|]. intros a _.
  apply ends_bind; [apply ends_mk_question|]. intros; dis.
Qed.
Lemma ends_fork_enum Q : loose Q -> ends (fork_enum Q).
Proof.
  intros HL. unfold fork_enum. apply ends_bind; [apply ends_post_check|]. intros _ _. apply ends_bind; [apply ends_assert|]. intros u Hu.
  apply assert_ok in Hu. apply Nat.ltb_lt in Hu. rewrite (lo_ul _ HL), <- (lo_bdlen _ HL) in Hu.
  apply ends_bind; [destruct (qbounds Q); [cbn in Hu; lia|dis]|]. intros m _. apply ends_bind; [|intros; dis]. apply ends_mapM. intros; apply ends_fork_one.
Qed.
Lemma fork_one_any Q m q Q' : loose Q -> (m < qcols Q)%nat -> 0 <= q -> fork_one Q m q = Ok (Some Q') ->
  loose Q' /\ vol Q' = prodb (delete [m] (qbounds Q)).
Proof.
  intros HL Hm H0q H. unfold fork_one in H. cbv zeta in H. destruct (existsb _ _); [dis|].
  apply bind_ok in H. destruct H as (a & Ha & H). apply bind_ok in H. destruct H as (Q1 & H1 & H). injection H as ->.
  unfold mk_question in H1. apply bind_ok in H1. destruct H1 as (u1 & A1 & H1). apply bind_ok in H1. destruct H1 as (u2 & A2 & H1).
  apply bind_ok in H1. destruct H1 as (u3 & A3 & H1). apply bind_ok in H1. destruct H1 as (u4 & A4 & H1). apply bind_ok in H1. destruct H1 as (u5 & A5 & H1).
  cbn [bind] in H1. apply assert_ok in A1, A2, A3, A5. apply Nat.eqb_eq in A1, A2. injection H1 as <-.
  assert (ND : NoDup [m]) by (constructor; [easy|constructor]).
  assert (HR : forall j, In j [m] -> (j < qcols Q)%nat) by (intros j [<-|[]]; exact Hm).
  split; [|reflexivity]. constructor; unfold qcols; cbn [qA qb qbounds mcols mrows].
  - intros row Hr. apply in_map_iff in Hr. destruct Hr as (r & <- & Hr). apply (delete_loose_row [m] r (qcols Q) ND HR). now apply (lo_rows _ HL).
  - now symmetry.
  - intros x. now apply nonneg_in.
  - now symmetry.
  - intros x Hx. apply in_delete in Hx. now apply (lo_bd _ HL).
  - unfold mnrows. cbn [mrows]. rewrite map_length. apply (lo_some _ HL).
  - assert (a = qans Q) as ->.
    { unfold answer_copy, mk_answer in Ha. apply bind_ok in Ha. destruct Ha as (? & _ & Ha). apply bind_ok in Ha. destruct Ha as (? & _ & Ha).
      injection Ha as <-. now destruct (qans Q). }
    unfold unknown_loc at 1. cbn [qans av].
    change (set_nth (nth m (unknown_loc (qans Q)) 0%nat) q (av (qans Q))) with (assign_all (unknown_loc (qans Q)) [(m, q)] (av (qans Q))).
    unfold unknown_loc. rewrite (assign_unknown_loc (av (qans Q)) [(m, q)]); cbn [map fst].
    + fold (unknown_loc (qans Q)). rewrite delete_length; [now rewrite (lo_ul _ HL)|exact ND|]. rewrite (lo_ul _ HL). exact HR.
    + exact ND.
    + intros j x [E|[]]. injection E as <- <-. fold (unknown_loc (qans Q)). rewrite (lo_ul _ HL). auto.
Qed.
Lemma mapM_length {A B} (f : A -> res B) l : forall bs, mapM f l = Ok bs -> length bs = length l.
Proof.
  induction l as [|a l IH]; intros bs H; cbn [mapM] in H; [now injection H as <-|].
  apply bind_ok in H. destruct H as (b & _ & H). apply bind_ok in H. destruct H as (bs' & H' & H). injection H as <-. cbn [length]. now rewrite (IH bs').
Qed.
Definition vols (l : list question) : Z := zsum (map vol l).
Lemma vols_const l c : (forall Q, In Q l -> vol Q = c) -> vols l = Z.of_nat (length l) * c.
Proof.
  unfold vols. induction l as [|Q l IH]; intros H; [reflexivity|]. cbn [map length]. rewrite zsum_cons, IH by (intros; apply H; now right).
  rewrite (H Q) by now left. lia.
Qed.
Lemma vols_app a b : vols (a ++ b) = vols a + vols b.
Proof. unfold vols. now rewrite map_app, zsum_app. Qed.
Lemma fork_enum_any Q qs : loose Q -> fork_enum Q = Ok qs -> (forall Q', In Q' qs -> loose Q') /\ vols qs < vol Q.
Proof.
  intros HL H. unfold fork_enum in H. apply bind_ok in H. destruct H as (? & _ & H). apply bind_ok in H. destruct H as (? & _ & H).
  apply bind_ok in H. destruct H as (m & Hm & H). apply bind_ok in H. destruct H as (os & Ho & H). injection H as <-.
  assert (Hmc : (m < length (qbounds Q))%nat).
  { destruct (argmin_lt (qbounds Q)) as (m' & E & L); [intros E; rewrite E in Hm; dis|]. rewrite E in Hm. injection Hm as <-. exact L. }
  rewrite (lo_bdlen _ HL) in Hmc.
  assert (HA : forall Q', In Q' (flat_map (fun o => match o with Some q => [q] | None => [] end) os) -> loose Q' /\ vol Q' = prodb (delete [m] (qbounds Q))).
  { intros Q' Hin. apply in_flat_map in Hin. destruct Hin as ([q|] & Hin & HQ); [|easy]. destruct HQ as [<-|[]].
    destruct (mapM_in _ _ _ _ Ho Hin) as (c & Hcin & Hc). apply (fork_one_any Q m c); auto. unfold fork_enum_values in Hcin. apply in_zrange in Hcin. lia. }
  split; [intros Q' Hin; now apply HA|].
  rewrite (vols_const _ (prodb (delete [m] (qbounds Q)))) by (intros Q' Hin; now apply HA).
  assert (Hlen : (length (flat_map (fun o : option question => match o with Some q => [q] | None => [] end) os) <= length os)%nat).
  { clear. induction os as [|[q|] os IH]; cbn; lia. }
  rewrite (mapM_length _ _ _ Ho) in Hlen.
  unfold vol. rewrite (prodb_delete1 m (qbounds Q)) by (rewrite (lo_bdlen _ HL); exact Hmc).
  assert (Hnb : 0 <= nth m (qbounds Q) 0) by (apply nth_nonneg; intros y Hy; now apply (lo_bd _ HL) in Hy).
  assert (Hfv : Z.of_nat (length (fork_enum_values (qquota Q) (qbounds Q) m)) <= nth m (qbounds Q) 0 + 1).
  { unfold fork_enum_values. cbv zeta. rewrite zrange_length. lia. }
  assert (1 <= prodb (delete [m] (qbounds Q))) by (apply prodb_pos; intros y Hy; apply in_delete in Hy; now apply (lo_bd _ HL) in Hy).
  nia.
Qed.

(** ** one row *)
Lemma ends_binarize a : ends (binarize a).
Proof.
  unfold binarize. apply ends_bind; [apply ends_assert|]. intros _ _. apply ends_bind; [apply ends_answer_quota|]. intros q _.
  apply ends_bind; [apply ends_assert|]. intros; dis.
Qed.
(** neither an exception of another kind nor [NoSolution] *)
Definition quiet {A} (r : res A) : Prop := match r with Ok _ => True | NoSolution => False | Raise e => fine e = true end.
Lemma quiet_bind {A B} (x : res A) (f : A -> res B) : quiet x -> (forall a, x = Ok a -> quiet (f a)) -> quiet (bind x f).
Proof. destruct x; cbn [bind]; intros H1 H2; auto. Qed.
Lemma quiet_assert c : quiet (assert_ c).
Proof. destruct c; dis. Qed.
Lemma quiet_mapM {A B} (f : A -> res B) l : (forall a, In a l -> quiet (f a)) -> quiet (mapM f l).
Proof.
  induction l as [|a l IH]; intros H; cbn [mapM]; [dis|]. apply quiet_bind; [apply H; now left|]. intros b _.
  apply quiet_bind; [apply IH; intros; apply H; now right|]. intros; dis.
Qed.
Lemma vols_nonneg l : (forall P, In P l -> loose P) -> 0 <= vols l.
Proof.
  intros Hl. apply zsum_nonneg. intros x Hx. apply in_map_iff in Hx. destruct Hx as (P & <- & HP). pose proof (vol_pos P (Hl P HP)). lia.
Qed.
Lemma question_step_any s : (forall P, In P (fst s) -> loose P) ->
  match question_step s with
  | inl s' => (forall P, In P (fst s') -> loose P) /\ vols (fst s') < vols (fst s)
  | inr r => quiet r
  end.
Proof.
  destruct s as [[|P rest] out]; intros Hs; cbn [question_step fst] in *; [dis|].
  assert (HP : loose P) by (apply Hs; now left). assert (Hr : forall P', In P' rest -> loose P') by (intros; apply Hs; now right).
  assert (HD : vols rest < vols (P :: rest)).
  { change (P :: rest) with ([P] ++ rest). rewrite vols_app, (vols_const [P] (vol P)) by (intros P' [<-|[]]; reflexivity). cbn [length]. pose proof (vol_pos P HP). lia. }
  destruct (refine_any P HP) as [R1 R2]. destruct (refine P) as [P'| |e] eqn:ER; [|cbn [fst]; auto|].
  2:{ exact R1. }
  pose proof (R2 P' eq_refl) as L. destruct (answer_unknown (qans P')).
  + pose proof (ends_fork_enum P' (le_loose _ _ L)) as F. destruct (fork_enum P') as [qs| |e] eqn:EF; [|cbn [fst]; auto|].
    2:{ exact F. }
    destruct (fork_enum_any P' qs (le_loose _ _ L) EF) as [F1 F2]. cbn [fst]. split.
    * intros P2 Hin. apply in_app_iff in Hin. destruct Hin as [Hin|Hin]; [apply F1; now apply in_rev|auto].
    * rewrite vols_app. change (P :: rest) with ([P] ++ rest). rewrite vols_app, (vols_const [P] (vol P)) by (intros P2 [<-|[]]; reflexivity). cbn [length].
      assert (vols (rev qs) = vols qs). { unfold vols. rewrite map_rev. apply zsum_perm. symmetry. apply Permutation_rev. }
      pose proof (le_vol _ _ L). lia.
  + pose proof (ends_binarize (qans P')) as F. destruct (binarize (qans P')) as [x| |e]; [cbn [fst]; auto|cbn [fst]; auto|].
    exact F.
Qed.
Theorem solve_question_any Q : loose Q -> quiet (solve_question Q).
Proof.
  intros HL. unfold solve_question.
  apply (while_spec question_step (fun s => forall P, In P (fst s) -> loose P) (fun s => vols (fst s)) quiet).
  - intros s. apply vols_nonneg.
  - apply question_step_any.
  - intros P [<-|[]]. exact HL.
  - cbn [fst]. rewrite (vols_const [Q] (vol Q)) by (intros P [<-|[]]; reflexivity). cbn [length]. rewrite Z.mul_1_l.
    apply prodb_fuel. intros y Hy. now apply (lo_bd _ HL) in Hy.
Qed.

(** ** the whole search *)
Record sheet (v R : nat) (m : mat) : Prop := {
  sh_cols : mcols m = v;
  sh_rows : mnrows m = R;
  sh_fit : (2 <= R <= v)%nat;
  sh_bits : forall row, In row (mrows m) -> length row = v /\ bits row }.

Lemma from_matrix_any v R m : sheet v R m -> (R < v)%nat -> ends (from_matrix m) /\ forall Q, from_matrix m = Ok Q -> loose Q.
Proof.
  intros [H1 H2 H3 H4] HRv. unfold from_matrix, vklu. unfold mnrows in H2.
  destruct (mrows m) as [|r0 [|r1 rows]] eqn:ER; cbn [bind]; [cbn in H2; lia..|]. rewrite <- ER in *. clear ER.
  destruct (Nat.leb_spec (mcols m) (mnrows m)) as [|LT]; [unfold mnrows in *; lia|]. cbv zeta.
  destruct (existsb _ _); [split; dis|]. split; [apply ends_mk_question|]. intros Q HQ. unfold mk_question in HQ.
  apply bind_ok in HQ. destruct HQ as (u1 & A1 & HQ). apply bind_ok in HQ. destruct HQ as (u2 & A2 & HQ). apply bind_ok in HQ. destruct HQ as (u3 & A3 & HQ).
  apply bind_ok in HQ. destruct HQ as (u4 & _ & HQ). apply bind_ok in HQ. destruct HQ as (u5 & A5 & HQ). apply bind_ok in HQ. destruct HQ as (a & Ha & HQ).
  apply assert_ok in A1, A2, A3, A5. apply Nat.eqb_eq in A1, A2. injection HQ as <-.
  constructor; unfold qcols; cbn [qA qb qbounds mcols mrows].
  - intros row Hr. apply in_app_iff in Hr. destruct Hr as [Hr|[<-|[]]].
    + apply in_map_iff in Hr. destruct Hr as (r & <- & Hr). destruct (H4 r Hr) as [Lr Br]. split; [rewrite skipn_length; lia|].
      intros x Hx. apply Br. rewrite <- (firstn_skipn (mnrows m + 1) r). apply in_app_iff. now right.
    + split; [apply repeat_length|]. intros x Hx. apply repeat_spec in Hx. now right.
  - now symmetry.
  - intros x. now apply nonneg_in.
  - apply repeat_length.
  - intros x Hx. apply repeat_spec in Hx. lia.
  - unfold mnrows. cbn [mrows]. rewrite app_length. cbn [length]. lia.
  - cbn [mcols qans] in *. rewrite default_answer_ok in Ha. injection Ha as <-. unfold unknown_loc. cbn [av]. rewrite where_repeat_all. apply seq_length.
Qed.
Lemma quiet_append_row v R m x : sheet v R m -> (R < v)%nat -> quiet (append_row m x).
Proof. intros [H1 H2 _ _] H. unfold append_row. cbv zeta. destruct (Nat.leb_spec (mcols m) (mnrows m)); [lia|]. apply quiet_bind; [apply quiet_assert|]. intros; dis. Qed.
Lemma advance_any v R m : sheet v R m -> quiet (advance m) /\ forall ms, advance m = Ok ms -> forall m', In m' ms -> sheet v (S R) m'.
Proof.
  intros HS. pose proof HS as [H1 H2 H3 H4]. unfold advance. split.
  - apply quiet_bind; [apply quiet_assert|]. intros u Hu. apply assert_ok in Hu. unfold solved in Hu.
    assert (LT : (R < v)%nat) by (destruct (Nat.eqb_spec (mnrows m) (mcols m)); [discriminate|lia]).
    destruct (from_matrix_any v R m HS LT) as [F1 F2]. destruct (from_matrix m) as [Q| |e]; [|dis|exact F1].
    apply quiet_bind; [apply solve_question_any; auto|]. intros xs _. apply quiet_mapM. intros; now apply (quiet_append_row v R).
  - intros ms H m' Hin. apply bind_ok in H. destruct H as (u & _ & H). destruct (from_matrix m) as [Q| |e] eqn:EF; [|injection H as <-; easy|dis].
    apply bind_ok in H. destruct H as (xs & Hxs & H). destruct (mapM_in _ _ _ _ H Hin) as (x & Hx & Ex).
    destruct (solve_question_shape _ _ Hxs x Hx) as [Hb _].
    unfold append_row in Ex. cbv zeta in Ex. destruct (Nat.leb_spec (mcols m) (mnrows m)) as [|Hlt]; [dis|].
    apply bind_ok in Ex. destruct Ex as (u' & A & Ex). apply assert_ok in A. apply Nat.eqb_eq in A. injection Ex as <-.
    constructor; unfold mnrows; cbn [mcols mrows]; [exact H1|rewrite app_length; cbn [length]; unfold mnrows in H2; lia|unfold mnrows in *; lia|].
    intros row Hr. apply in_app_iff in Hr. destruct Hr as [Hr|[<-|[]]]; [now apply H4|]. split; [etransitivity; [exact A|exact H1]|].
    intros y Hy. apply in_app_iff in Hy. destruct Hy as [Hy|[<-|Hy]]; [|now left|now apply Hb].
    unfold column in Hy. apply in_map_iff in Hy. destruct Hy as (r & <- & Hr). destruct (H4 r Hr) as [Lr Br].
    apply Br. apply nth_In. unfold mnrows in *. lia.
Qed.
Lemma advance_all_any v R l : (forall m, In m l -> sheet v R m) ->
  quiet (advance_all l) /\ forall ms, advance_all l = Ok ms -> (forall m', In m' ms -> sheet v (S R) m').
Proof.
  intros H. unfold advance_all. split.
  - apply quiet_bind; [|intros; dis]. apply quiet_mapM. intros m Hm. now apply (advance_any v R m (H m Hm)).
  - intros ms E m' Hin. apply bind_ok in E. destruct E as (ls & Els & E). injection E as <-. apply in_concat in Hin. destruct Hin as (l' & Hl' & Hin).
    destruct (mapM_in _ _ _ _ Els Hl') as (m & Hm & Em). now apply (proj2 (advance_any v R m (H m Hm)) l').
Qed.
Lemma advance_all_nil : advance_all [] = Ok [].
Proof. reflexivity. Qed.
Lemma solve_loop_any v : forall fuel R lst ys, (forall m, In m lst -> sheet v R m) -> (v < R + fuel)%nat -> quiet (solve_loop fuel lst ys).
Proof.
  induction fuel as [|fuel IH]; intros R lst ys HS HF; cbn [solve_loop]; destruct lst as [|m lst]; try dis.
  - pose proof (sh_fit _ _ _ (HS m (or_introl eq_refl))). lia.
  - assert (HU : forall m', In m' (lst_undone (m :: lst)) -> sheet v R m') by (intros m' Hm'; apply filter_In in Hm'; apply HS; tauto).
    destruct (advance_all_any v R _ HU) as [A1 A2]. apply quiet_bind; [exact A1|]. intros ms Ems. apply (IH (S R)); [|lia]. exact (A2 ms Ems).
Qed.
Theorem solve_any v m : sheet v 2 m -> quiet (solve m).
Proof.
  intros HS. destruct (advance_any v 2 m HS) as [A1 A2]. unfold solve. apply quiet_bind; [exact A1|]. intros l1 E1.
  assert (HU : forall m', In m' (lst_undone l1) -> sheet v 3 m') by (intros m' Hm'; apply filter_In in Hm'; apply (A2 l1 E1); tauto).
  destruct (advance_all_any v 3 _ HU) as [B1 B2]. apply quiet_bind; [exact B1|]. intros l2 E2.
  destruct HS as [H1 H2 H3 _]. apply (solve_loop_any v _ 4); [exact (B2 l2 E2)|]. rewrite H1, H2. lia.
Qed.
Lemma seed_sheet v k l u m : seed v k l u = Ok m -> sheet (Z.to_nat v) 2 m.
Proof.
  unfold seed. cbv zeta. destruct (Z.ltb_spec v 0) as [|V0]; [dis|]. destruct (Z.ltb_spec v 2) as [|V2]; [dis|].
  intros H. assert (H' : forall a b : mat, Ok a = Ok b -> b = a) by congruence. apply H' in H. subst m. clear H'.
  assert (HZ : bits (repeat 0 (Z.to_nat v))) by (intros x Hx; apply repeat_spec in Hx; now left).
  assert (HB0 : bits (slice_set 1 (k + 1) 1 (repeat 0 (Z.to_nat v)))) by now apply slice_set_bits.
  constructor; cbn [mcols mrows mnrows length]; [reflexivity|reflexivity|lia|].
  intros row [<-|[<-|[]]].
  - split; [now rewrite slice_set_length, repeat_length|exact HB0].
  - split; [now rewrite set_nth_length, !slice_set_length, repeat_length|].
    intros x Hx. apply (In_nth _ _ 0) in Hx. destruct Hx as (j & Hj & <-). rewrite set_nth_length in Hj.
    rewrite nth_set_nth. destruct (Nat.eqb j 0 && _)%bool.
    + apply HB0. apply nth_In. rewrite slice_set_length, repeat_length. lia.
    + assert (HB1 : bits (slice_set (k + 1) (k + (k - l - 1) + 1) 1 (slice_set 2 (l + 2) 1 (repeat 0 (Z.to_nat v))))) by now repeat apply slice_set_bits.
      apply HB1. now apply nth_In.
Qed.
Theorem run_main_ends v k l u : 2 <= v -> quiet (run_main v k l u).
Proof.
  intros Hv. unfold run_main. apply quiet_bind; [apply quiet_assert|]. intros _ _. apply quiet_bind.
  - unfold seed. cbv zeta. destruct (Z.ltb_spec v 0); [lia|]. destruct (Z.ltb_spec v 2); [lia|dis].
  - intros m Hm. apply (solve_any (Z.to_nat v)). now apply (seed_sheet v k l u).
Qed.
