(** The generators yield the values of [Model] one by one. *)
From Verif Require Import Np ModelGauss Model Spec Lib SolveFacts AnyFacts TurnSpec Turns Levels ModelGen.
From Coq Require Import ZifyBool ZifyNat.

(** the events of a generator that yields [xs] and ends in [e] *)
Definition stream_of {A} (xs : list A) (e : list (event A)) (n : nat) : list (event A) :=
  firstn n (map Yielded xs ++ e ++ repeat Stopped n).

Lemma nexts_stopped {A G} (next : G -> event A * G) g : next g = (Stopped, g) -> forall n, nexts next n g = repeat Stopped n.
Proof. intros E. induction n as [|n IH]; cbn; auto. now rewrite E, IH. Qed.
Lemma firstn_stopped {A} n : firstn n (repeat (@Stopped A) n) = repeat Stopped n.
Proof. rewrite <- (repeat_length (@Stopped A) n) at 1. apply firstn_all. Qed.
Lemma firstn_more {A} (l : list (event A)) n : firstn n (l ++ repeat Stopped (S n)) = firstn n (l ++ repeat Stopped n).
Proof.
  replace (S n) with (n + 1)%nat by lia. rewrite repeat_app, app_assoc, (firstn_app n (l ++ repeat Stopped n)).
  rewrite app_length, repeat_length. replace (n - (length l + n))%nat with 0%nat by lia. now rewrite firstn_O, app_nil_r.
Qed.
Lemma stream_cons {A} (x : A) xs e n : stream_of (x :: xs) e (S n) = Yielded x :: stream_of xs e n.
Proof. unfold stream_of. cbn [map app firstn]. f_equal. rewrite !app_assoc. apply firstn_more. Qed.
Lemma stream_end {A} (e : event A) n : stream_of [] [e] (S n) = e :: repeat Stopped n.
Proof. unfold stream_of. cbn [map app firstn]. f_equal. rewrite <- (firstn_stopped n). exact (firstn_more [] n). Qed.
Lemma stream_nil {A} n : stream_of (@nil A) [] n = repeat Stopped n.
Proof. apply firstn_stopped. Qed.

(** ** counting turns *)
Lemma iter2_loops {S R} (step : S -> S + R) k : forall n s r, loops step n s r ->
  ((n < 2 ^ k)%nat -> iter2 k step s = inr r)
  /\ ((2 ^ k <= n)%nat -> exists s', iter2 k step s = inl s' /\ loops step (n - 2 ^ k) s' r).
Proof.
  induction k as [|k IH]; intros n s r L; cbn [iter2 Nat.pow].
  - split; intros H.
    + inversion L; subst; [assumption|lia].
    + inversion L as [|m ? s' ? E L']; subst; [lia|]. exists s'. split; [assumption|]. now replace (Datatypes.S m - 1)%nat with m by lia.
  - destruct (IH n s r L) as (H1 & H2). destruct (Nat.lt_ge_cases n (2 ^ k)) as [Hl|Hl].
    + rewrite (H1 Hl). split; [auto|lia].
    + destruct (H2 Hl) as (s' & E & L'). rewrite E. destruct (IH _ _ _ L') as (H3 & H4). split; intros H.
      * apply H3. lia.
      * destruct (H4 ltac:(lia)) as (s2 & E2 & L2). exists s2. split; [exact E2|]. replace (n - 2 * 2 ^ k)%nat with (n - 2 ^ k - 2 ^ k)%nat by lia. exact L2.
Qed.
Lemma while_count {S A} (step : S -> S + res A) k s r : while_ k step s = r -> r <> Raise OutOfFuel ->
  exists n, loops step n s r /\ (n < 2 ^ k)%nat.
Proof.
  unfold while_. intros E Hr. pose proof (iter2_prefix step k s) as P. destruct (iter2 k step s) as [s'|r'] eqn:EI; [congruence|].
  subst r'. destruct P as (n & L). exists n. split; [exact L|]. destruct (Nat.lt_ge_cases n (2 ^ k)) as [H|H]; [exact H|].
  destruct (proj2 (iter2_loops step k n s r L) H) as (s' & E & _). congruence.
Qed.
Lemma count_while {S A} (step : S -> S + res A) k n s r : loops step n s r -> (n < 2 ^ k)%nat -> while_ k step s = r.
Proof. intros L H. unfold while_. now rewrite (proj1 (iter2_loops step k n s r L) H). Qed.

(** ** solve_question *)
Lemma turn_split n : forall stack out r, loops question_step n (stack, out) r ->
  (exists n1, (n1 <= n)%nat /\ loops question_turn n1 stack (Ok None) /\ r = Ok (rev out))
  \/ (exists n1 n2 x stack', (n1 <= n)%nat /\ (n2 < n)%nat /\ loops question_turn n1 stack (Ok (Some (x, stack')))
        /\ loops question_step n2 (stack', x :: out) r)
  \/ (exists n1 e, (n1 <= n)%nat /\ loops question_turn n1 stack (Raise e) /\ r = Raise e).
Proof.
  induction n as [|n IH]; intros stack out r L.
  - inversion L as [? ? E|]; subst. unfold question_step in E.
    destruct stack as [|Q rest].
    { injection E as <-. left. exists 0%nat. split; [lia|]. split; [now constructor|reflexivity]. }
    right. right. destruct (refine Q) as [Q'| |e] eqn:E1; try discriminate.
    + destruct (answer_unknown (qans Q')) eqn:EA.
      * destruct (fork_enum Q') as [qs| |e] eqn:E2; try discriminate. injection E as <-. exists 0%nat, e. split; [lia|].
        split; [constructor; cbn; now rewrite E1, EA, E2|reflexivity].
      * destruct (binarize (qans Q')) as [x| |e] eqn:E2; try discriminate. injection E as <-. exists 0%nat, e. split; [lia|].
        split; [constructor; cbn; now rewrite E1, EA, E2|reflexivity].
    + injection E as <-. exists 0%nat, e. split; [lia|]. split; [constructor; cbn; now rewrite E1|reflexivity].
  - inversion L as [|? ? [stack1 out1] ? E L1]; subst.
    assert (G : (out1 = out /\ question_turn stack = inl stack1) \/ exists x, out1 = x :: out /\ question_turn stack = inr (Ok (Some (x, stack1)))).
    { unfold question_step in E. unfold question_turn. destruct stack as [|Q rest]; [discriminate|].
      destruct (refine Q) as [Q'| |e]; try discriminate.
      - destruct (answer_unknown (qans Q')).
        + destruct (fork_enum Q') as [qs| |e]; try discriminate; injection E as <- <-; auto.
        + destruct (binarize (qans Q')) as [x| |e]; try discriminate; injection E as <- <-; [right; eauto|left; auto].
      - injection E as <- <-. auto. }
    destruct G as [(-> & ET)|(x & -> & ET)].
    + destruct (IH _ _ _ L1) as [(n1 & H1 & L2 & R)|[(n1 & n2 & x & st' & H1 & H2 & L2 & L3)|(n1 & e & H1 & L2 & R)]].
      * left. exists (S n1). split; [lia|]. split; [econstructor; eauto|exact R].
      * right. left. exists (S n1), n2, x, st'. split; [lia|]. split; [lia|]. split; [econstructor; eauto|exact L3].
      * right. right. exists (S n1), e. split; [lia|]. split; [econstructor; eauto|exact R].
    + right. left. exists 0%nat, n, x, stack1. split; [lia|]. split; [lia|]. split; [now constructor|exact L1].
Qed.

Lemma question_events k : forall n stack out r, loops question_step n (stack, out) r -> (n < 2 ^ k)%nat ->
  exists xs, match r with
    | Ok ys => ys = rev out ++ xs /\ forall j, nexts (question_next k) j (Some stack) = stream_of xs [] j
    | Raise e => forall j, nexts (question_next k) j (Some stack) = stream_of xs [Raised e] j
    | NoSolution => False
    end.
Proof.
  induction n as [n IH] using (well_founded_induction Wf_nat.lt_wf). intros stack out r L Hn.
  assert (HE : forall j, nexts (question_next k) j None = repeat Stopped j) by now apply nexts_stopped.
  destruct (turn_split _ _ _ _ L) as [(n1 & H1 & L2 & ->)|[(n1 & n2 & x & st' & H1 & H2 & L2 & L3)|(n1 & e & H1 & L2 & ->)]].
  - exists []. split; [now rewrite app_nil_r|]. intros [|j]; [reflexivity|]. cbn [nexts]. unfold question_next at 1.
    rewrite (count_while _ k _ _ _ L2) by lia. rewrite HE. symmetry. exact (stream_nil (S j)).
  - destruct (IH n2 H2 _ _ _ L3 ltac:(lia)) as (xs & H). exists (x :: xs). destruct r as [ys| |e]; [| easy |].
    + destruct H as (E & H). split; [rewrite E; cbn [rev]; now rewrite <- app_assoc|]. intros [|j]; [reflexivity|]. cbn [nexts]. unfold question_next at 1.
      rewrite (count_while _ k _ _ _ L2) by lia. now rewrite H, stream_cons.
    + intros [|j]; [reflexivity|]. cbn [nexts]. unfold question_next at 1.
      rewrite (count_while _ k _ _ _ L2) by lia. now rewrite H, stream_cons.
  - exists []. intros [|j]; [reflexivity|]. cbn [nexts]. unfold question_next at 1.
    rewrite (count_while _ k _ _ _ L2) by lia. now rewrite HE, stream_end.
Qed.
Theorem question_values_proof Q xs : solve_question Q = Ok xs ->
  forall n, nexts (question_next (question_fuel Q)) n (Some [Q]) = firstn n (map Yielded xs ++ repeat Stopped n).
Proof.
  unfold solve_question. intros E n. destruct (while_count _ _ _ _ E ltac:(discriminate)) as (c & L & Hc).
  destruct (question_events _ _ _ _ _ L Hc) as (ys & Ey & H). cbn in Ey. subst ys. apply H.
Qed.
Theorem question_raises_proof Q e : solve_question Q = Raise e -> e <> OutOfFuel ->
  exists xs, forall n, nexts (question_next (question_fuel Q)) n (Some [Q]) = firstn n (map Yielded xs ++ [Raised e] ++ repeat Stopped n).
Proof.
  unfold solve_question. intros E He. destruct (while_count _ _ _ _ E ltac:(congruence)) as (c & L & Hc).
  exact (question_events _ _ _ _ _ L Hc).
Qed.

(** ** solve *)
Definition level (c r : nat) (l : list mat) : Prop := forall m, In m l -> mcols m = c /\ mnrows m = r.
Lemma advance_level m ms : advance m = Ok ms -> level (mcols m) (S (mnrows m)) ms.
Proof.
  intros E m' Hm. apply (advance_next _ _ E) in Hm as (Q & xs & x & _ & _ & _ & Ha).
  destruct (append_shape _ _ _ Ha) as (H1 & _ & row & H2 & _). split; [exact H1|]. unfold mnrows. rewrite H2, app_length. cbn. lia.
Qed.
Lemma advance_all_level c r l l' : level c r l -> advance_all l = Ok l' -> level c (S r) l'.
Proof.
  unfold advance_all. intros HL E. inv_bind E. injection E as <-. intros m Hm. apply in_concat in Hm as (ms & Hms & Hm).
  destruct (mapM_in _ _ _ _ E0 Hms) as (m0 & H0 & E1). destruct (HL m0 H0) as (<- & <-). now apply (advance_level _ _ E1).
Qed.
Lemma solved_shape m : solved m = (mnrows m =? mcols m)%nat.
Proof. reflexivity. Qed.
Lemma level_split c r l : level c r l -> (lst_done l = l /\ lst_undone l = []) \/ (lst_done l = [] /\ lst_undone l = l).
Proof.
  intros HL. destruct (r =? c)%nat eqn:E; [left|right].
  all: assert (HS : forall m, In m l -> solved m = (r =? c)%nat) by (intros m Hm; destruct (HL m Hm) as (<- & <-); apply solved_shape).
  all: clear HL; rewrite E in HS; unfold lst_done, lst_undone; induction l as [|m l IH]; cbn; auto.
  all: rewrite (HS m (or_introl eq_refl)); cbn; destruct (IH (fun x Hx => HS x (or_intror Hx))) as (-> & ->); auto.
Qed.
Lemma advance_all_nil : advance_all [] = Ok [].
Proof. reflexivity. Qed.

Definition events_of (r : res (list mat)) (n : nat) : list (event mat) :=
  match r with
  | Ok ms => stream_of ms [] n
  | NoSolution => stream_of [] [RaisedNoSolution] n
  | Raise e => stream_of [] [Raised e] n
  end.
Lemma ended n : nexts search_next n Ended = repeat Stopped n.
Proof. now apply nexts_stopped. Qed.
Lemma among ds f : forall n, nexts search_next n (Among ds [] f) = stream_of ds [] n.
Proof.
  induction ds as [|d ds IH]; intros [|n]; try reflexivity.
  - cbn [nexts search_next]. unfold search_on. rewrite advance_all_nil. destruct f; cbn [search_loop]; rewrite ended; symmetry; exact (stream_nil (S n)).
  - cbn [nexts search_next]. now rewrite IH, stream_cons.
Qed.
Lemma loop_events c f : forall r lst n, level c r lst ->
  (let (e, g) := search_loop f lst in e :: nexts search_next n g) = events_of (solve_loop f lst []) (S n).
Proof.
  induction f as [|f IH]; intros r lst n HL; destruct lst as [|m lst].
  - cbn [search_loop solve_loop events_of]. rewrite ended. symmetry. exact (stream_nil (S n)).
  - cbn [search_loop solve_loop events_of]. rewrite ended. now rewrite stream_end.
  - cbn [search_loop solve_loop events_of]. rewrite ended. symmetry. exact (stream_nil (S n)).
  - cbn [search_loop solve_loop]. destruct (level_split _ _ _ HL) as [(-> & ->)|(-> & ->)].
    + rewrite advance_all_nil. cbn [bind app]. destruct f; cbn [solve_loop events_of]; now rewrite among, stream_cons.
    + cbn [app]. destruct (advance_all (m :: lst)) as [lst'| |e] eqn:E; cbn [bind events_of].
      * apply (IH (S r)). now apply (advance_all_level _ _ _ _ HL).
      * rewrite ended. now rewrite stream_end.
      * rewrite ended. now rewrite stream_end.
Qed.
Lemma search_events m n : nexts search_next n (Begin m) = events_of (solve m) n.
Proof.
  destruct n as [|n]; [unfold events_of; now destruct (solve m)|]. cbn [nexts search_next]. unfold solve.
  destruct (advance m) as [lst| |e] eqn:E; cbn [bind events_of]; try (rewrite ended; now rewrite stream_end).
  pose proof (advance_level _ _ E) as HL. destruct (level_split _ _ _ HL) as [(-> & ->)|(-> & ->)].
  - rewrite advance_all_nil. cbn [bind]. replace (solve_loop (mcols m - mnrows m) [] lst) with (@Ok (list mat) lst) by (destruct (mcols m - mnrows m)%nat; reflexivity).
    cbn [events_of]. destruct lst as [|d ds].
    + unfold search_on. rewrite advance_all_nil. destruct (mcols m - mnrows m)%nat; cbn [search_loop]; rewrite ended; symmetry; exact (stream_nil (S n)).
    + now rewrite among, stream_cons.
  - unfold search_on. destruct (advance_all lst) as [lst'| |e] eqn:E2; cbn [bind events_of]; try (rewrite ended; now rewrite stream_end).
    apply (loop_events (mcols m) _ (S (S (mnrows m)))). now apply (advance_all_level _ _ _ _ HL).
Qed.
Theorem search_values_proof m ms : solve m = Ok ms ->
  forall n, nexts search_next n (Begin m) = firstn n (map Yielded ms ++ repeat Stopped n).
Proof. intros E n. rewrite search_events, E. reflexivity. Qed.
Theorem search_raises_proof m e : solve m = Raise e ->
  forall n, nexts search_next (S n) (Begin m) = Raised e :: repeat Stopped n.
Proof. intros E n. rewrite search_events, E. apply stream_end. Qed.
Lemma loop_waits c f : forall r lst x g, level c r lst -> search_loop f lst = (Yielded x, g) -> exists ds f', g = Among ds [] f'.
Proof.
  induction f as [|f IH]; intros r lst x g HL H; destruct lst as [|m lst]; try discriminate.
  cbn [search_loop] in H. destruct (level_split _ _ _ HL) as [(E1 & E2)|(E1 & E2)]; rewrite E1, E2 in H.
  - injection H as _ <-. eauto.
  - destruct (advance_all (m :: lst)) as [lst'| |e] eqn:E; try discriminate. apply (IH (S r) lst' x g); auto. now apply (advance_all_level _ _ _ _ HL).
Qed.
(** when the first value is out, nothing is left to search *)
Theorem search_first_proof m x g : search_next (Begin m) = (Yielded x, g) -> exists ds f, g = Among ds [] f.
Proof.
  cbn [search_next]. destruct (advance m) as [lst| |e] eqn:E; try discriminate.
  pose proof (advance_level _ _ E) as HL. destruct (level_split _ _ _ HL) as [(-> & ->)|(-> & ->)].
  - destruct lst as [|d ds].
    + unfold search_on. rewrite advance_all_nil. destruct (mcols m - mnrows m)%nat; discriminate.
    + intros H. injection H as _ <-. eauto.
  - unfold search_on. destruct (advance_all lst) as [lst'| |e] eqn:E2; try discriminate.
    apply (loop_waits (mcols m) _ (S (S (mnrows m)))). now apply (advance_all_level _ _ _ _ HL).
Qed.
