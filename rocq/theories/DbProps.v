(** Proofs about the database. *)
From Coq Require Import String.
From Verif Require Import Np ModelGauss Model ModelSort ModelUtil ModelDb Database Spec QSpec SortSpec Lib StepFacts Graph PartProps SortFacts MaxFacts Check UtilProps SortProps SolverProps SolveFacts AnyFacts Conference.
From Coq Require Import ZifyBool ZifyNat Sorting.Permutation Sorting.Sorted.
Open Scope list_scope.
Open Scope Z_scope.

(** ** a fast check of strong regularity on packed rows *)
Fixpoint popcount_pos (p : positive) : Z :=
  match p with
  | xH => 1
  | xO q => popcount_pos q
  | xI q => 1 + popcount_pos q
  end.
Definition popcount (n : Z) : Z := match n with Zpos p => popcount_pos p | _ => 0 end.

Lemma popcount_pos_sum p : forall v, Zpos p < 2 ^ Z.of_nat v ->
  popcount_pos p = sumn v (fun j => Z.b2z (Z.testbit (Zpos p) (Z.of_nat j))).
Proof.
  assert (G : forall v (q : Z) (c : bool), sumn (S v) (fun j => Z.b2z (Z.testbit (2 * q + Z.b2z c) (Z.of_nat j)))
     = Z.b2z c + sumn v (fun j => Z.b2z (Z.testbit q (Z.of_nat j)))).
  { intros v q c. rewrite (sumn_split (S v) 1) by lia. rewrite sumn_S, sumn_0. f_equal.
    - change (Z.of_nat 0) with 0. rewrite Z.testbit_0_r. lia.
    - replace (S v - 1)%nat with v by lia. apply sumn_ext. intros i Hi. replace (Z.of_nat (1 + i)) with (Z.succ (Z.of_nat i)) by lia.
      now rewrite Z.testbit_succ_r by lia. }
  induction p as [p IH|p IH|]; intros v Hv; (destruct v as [|v]; [simpl in Hv; lia|]); rewrite Nat2Z.inj_succ, Z.pow_succ_r in Hv by lia.
  - change (Zpos p~1) with (2 * Zpos p + Z.b2z true). rewrite G, <- IH by lia. reflexivity.
  - change (Zpos p~0) with (2 * Zpos p + Z.b2z false). rewrite G, <- IH by lia. reflexivity.
  - transitivity (1 + sumn v (fun j => Z.b2z (Z.testbit 0 (Z.of_nat j)))).
    + rewrite sumn_zero; [reflexivity|]. intros i _. now rewrite Z.bits_0.
    + symmetry. apply (G v 0 true).
Qed.
Lemma popcount_sum n v : 0 <= n < 2 ^ Z.of_nat v -> popcount n = sumn v (fun j => Z.b2z (Z.testbit n (Z.of_nat j))).
Proof.
  intros [H0 H]. destruct n as [|p|p]; [|now apply popcount_pos_sum|lia]. rewrite sumn_zero; [reflexivity|]. intros i _. now rewrite Z.bits_0.
Qed.
Lemma sumn_rev v f : sumn v (fun j => f (v - 1 - j)%nat) = sumn v f.
Proof.
  apply (sumn_relabel v (fun j => (v - 1 - j)%nat) f). split; intros; lia.
Qed.

Section packed.
  Variables (v : nat) (rows : list Z).
  Let M := map (unpack v) rows.
  Hypothesis HL : length rows = v.
  Hypothesis HR : forall n, In n rows -> 0 <= n < 2 ^ Z.of_nat v.

  Lemma pk_cell i j : (i < v)%nat -> (j < v)%nat -> cell M i j = Z.b2z (Z.testbit (nth i rows 0) (Z.of_nat (v - 1 - j))).
  Proof.
    intros Hi Hj. unfold cell, M. rewrite (nth_map_in _ _ _ 0) by lia. unfold unpack.
    rewrite (nth_map_in _ _ _ 0%nat) by (rewrite seq_length; lia). now rewrite seq_nth.
  Qed.
  Lemma pk_range i : (i < v)%nat -> 0 <= nth i rows 0 < 2 ^ Z.of_nat v.
  Proof. intros Hi. apply HR, nth_In. lia. Qed.
  Lemma pk_degree i : (i < v)%nat -> degree v M i = popcount (nth i rows 0).
  Proof.
    intros Hi. rewrite (popcount_sum _ v) by now apply pk_range. unfold degree.
    rewrite <- (sumn_rev v (fun j => Z.b2z (Z.testbit (nth i rows 0) (Z.of_nat j)))). apply sumn_ext. intros j Hj. now apply pk_cell.
  Qed.
  Lemma pk_common i j : (i < v)%nat -> (j < v)%nat -> common v M i j = popcount (Z.land (nth i rows 0) (nth j rows 0)).
  Proof.
    intros Hi Hj. pose proof (pk_range i Hi) as Ri. pose proof (pk_range j Hj) as Rj. rewrite (popcount_sum _ v).
    - unfold common. rewrite <- (sumn_rev v (fun w => Z.b2z (Z.testbit (Z.land (nth i rows 0) (nth j rows 0)) (Z.of_nat w)))).
      apply sumn_ext. intros w Hw. rewrite !pk_cell by auto. rewrite Z.land_spec. now destruct (Z.testbit _ _), (Z.testbit _ _).
    - split; [apply Z.land_nonneg; lia|]. destruct (Z.eq_dec (Z.land (nth i rows 0) (nth j rows 0)) 0) as [->|Hne]; [apply Z.pow_pos_nonneg; lia|].
      apply Z.log2_lt_pow2; [pose proof (proj2 (Z.land_nonneg (nth i rows 0) (nth j rows 0))); lia|].
      eapply Z.le_lt_trans; [apply Z.log2_land; lia|]. 
      destruct (Z.eq_dec (nth i rows 0) 0) as [E|E]; [rewrite E in Hne; now rewrite Z.land_0_l in Hne|].
      apply Z.min_lt_iff. left. apply Z.log2_lt_pow2; lia.
  Qed.
End packed.

(** pairs [(i, r), (j, s)] with [i < j] *)
Fixpoint pairs_ok (ok : nat -> Z -> nat -> Z -> bool) (i : nat) (rows : list Z) : bool :=
  match rows with
  | [] => true
  | r :: t => forallb (fun b => b) (map2 (fun j s => ok i r j s) (seq (S i) (length t)) t) && pairs_ok ok (S i) t
  end.
Definition pair_ok (v : nat) (l u : Z) (i : nat) (r : Z) (j : nat) (s : Z) : bool :=
  let e := Z.testbit r (Z.of_nat (v - 1 - j)) in
  Bool.eqb e (Z.testbit s (Z.of_nat (v - 1 - i))) && (popcount (Z.land r s) =? if e then l else u).
Definition packed_srgb (v : nat) (k l u : Z) (rows : list Z) : bool :=
  (length rows =? v)%nat
  && forallb (fun r => (0 <=? r) && (r <? 2 ^ Z.of_nat v) && (popcount r =? k)) rows
  && forallb (fun b => negb b) (map2 (fun i r => Z.testbit r (Z.of_nat (v - 1 - i))) (seq 0 (length rows)) rows)
  && pairs_ok (pair_ok v l u) 0 rows.
Lemma forallb_map2_seq {A} (f : nat -> A -> bool) (g : bool -> bool) (d : A) l : forall s,
  forallb g (map2 f (seq s (length l)) l) = true -> forall i, (i < length l)%nat -> g (f (s + i)%nat (nth i l d)) = true.
Proof.
  induction l as [|a l IH]; intros s H i Hi; simpl in *; [lia|]. apply andb_true_iff in H. destruct H as [H1 H2].
  destruct i as [|i]; [now rewrite Nat.add_0_r|]. replace (s + S i)%nat with (S s + i)%nat by lia. apply IH; auto; lia.
Qed.
Lemma pairs_ok_spec ok rows : forall i0, pairs_ok ok i0 rows = true ->
  forall i j, (i < j < length rows)%nat -> ok (i0 + i)%nat (nth i rows 0) (i0 + j)%nat (nth j rows 0) = true.
Proof.
  induction rows as [|r t IH]; intros i0 H i j Hij; [simpl in Hij; lia|]. cbn [pairs_ok] in H. apply andb_true_iff in H. destruct H as [H1 H2].
  cbn [length] in Hij. destruct j as [|j]; [lia|]. destruct i as [|i].
  - cbn [nth]. replace (i0 + S j)%nat with (S i0 + j)%nat by lia. rewrite Nat.add_0_r.
    apply (forallb_map2_seq (fun j s => ok i0 r j s) (fun b => b) 0 t (S i0) H1). lia.
  - cbn [nth]. replace (i0 + S i)%nat with (S i0 + i)%nat by lia. replace (i0 + S j)%nat with (S i0 + j)%nat by lia. apply IH; auto. lia.
Qed.
Lemma packed_srgb_ok v k l u rows : packed_srgb v k l u rows = true -> srg v k l u (map (unpack v) rows).
Proof.
  unfold packed_srgb. rewrite !andb_true_iff. intros [[[H1 H2] H3] H4].
  assert (HL : length rows = v) by lia. rewrite forallb_forall in H2.
  assert (HR : forall n, In n rows -> 0 <= n < 2 ^ Z.of_nat v) by (intros n Hn; specialize (H2 n Hn); lia).
  assert (HP : forall i j, (i < j < v)%nat ->
     cell (map (unpack v) rows) i j = cell (map (unpack v) rows) j i
     /\ common v (map (unpack v) rows) i j = if cell (map (unpack v) rows) i j =? 1 then l else u).
  { intros i j Hij. pose proof (pairs_ok_spec _ rows 0 H4 i j ltac:(lia)) as E. unfold pair_ok in E. simpl in E.
    apply andb_true_iff in E. destruct E as [E1 E2]. apply Bool.eqb_prop in E1.
    rewrite pk_common by (auto; lia). rewrite !pk_cell by (auto; lia). rewrite <- E1. split; auto.
    apply Z.eqb_eq in E2. rewrite E2. now destruct (Z.testbit _ _). }
  split; [split; [split|split; [|split]]|split].
  - now rewrite map_length.
  - intros row Hr. apply in_map_iff in Hr. destruct Hr as (n & <- & _). unfold unpack. now rewrite map_length, seq_length.
  - intros i j Hi Hj. rewrite pk_cell by auto. destruct (Z.testbit _ _); [now right|now left].
  - intros i j Hi Hj. destruct (Nat.lt_total i j) as [L|[->|L]]; auto.
    + now apply HP.
    + symmetry. now apply HP.
  - intros i Hi. rewrite pk_cell by auto. rewrite HL in H3 at 1.
    rewrite <- HL in Hi. pose proof (forallb_map2_seq (fun i r => Z.testbit r (Z.of_nat (v - 1 - i))) negb 0 rows 0) as E.
    rewrite HL in E at 1. specialize (E H3 i Hi). simpl in E. destruct (Z.testbit _ _); [discriminate|reflexivity].
  - intros i Hi. rewrite pk_degree by auto. specialize (H2 (nth i rows 0) ltac:(apply nth_In; lia)). lia.
  - intros i j Hi Hj Hne. destruct (Nat.lt_total i j) as [L|[E|L]]; [now apply HP|contradiction|].
    destruct (HP j i ltac:(lia)) as [E1 E2]. rewrite <- E1, <- E2. unfold common. apply sumn_ext. intros; lia.
Qed.

(** ** look-up *)
Lemma get_solutions_in v k l u sols : get_solutions v k l u = Ok sols ->
  exists e n, In e database /\ fst e = (n, k, l, u) /\ v = Z.of_nat n /\ sols = entry_solutions e.
Proof.
  unfold get_solutions. destruct (find _ database) as [e|] eqn:F; [|discriminate]. intros E. injection E as <-.
  apply find_some in F. destruct F as [Hin He]. apply String.eqb_eq in He. destruct e as [[[[n k'] l'] u'] ms].
  apply name_injective in He. injection He as <- <- <- <-. exists ((n, k', l', u'), ms), n. auto.
Qed.
Lemma find_unique {A} (key : A -> string) q a : NoDup (map key q) -> In a q -> find (fun e => String.eqb (key e) (key a)) q = Some a.
Proof.
  induction q as [|b q IH]; simpl; intros HN Hin; [contradiction|]. inversion HN as [|? ? Hb Hq]; subst.
  destruct Hin as [->|Hin]; [now rewrite String.eqb_refl|].
  destruct (String.eqb_spec (key b) (key a)) as [E|_]; [|auto]. exfalso. apply Hb. rewrite E. now apply in_map.
Qed.
Lemma database_names_distinct : NoDup list_problems.
Proof.
  unfold list_problems. assert (K : forall q : list string, (fix go q := match q with [] => true | a :: t => negb (existsb (String.eqb a) t) && go t end) q = true -> NoDup q).
  { induction q as [|a q IH]; intros H; constructor; apply andb_true_iff in H; destruct H as [H1 H2]; auto.
    intros Hin. apply negb_true_iff in H1. rewrite <- not_true_iff_false in H1. apply H1, existsb_exists. exists a. split; auto. apply String.eqb_refl. }
  apply K. vm_compute. reflexivity.
Qed.
Lemma listing_proof name : In name list_problems <->
  exists v k l u sols, name = problem_name v k l u /\ extract_vklu name = Ok [v; k; l; u] /\ get_solutions v k l u = Ok sols.
Proof.
  split.
  - intros H. apply in_map_iff in H. destruct H as (e & <- & Hin). destruct e as [[[[n k] l] u] ms] eqn:Ee.
    exists (Z.of_nat n), k, l, u, (entry_solutions e). rewrite <- Ee in Hin. split; [reflexivity|]. split; [apply name_round_trip|].
    unfold get_solutions. replace (problem_name (Z.of_nat n) k l u) with (entry_name e) by now rewrite Ee.
    now rewrite (find_unique entry_name database e database_names_distinct Hin).
  - intros (v & k & l & u & sols & -> & _ & H). apply get_solutions_in in H. destruct H as (e & n & Hin & He & -> & _).
    apply in_map_iff. exists e. split; auto. destruct e as [p ms]. simpl in He. now subst p.
Qed.

(** ** every shipped matrix is strongly regular *)
Definition entry_srgb (e : (nat * Z * Z * Z) * list (list Z)) : bool :=
  let '((v, k, l, u), ms) := e in forallb (packed_srgb v k l u) ms.
Lemma db_srgb_true : forallb entry_srgb database = true.
Proof. vm_cast_no_check (eq_refl true). Qed.
Lemma database_sound_proof v k l u sols m : get_solutions v k l u = Ok sols -> In m sols ->
  mcols m = Z.to_nat v /\ srg (Z.to_nat v) k l u (mrows m).
Proof.
  intros H Hm. apply get_solutions_in in H. destruct H as (e & n & Hin & He & -> & ->). pose proof db_srgb_true as T.
  rewrite forallb_forall in T. specialize (T e Hin). destruct e as [p ms]. simpl in He. subst p. unfold entry_srgb in T.
  cbn [entry_solutions] in Hm. apply in_map_iff in Hm. destruct Hm as (rows & <- & Hr). rewrite forallb_forall in T.
  rewrite Nat2Z.id. split; [reflexivity|]. simpl. apply packed_srgb_ok. auto.
Qed.

(** ** the program reproduces the small lists *)
Definition rerun (p : nat * Z * Z * Z) : bool :=
  let '(v, k, l, u) := p in (v <? 20)%nat || ((v =? 25)%nat && (k =? 8) && (l =? 3) && (u =? 2)).
Definition entry_rerunb (e : (nat * Z * Z * Z) * list (list Z)) : bool :=
  let '((v, k, l, u), ms) := e in
  if rerun (v, k, l, u) then
    match main_output (Z.of_nat v) k l u with Ok o => list_eqb mat_eqb o (entry_solutions e) | _ => false end
  else true.
Lemma db_rerunb_true : forallb entry_rerunb database = true.
Proof. vm_cast_no_check (eq_refl true). Qed.
Lemma mat_eqb_iff a b : mat_eqb a b = true <-> a = b.
Proof. apply mat_eqb_spec. Qed.
Lemma database_rerun_proof v k l u sols : get_solutions v k l u = Ok sols -> v < 20 \/ (v, k, l, u) = (25, 8, 3, 2) ->
  main_output v k l u = Ok sols.
Proof.
  intros H Hs. apply get_solutions_in in H. destruct H as (e & n & Hin & He & -> & ->). pose proof db_rerunb_true as T.
  rewrite forallb_forall in T. specialize (T e Hin). destruct e as [p ms]. simpl in He. subst p. unfold entry_rerunb in T.
  replace (rerun (n, k, l, u)) with true in T.
  - destruct (main_output _ _ _ _); try discriminate. apply (list_eqb_spec mat_eqb mat_eqb_iff) in T. now subst.
  - symmetry. unfold rerun. destruct Hs as [Hs|Hs]; [|injection Hs as Hn -> -> ->]; lia.
Qed.
Definition entry_admissibleb (e : (nat * Z * Z * Z) * list (list Z)) : bool :=
  let '((v, k, l, u), ms) := e in
  (3 <=? v)%nat && (1 <=? k) && (k <? Z.of_nat v) && (0 <=? l) && (l <? k) && (0 <=? u)
  && ((Z.of_nat v - k - 1) * u =? k * (k - l - 1)).
Lemma database_admissible v k l u e : In e database -> fst e = (v, k, l, u) -> admissible v k l u.
Proof.
  assert (P : forallb entry_admissibleb database = true) by (vm_compute; reflexivity).
  intros Hin He. rewrite forallb_forall in P. specialize (P e Hin). destruct e as [p ms]. simpl in He. subst p.
  unfold entry_admissibleb in P. rewrite !andb_true_iff in P. unfold admissible. lia.
Qed.
Lemma database_complete_proof v k l u sols G : get_solutions v k l u = Ok sols -> v < 20 \/ (v, k, l, u) = (25, 8, 3, 2) ->
  srg (Z.to_nat v) k l u G -> exists m, In m sols /\ isomorphic (Z.to_nat v) G (mrows m).
Proof.
  intros H Hs HG. pose proof (database_rerun_proof v k l u sols H Hs) as Hrun.
  pose proof H as H'. apply get_solutions_in in H'. destruct H' as (e & n & Hin & He & -> & _). rewrite Nat2Z.id in *.
  pose proof (database_admissible n k l u e Hin He) as HA. pose proof HA as (A1 & A2 & _).
  destruct (solve_complete n k l u G) as (out & m & E & Hm & _ & HI); auto; try lia.
  - destruct Hs as [Hs|Hs]; [lia|]. injection Hs as Hn _ _ _. lia.
  - unfold main_output in Hrun. rewrite E in Hrun. cbn [bind] in Hrun. injection Hrun as <-.
    exists m. split; auto.
    assert (HS : forall m, In m out -> square n m).
    { intros x Hx. destruct (run_main_well_formed n k l u out HA E x Hx) as (C & (A & _) & _). now split. }
    destruct (sort_proof n out HS) as (HP & _). apply (Permutation_in _ (Permutation_sym HP)). exact Hm.
Qed.

Lemma database_complete2_proof v k l u sols G : get_solutions v k l u = Ok sols ->
  v < 20 \/ (v, k, l, u) = (25, 8, 3, 2) \/ (v, k, l, u) = (21, 10, 4, 5) ->
  srg (Z.to_nat v) k l u G -> exists m, In m sols /\ isomorphic (Z.to_nat v) G (mrows m).
Proof.
  intros H Hs HG. assert (D : (v < 20 \/ (v, k, l, u) = (25, 8, 3, 2)) \/ (v, k, l, u) = (21, 10, 4, 5)) by tauto.
  destruct D as [D|D]; [now apply (database_complete_proof v k l u)|]. injection D as -> -> -> ->. exfalso.
  apply (no_conference_proof 21 10 4 5 G); [now left|exact HG].
Qed.

(** ** not every list is complete: the Paley graph on 29 points *)
Definition paley29 : list (list Z) := map (unpack 29)
  [166236537;351553724;175776862;87888431;312379671;424625291;480748101;508809506;254404753;395637832;
   197818916;98909458;49454729;293162820;146581410;73290705;305080808;152540404;76270202;38135101;
   287503006;143751503;340311207;438591059;487730985;512300948;256150474;128075237;332473074].
Lemma paley29_srg : srg 29 14 6 7 paley29.
Proof. apply packed_srgb_ok. vm_compute. reflexivity. Qed.
Lemma database_incomplete_proof : exists v k l u G, get_solutions (Z.of_nat v) k l u = Ok [] /\ srg v k l u G.
Proof. exists 29%nat, 14, 6, 7, paley29. split; [reflexivity|apply paley29_srg]. Qed.

(** ** a list with two isomorphic graphs *)
Definition swap_iso (a : nat) : nat := nth a [0;1;3;4;2;5;6;7;8;9]%nat a.
Lemma database_repeats_proof : exists v k l u sols m m', get_solutions (Z.of_nat v) k l u = Ok sols
  /\ In m sols /\ In m' sols /\ m <> m' /\ isomorphic v (mrows m) (mrows m').
Proof.
  exists 10%nat, 6, 3, 4. eexists _, _, _. split; [vm_compute; reflexivity|]. split; [now left|]. split; [now right; left|].
  split; [intros E; discriminate E|]. exists swap_iso. split; [split|]; intros i.
  - intros Hi. unfold swap_iso. do 10 (destruct i as [|i]; [cbn; lia|]). exfalso; lia.
  - intros j Hi Hj. do 10 (destruct i as [|i]; [do 10 (destruct j as [|j]; [cbn; lia|]); exfalso; lia|]). exfalso; lia.
  - intros j Hi Hj. do 10 (destruct i as [|i]; [do 10 (destruct j as [|j]; [reflexivity|]); exfalso; lia|]). exfalso; lia.
Qed.

(** ** order of the lists *)
Fixpoint lex_ltb (x y : list Z) : bool :=
  match x, y with
  | a :: s, b :: t => (a <? b) || ((a =? b) && lex_ltb s t)
  | _, _ => false
  end.
Lemma lex_ltb_iff x : forall y, length x = length y -> (lex_ltb x y = true <-> lex_lt x y).
Proof.
  induction x as [|a x IH]; intros [|b y] H; simpl in *; try easy. rewrite orb_true_iff, andb_true_iff, IH by lia. 
  split; intros [A|A]; [left|right|left|right]; intuition lia.
Qed.
Fixpoint increasingb (q : list (list Z)) : bool :=
  match q with
  | a :: (b :: _) as t => lex_ltb a b && increasingb t
  | _ => true
  end.

Lemma increasingb_ok n q : (forall x, In x q -> length x = n) -> increasingb q = true -> StronglySorted lex_lt q.
Proof.
  intros Hn H. apply Sorted_StronglySorted; [intros x y z; apply lex_lt_trans|].
  induction q as [|a q IH]; constructor; simpl in *.
  - apply IH; auto. destruct q; [reflexivity|]. now apply andb_true_iff in H.
  - destruct q as [|b q]; constructor. apply andb_true_iff in H. apply lex_ltb_iff; [|tauto].
    rewrite (Hn a), (Hn b); auto. right. now left.
Qed.
Definition unsorted_file (p : nat * Z * Z * Z) : bool := let '(v, k, l, u) := p in (v =? 28)%nat && (k =? 12) && (l =? 6) && (u =? 4).
Definition entry_increasingb (e : (nat * Z * Z * Z) * list (list Z)) : bool :=
  unsorted_file (fst e)
  || increasingb (map (fun m => upper (fst (fst (fst (fst e)))) (mrows m)) (entry_solutions e)).
Lemma database_increasing_proof v k l u sols : get_solutions v k l u = Ok sols -> (v, k, l, u) <> (28, 12, 6, 4) ->
  StronglySorted lex_lt (map (fun m => upper (Z.to_nat v) (mrows m)) sols).
Proof.
  assert (P : forallb entry_increasingb database = true) by (vm_compute; reflexivity).
  intros H Hne. apply get_solutions_in in H. destruct H as (e & n & Hin & He & -> & ->).
  rewrite forallb_forall in P. specialize (P e Hin). unfold entry_increasingb in P. rewrite He in P. simpl fst in P. rewrite Nat2Z.id.
  replace (unsorted_file (n, k, l, u)) with false in P.
  - apply (increasingb_ok (length (upper n []))); auto. intros x Hx. apply in_map_iff in Hx. destruct Hx as (m & <- & _). apply upper_length.
  - symmetry. unfold unsorted_file. destruct ((n =? 28)%nat && (k =? 12) && (l =? 6) && (u =? 4)) eqn:E; auto. exfalso. apply Hne.
    rewrite !andb_true_iff in E. destruct E as [[[E1 E2] E3] E4]. repeat f_equal; lia.
Qed.
Lemma database_unsorted_proof : exists v k l u sols i, get_solutions (Z.of_nat v) k l u = Ok sols /\ (S i < length sols)%nat
  /\ lex_lt (upper v (mrows (nth (S i) sols (Mat 0 [])))) (upper v (mrows (nth i sols (Mat 0 [])))).
Proof.
  exists 28%nat, 12, 6, 4, (map (fun rows => Mat 28 (map (unpack 28) rows)) db_28_12_6_4), 11%nat.
  split; [reflexivity|]. split; [vm_compute; lia|]. apply lex_ltb_iff; [apply upper_length|]. vm_compute. reflexivity.
Qed.

(** ** no matrix is listed twice *)
Fixpoint distinctb (q : list (list Z)) : bool :=
  match q with
  | [] => true
  | a :: t => negb (existsb (vec_eqb a) t) && distinctb t
  end.
Lemma distinctb_ok q : distinctb q = true -> NoDup q.
Proof.
  induction q as [|a q IH]; simpl; intros H; constructor; apply andb_true_iff in H; destruct H as [H1 H2]; auto.
  intros Hin. apply negb_true_iff in H1. rewrite <- not_true_iff_false in H1. apply H1, existsb_exists. exists a. split; auto. now apply vec_eqb_spec.
Qed.
Lemma NoDup_map_back {A B} (f : A -> B) q : NoDup (map f q) -> NoDup q.
Proof.
  induction q as [|a q IH]; simpl; intros H; constructor; inversion H as [|? ? Ha Hq]; subst; auto.
  intros Hin. apply Ha. now apply in_map.
Qed.
Definition entry_distinctb (e : (nat * Z * Z * Z) * list (list Z)) : bool :=
  distinctb (map (fun m => upper (fst (fst (fst (fst e)))) (mrows m)) (entry_solutions e)).
Lemma database_distinct_proof v k l u sols : get_solutions v k l u = Ok sols -> NoDup sols.
Proof.
  assert (P : forallb entry_distinctb database = true) by (vm_compute; reflexivity).
  intros H. apply get_solutions_in in H. destruct H as (e & n & Hin & He & -> & ->).
  rewrite forallb_forall in P. specialize (P e Hin). unfold entry_distinctb in P. apply distinctb_ok in P. now apply NoDup_map_back in P.
Qed.

(** ** the command line of the database *)
Lemma database_main_proof A (rest : list string -> res A) argv : database_main rest argv = Raise ImportError.
Proof. reflexivity. Qed.

(** ** every row of a strongly regular graph satisfies the equations of its
    predecessors (tests/test_database.py, test_matrix_property) *)
Lemma dot_map_seq f g n : dot (map f (seq 0 n)) (map g (seq 0 n)) = sumn n (fun j => f j * g j).
Proof.
  rewrite dot_sum by now rewrite !map_length. rewrite map_length, seq_length. apply sumn_ext. intros j Hj.
  rewrite !(nth_map_in _ _ _ 0%nat) by (rewrite seq_length; lia). now rewrite !seq_nth by lia.
Qed.
Lemma row_equation_proof v k l u M r i : srg v k l u M -> (i < r < v)%nat ->
  dot (firstn r (nth i M [])) (map (fun j => cell M j r) (seq 0 r))
    + dot (skipn (S r) (nth i M [])) (skipn (S r) (nth r M []))
  = if cell M i r =? 1 then l else u.
Proof.
  intros (((HL & HR) & HB & HS & HD) & _ & HC) Hir. rewrite <- HC by lia.
  assert (Li : length (nth i M []) = v) by (apply HR, nth_In; lia).
  assert (Lr : length (nth r M []) = v) by (apply HR, nth_In; lia).
  unfold common. rewrite (sumn_split v r) by lia. f_equal.
  - replace (firstn r (nth i M [])) with (map (fun j => cell M i j) (seq 0 r)).
    + rewrite dot_map_seq. apply sumn_ext. intros j Hj. rewrite (HS j r) by lia. reflexivity.
    + apply (nth_ext _ _ 0 0); rewrite ?firstn_length, ?map_length, ?seq_length; [lia|]. intros j Hj.
      rewrite (nth_map_in _ _ _ 0%nat) by (rewrite seq_length; lia). rewrite seq_nth by lia. now rewrite nth_firstn_lt by lia.
  - replace (v - r)%nat with (S (v - S r)) by lia. rewrite (sumn_split (S (v - S r)) 1) by lia. rewrite sumn_S, sumn_0, Nat.add_0_r.
    rewrite HD, Z.mul_0_r, !Z.add_0_l by lia. replace (S (v - S r) - 1)%nat with (v - S r)%nat by lia.
    assert (Q : forall row, length row = v -> skipn (S r) row = map (fun j => nth (S r + j) row 0) (seq 0 (v - S r))).
    { intros row Hrow. apply (nth_ext _ _ 0 0); rewrite ?skipn_length, ?map_length, ?seq_length; [lia|]. intros j Hj.
      rewrite (nth_map_in _ _ _ 0%nat) by (rewrite seq_length; lia). rewrite seq_nth by lia. now rewrite nth_skipn_add. }
    rewrite !Q by auto. rewrite dot_map_seq. apply sumn_ext. intros j Hj. unfold cell. now replace (r + (1 + j))%nat with (S r + j)%nat by lia.
Qed.
