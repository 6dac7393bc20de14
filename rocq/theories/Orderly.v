(** A search that follows only the prefixes of greatest labellings. It is not
    part of the program; it shows for two larger problems that the shipped list
    is complete, with a fraction of the work of the program's own search. A
    partial matrix is dropped when a given reordering of its rows makes it
    greater; which reordering is tried is data found outside of Coq. *)
From Verif Require Import Np ModelGauss Model ModelSort ModelDb Database Spec QSpec SortSpec Lib Graph PartProps AnyFacts LevelFacts SolveFacts SolverProps SortFacts MaxFacts SortProps UtilProps Greatest Levels.
From Coq Require Import ZifyBool ZifyNat.

Definition refine (M : list (list Z)) (p cols : list nat) : list nat :=
  fold_right (fun r cs => let row := nth r M [] in
    filter (fun c => nth c row 0 =? 1) cs ++ filter (fun c => negb (nth c row 0 =? 1)) cs) cols p.
(** the columns in the order in which the rows [p] are greatest *)
Definition ordering (v : nat) (M : list (list Z)) (p : list nat) : list nat :=
  p ++ refine M p (filter (fun c => negb (existsb (Nat.eqb c) p)) (seq 0 v)).
Fixpoint lex_compare (x y : list Z) : comparison :=
  match x, y with
  | a :: x', b :: y' => match a ?= b with Eq => lex_compare x' y' | c => c end
  | _, _ => Eq
  end.
Fixpoint exceeds (M : list (list Z)) (f : list nat) (i : nat) (p : list nat) : bool :=
  match p with
  | [] => false
  | r :: p' =>
      let row := nth r M [] in
      match lex_compare (map (fun c => nth c row 0) (skipn (S i) f)) (skipn (S i) (nth i M [])) with
      | Gt => true
      | Lt => false
      | Eq => exceeds M f (S i) p'
      end
  end.
Fixpoint distinctb (l : list nat) : bool :=
  match l with
  | [] => true
  | a :: t => if existsb (Nat.eqb a) t then false else distinctb t
  end.
Definition valid_order (v R : nat) (p f : list nat) : bool :=
  (length f =? v)%nat && forallb (fun x => (x <? v)%nat) f && distinctb f && (length p <=? R)%nat && forallb (fun x => (x <? R)%nat) p.
Definition improves (v : nat) (M : list (list Z)) (p : list nat) : bool :=
  let f := ordering v M p in
  if exceeds M f 0 p then valid_order v (length M) p f else false.
Fixpoint prune (ps : list (list nat)) (cs : list nat) (l : list mat) : list mat :=
  match l with
  | [] => []
  | m :: t =>
      let '(c, cs') := match cs with [] => (0%nat, []) | c :: cs' => (c, cs') end in
      if improves (mcols m) (mrows m) (nth c ps []) then prune ps cs' t else m :: prune ps cs' t
  end.
Fixpoint orderly (n : nat) (data : list (list (list nat) * list nat)) (l : list mat) : res (list mat) :=
  match n with
  | O => Ok l
  | S n' =>
      l' <- advance_all l ;;
      match data with
      | [] => orderly n' [] l'
      | (ps, cs) :: data' => orderly n' data' (prune ps cs l')
      end
  end.
Definition orderly_main (data : list (list (list nat) * list nat)) (v k l u : Z) : res (list mat) :=
  m <- seed v k l u ;; orderly (mcols m - 2) data [m].

(** ** it drops only partial matrices of which no completion is greatest *)
Lemma distinctb_ok l : distinctb l = true -> NoDup l.
Proof.
  induction l as [|a l IH]; cbn [distinctb]; intros H; constructor; destruct (existsb (Nat.eqb a) l) eqn:E; try discriminate; auto.
  intros Hin. rewrite <- not_true_iff_false in E. apply E, existsb_exists. exists a. split; auto. apply Nat.eqb_refl.
Qed.
Lemma lex_compare_Eq x : forall y, length x = length y -> lex_compare x y = Eq -> x = y.
Proof.
  induction x as [|a x IH]; intros [|b y] HL H; try discriminate; auto. cbn in *. destruct (Z.compare_spec a b); try discriminate.
  subst. f_equal. apply IH; auto.
Qed.
Lemma lex_compare_Gt x : forall y, length x = length y -> lex_compare x y = Gt ->
  exists q, (q < length x)%nat /\ (forall j, (j < q)%nat -> nth j x 0 = nth j y 0) /\ nth q y 0 < nth q x 0.
Proof.
  induction x as [|a x IH]; intros [|b y] HL H; try discriminate. cbn in *. destruct (Z.compare_spec a b); try discriminate.
  - subst. destruct (IH y ltac:(lia) H) as (q & Q1 & Q2 & Q3). exists (S q). split; [lia|]. split; [|exact Q3].
    intros [|j] Hj; [reflexivity|]. apply Q2. lia.
  - exists 0%nat. split; [lia|]. split; [intros; lia|]. cbn. lia.
Qed.
Lemma exceeds_spec M f v : length f = v -> (forall i, (i < length M)%nat -> length (nth i M []) = v) -> forall p i,
  (i + length p <= length M)%nat -> exceeds M f i p = true ->
  exists d q, (d < length p)%nat
    /\ (forall e j, (e < d)%nat -> (i + e < j < v)%nat -> nth (nth j f 0%nat) (nth (nth e p 0%nat) M []) 0 = nth j (nth (i + e) M []) 0)
    /\ (i + d < q < v)%nat
    /\ (forall j, (i + d < j < q)%nat -> nth (nth j f 0%nat) (nth (nth d p 0%nat) M []) 0 = nth j (nth (i + d) M []) 0)
    /\ nth q (nth (i + d) M []) 0 < nth (nth q f 0%nat) (nth (nth d p 0%nat) M []) 0.
Proof.
  intros Hf HM. induction p as [|r p IH]; intros i Hi H; [discriminate|]. cbn [exceeds length] in *.
  set (new := map (fun c => nth c (nth r M []) 0) (skipn (S i) f)) in *. set (old := skipn (S i) (nth i M [])) in *.
  assert (Ln : length new = (v - S i)%nat) by (unfold new; rewrite map_length, skipn_length; lia).
  assert (Lo : length old = (v - S i)%nat) by (unfold old; rewrite skipn_length, HM; lia).
  assert (Nn : forall j, (j < v - S i)%nat -> nth j new 0 = nth (nth (S i + j) f 0%nat) (nth r M []) 0).
  { intros j Hj. unfold new. rewrite (nth_map_in _ _ _ 0%nat) by (rewrite skipn_length; lia). now rewrite nth_skipn_add. }
  assert (No : forall j, nth j old 0 = nth (S i + j) (nth i M []) 0) by (intros j; unfold old; apply nth_skipn_add).
  destruct (lex_compare new old) eqn:E; try discriminate.
  - apply lex_compare_Eq in E; [|lia]. destruct (IH (S i) ltac:(lia) H) as (d & q & D1 & D2 & D3 & D4 & D5). exists (S d), q.
    split; [lia|]. split; [|split; [lia|split]].
    + intros [|e] j He Hj; cbn [nth].
      * rewrite Nat.add_0_r. pose proof (f_equal (fun l => nth (j - S i) l 0) E) as Ej. cbv beta in Ej.
        rewrite Nn, No in Ej by lia. now replace (S i + (j - S i))%nat with j in Ej by lia.
      * rewrite (D2 e j) by lia. f_equal. f_equal. lia.
    + intros j Hj. cbn [nth]. rewrite D4 by lia. f_equal. f_equal. lia.
    + cbn [nth]. now replace (i + S d)%nat with (S i + d)%nat by lia.
  - apply lex_compare_Gt in E; [|lia]. destruct E as (q & Q1 & Q2 & Q3). exists 0%nat, (S i + q)%nat. rewrite Nat.add_0_r.
    split; [lia|]. split; [intros; lia|]. split; [lia|]. cbn [nth]. split.
    + intros j Hj. specialize (Q2 (j - S i)%nat ltac:(lia)). rewrite Nn, No in Q2 by lia.
      now replace (S i + (j - S i))%nat with j in Q2 by lia.
    + rewrite Nn, No in Q3 by lia. exact Q3.
Qed.
Lemma ordering_prefix v M p e : (e < length p)%nat -> nth e (ordering v M p) 0%nat = nth e p 0%nat.
Proof. intros He. unfold ordering. now rewrite app_nth1. Qed.
Lemma improves_ok v R T p : adjacency v T -> (R <= v)%nat -> improves v (firstn R T) p = true ->
  exists g, relabelling v g /\ lex_lt (upper v T) (upper v (relabel v g T)).
Proof.
  intros HT HR. unfold improves. destruct (exceeds _ _ _ _) eqn:EX; [|discriminate]. unfold valid_order.
  set (f := ordering v (firstn R T) p) in *. rewrite !andb_true_iff, !forallb_forall. intros [[[[V1 V2] V3] V4] V5].
  apply distinctb_ok in V3. pose proof HT as ((TL & TW) & _).
  rewrite firstn_length in V4, V5. rewrite Nat.min_l in V4, V5 by lia.
  assert (Hrow : forall i, (i < R)%nat -> nth i (firstn R T) [] = nth i T []) by (intros i Hi; now apply nth_firstn_lt).
  assert (Hf : forall i, (i < v)%nat -> (nth i f 0 < v)%nat).
  { intros i Hi. specialize (V2 (nth i f 0%nat) ltac:(apply nth_In; lia)). lia. }
  exists (fun i => nth i f 0%nat). split; [split; auto|].
  { intros i j Hi Hj E. apply (proj1 (NoDup_nth f 0%nat) V3); auto; lia. }
  apply (exceeds_spec _ f v) in EX; [|lia| |rewrite firstn_length; lia].
  2:{ intros i Hi. rewrite firstn_length in Hi. rewrite Hrow by lia. apply TW, nth_In. lia. }
  destruct EX as (d & q & D1 & D2 & D3 & D4 & D5). cbn [Nat.add] in *.
  assert (Hp : forall e, (e < length p)%nat -> (nth e p 0 < R)%nat).
  { intros e He. specialize (V5 (nth e p 0%nat) ltac:(now apply nth_In)). lia. }
  assert (Hc : forall e j, (e <= d)%nat -> (j < v)%nat ->
     cell (relabel v (fun i => nth i f 0%nat) T) e j = nth (nth j f 0%nat) (nth (nth e p 0%nat) (firstn R T) []) 0).
  { intros e j He Hj. rewrite relabel_cell by lia. unfold cell. rewrite Hrow by (apply Hp; lia). unfold f at 2. now rewrite ordering_prefix by lia. }
  apply (upper_lex v _ _ d q); [lia| | |].
  - intros e j He Hj. rewrite Hc by lia. rewrite D2 by lia. now rewrite Hrow by lia.
  - intros j Hj. rewrite Hc by lia. rewrite D4 by lia. now rewrite Hrow by lia.
  - rewrite Hc by lia. rewrite Hrow in D5 by lia. exact D5.
Qed.
Lemma prune_keeps ps m : forall l cs, In m l -> (forall p, improves (mcols m) (mrows m) p = false) -> In m (prune ps cs l).
Proof.
  induction l as [|a l IH]; intros cs Hin H; [easy|]. cbn [prune].
  destruct (match cs with [] => (0%nat, []) | c :: cs' => (c, cs') end) as [c cs'].
  destruct Hin as [->|Hin]; [rewrite H; now left|]. destruct (improves _ _ _); [|right]; now apply IH.
Qed.
Lemma orderly_keeps v (T : list (list Z)) : length T = v ->
  (forall r, (2 <= r < v)%nat -> next_row (Mat v (firstn r T)) (Mat v (firstn (S r) T))) ->
  (forall r p, (r <= v)%nat -> improves v (firstn r T) p = false) ->
  forall n r data l out, (r + n = v)%nat -> (2 <= r)%nat -> In (Mat v (firstn r T)) l -> orderly n data l = Ok out -> In (Mat v T) out.
Proof.
  intros HL HN HP. induction n as [|n IH]; intros r data l out Hr H2 Hin E; cbn [orderly] in E.
  - injection E as <-. rewrite firstn_all2 in Hin by lia. exact Hin.
  - inv_bind E. unfold advance_all in E0. inv_bind E0. injection E0 as <-.
    destruct (next_advance _ _ (HN r ltac:(lia))) as (ms & Ea & Hms).
    assert (I : In (Mat v (firstn (S r) T)) (concat r1)).
    { apply in_concat. exists ms. split; auto. eapply mapM_reached; eauto. }
    destruct data as [|[ps cs] data]; (eapply (IH (S r)); [lia|lia| |exact E]); auto.
    apply prune_keeps; auto. intros p. cbn [mcols mrows]. apply HP. lia.
Qed.
Theorem orderly_complete data v k l u G out : (3 <= v <= 67)%nat -> 1 <= k -> 0 <= u -> srg v k l u G ->
  orderly_main data (Z.of_nat v) k l u = Ok out -> exists m, In m out /\ isomorphic v G (mrows m).
Proof.
  intros Hv Hk Hu HG E. destruct (greatest_exists v G) as (f & Hf & Hmax).
  pose proof (greatest_canonical v G f (proj1 HG) Hf Hmax) as Hc. pose proof (relabel_srg v k l u f G Hf HG) as HT.
  set (T := relabel v f G) in *. destruct (srg_admissible v k l u G) as [Ha|]; auto; try lia.
  destruct (main_output_proof v k l u Ha) as (ms & _ & E1 & _); [lia|].
  pose proof (canonical_found v k l u T ms Hv Hk HT Hc E1) as Hin.
  pose proof HT as (((TL & _) & _) & _).
  pose proof (proj1 (yields_proof _ _ _ _ _ E1 (Mat v T)) Hin) as (_ & ES & HN). unfold prefix in ES, HN. cbn [mcols mrows] in ES, HN.
  exists (Mat v T). split; [|now apply relabel_isomorphic]. unfold orderly_main in E. rewrite ES in E. cbn [bind mcols] in E.
  apply (orderly_keeps v T TL HN) with (n := (v - 2)%nat) (r := 2%nat) (data := data) (l := [Mat v (firstn 2 T)]); auto; try lia; [|now left].
  intros r p Hr. destruct (improves v (firstn r T) p) eqn:EI; auto. exfalso.
  destruct (improves_ok v r T p (proj1 HT) Hr EI) as (g & Hg & HL).
  assert (Hfg : relabelling v (fun i => f (g i))) by now apply relabelling_compose.
  pose proof (Hmax _ Hfg) as HM. rewrite (upper_ext v (relabel v (fun i => f (g i)) G) (relabel v g T)) in HM.
  - destruct HM as [HM|HM]; [rewrite HM in HL; now apply lex_lt_irrefl in HL|].
    apply (lex_lt_irrefl (upper v T)). now apply (lex_lt_trans _ _ _ HL).
  - intros i j Hij. destruct Hg as [Hg _]. unfold T. rewrite !relabel_cell by (auto; try apply Hg; lia). reflexivity.
Qed.
