(** Proofs about [draw]. *)
From Coq Require Import String Ascii.
From Verif Require Import Np Model ModelUtil Database ModelDb ModelDraw Spec Lib Graph UtilProps DbProps.
From Coq Require Import ZifyBool ZifyNat.
Open Scope list_scope.
Open Scope Z_scope.

Lemma append_cancel a b s : (a ++ s)%string = (b ++ s)%string -> a = b.
Proof.
  intros H. assert (L : forall x y, String.length (x ++ y)%string = (String.length x + String.length y)%nat) by (intros x y; induction x; cbn; auto).
  assert (E : String.length a = String.length b) by (pose proof (f_equal String.length H) as E; rewrite !L in E; lia).
  revert b H E. induction a as [|c a IH]; intros [|d b] H E; cbn in *; try discriminate; auto. injection H as -> H. injection E as E. f_equal. auto.
Qed.
Lemma str_inj a b : str a = str b -> a = b.
Proof. intros H. pose proof (int_of_str a) as A. rewrite H, int_of_str in A. congruence. Qed.
Lemma png_word i : wordlike (str i ++ ".png").
Proof.
  intros c Hc. assert (A : forall a b, list_ascii_of_string (a ++ b)%string = list_ascii_of_string a ++ list_ascii_of_string b) by (intros a b; induction a; cbn; congruence).
  rewrite A in Hc. apply in_app_or in Hc. destruct Hc as [Hc|Hc]; [now apply (str_word i)|].
  cbn in Hc. intuition (subst; discriminate).
Qed.
Lemma png_split v k l u i : split (png_name v k l u i) = ["srg"; str v; str k; str l; str u; (str (Z.of_nat i) ++ ".png")]%string.
Proof.
  change (png_name v k l u i) with ("srg" ++ String underscore (str v ++ String underscore (str k ++ String underscore (str l ++ String underscore (str u
    ++ String underscore (str (Z.of_nat i) ++ ".png"))))))%string.
  rewrite split_word by (intros c Hc; simpl in Hc; intuition (subst; discriminate)). rewrite !split_word by apply str_word. now rewrite split_last by apply png_word.
Qed.
Lemma png_injective v k l u i v' k' l' u' i' : png_name v k l u i = png_name v' k' l' u' i' -> (v, k, l, u, i) = (v', k', l', u', i').
Proof.
  intros H. apply (f_equal split) in H. rewrite !png_split in H. 
  assert (E : forall a b c d e a' b' c' d' e' : string, ["srg"; a; b; c; d; e]%string = ["srg"; a'; b'; c'; d'; e']%string -> a = a' /\ b = b' /\ c = c' /\ d = d' /\ e = e')
    by (intros; repeat split; congruence).
  apply E in H. destruct H as (S1 & S2 & S3 & S4 & S5). apply append_cancel in S5.
  apply str_inj in S1, S2, S3, S4, S5. apply Nat2Z.inj in S5. congruence.
Qed.
Lemma map2_nth {A B C} (f : A -> B -> C) da db dc x : forall y i, length x = length y -> (i < length x)%nat -> nth i (map2 f x y) dc = f (nth i x da) (nth i y db).
Proof.
  induction x as [|a x IH]; intros [|b y] i HL Hi; cbn in *; try lia. destruct i; [reflexivity|]. apply IH; lia.
Qed.
Lemma map2_len {A B C} (f : A -> B -> C) x : forall y, length x = length y -> length (map2 f x y) = length x.
Proof. induction x as [|a x IH]; intros [|b y] HL; cbn in *; auto; try discriminate. Qed.
Lemma where_from_in {A} (p : A -> bool) d l : forall i0 j, In j (where_from i0 p l) <-> (i0 <= j < i0 + length l)%nat /\ p (nth (j - i0) l d) = true.
Proof.
  induction l as [|x l IH]; intros i0 j; cbn [where_from length].
  - split; [easy|lia].
  - assert (X : In j (where_from (S i0) p l) <-> (S i0 <= j < i0 + S (length l))%nat /\ p (nth (j - i0) (x :: l) d) = true).
    { rewrite IH. split; intros [H1 H2]; (split; [lia|]); (replace (j - i0)%nat with (S (j - S i0)) in * by lia); exact H2. }
    destruct (p x) eqn:E; cbn [In]; rewrite X; split.
    + intros [->|[H1 H2]]; [split; [lia|]; now rewrite Nat.sub_diag|split; [lia|auto]].
    + intros [H1 H2]. destruct (Nat.eq_dec i0 j) as [->|N]; [now left|]. right. split; [lia|auto].
    + intros [H1 H2]. split; [lia|auto].
    + intros [H1 H2]. destruct (Nat.eq_dec i0 j) as [->|N]; [rewrite Nat.sub_diag in H2; cbn in H2; congruence|]. split; [lia|auto].
Qed.
Lemma in_concat_map2 {A B C} (f : A -> B -> list C) x y z : In z (concat (map2 f x y)) <-> exists p, In p (combine x y) /\ In z (f (fst p) (snd p)).
Proof.
  revert y; induction x as [|a x IH]; intros [|b y]; cbn [map2 combine concat]; try (split; [easy|intros (p & [] & _)]).
  rewrite in_app_iff, IH. split.
  - intros [H|(p & H1 & H2)]; [exists (a, b); split; [now left|auto]|exists p; split; [now right|auto]].
  - intros (p & [<-|H1] & H2); [now left|right; eauto].
Qed.
Lemma combine_seq {A} (d : A) l : forall s p, In p (combine (seq s (length l)) l) <-> (s <= fst p < s + length l)%nat /\ snd p = nth (fst p - s) l d.
Proof.
  induction l as [|a l IH]; intros s p; cbn [length seq combine In].
  - split; [easy|lia].
  - rewrite IH. split.
    + intros [<-|[H1 H2]]; cbn [fst snd]; [rewrite Nat.sub_diag; split; [lia|reflexivity]|]. split; [lia|].
      replace (fst p - s)%nat with (S (fst p - S s)) by lia. exact H2.
    + intros [H1 H2]. destruct (Nat.eq_dec (fst p) s) as [E|E].
      * left. rewrite E, Nat.sub_diag in H2. destruct p; cbn in *; congruence.
      * right. split; [lia|]. replace (fst p - s)%nat with (S (fst p - S s)) in H2 by lia. exact H2.
Qed.
Lemma nonzero_in n c M a b : shape n c M -> (In (a, b) (nonzero (Mat c M)) <-> (a < n)%nat /\ (b < c)%nat /\ cell M a b <> 0).
Proof.
  intros [HL HR]. unfold nonzero, mnrows. cbn [mrows]. rewrite in_concat_map2. split.
  - intros ((r & row) & H1 & H2). apply (combine_seq []) in H1. cbn [fst snd] in *. destruct H1 as [H1 H3]. rewrite Nat.sub_0_r in H3.
    apply in_map_iff in H2. destruct H2 as (j & E & Hj). injection E as -> ->. apply (where_from_in _ 0) in Hj. rewrite Nat.sub_0_r in Hj. destruct Hj as [Hj1 Hj2].
    assert (LR : length row = c) by (rewrite H3; apply HR, nth_In; lia). unfold cell. rewrite <- H3. lia.
  - intros (Ha & Hb & Hc). exists (a, nth a M []). cbn [fst snd]. split; [apply (combine_seq []); cbn [fst snd]; rewrite Nat.sub_0_r; split; [lia|auto]|].
    apply in_map_iff. exists b. split; [auto|]. apply (where_from_in _ 0). rewrite Nat.sub_0_r. assert (LR : length (nth a M []) = c) by (apply HR, nth_In; lia).
    unfold cell in Hc. split; lia.
Qed.
Lemma draw_proof v k l u : 
  (forall sols, get_solutions v k l u = Ok sols -> exists pics, draw v k l u = Ok pics /\ length pics = length sols
    /\ NoDup (map pic_name pics)
    /\ forall i, (i < length sols)%nat -> let p := nth i pics (Pic "" [] []) in
         pic_nodes p = seq 0 (Z.to_nat v)
         /\ forall a b, In (a, b) (pic_edges p) <-> (a < Z.to_nat v)%nat /\ (b < Z.to_nat v)%nat /\ cell (mrows (nth i sols (Mat 0 []))) a b = 1)
  /\ (get_solutions v k l u = Raise ImportError -> draw v k l u = Raise ImportError).
Proof.
  unfold draw. split; [|intros ->; reflexivity]. intros sols H. rewrite H. cbn [bind]. eexists. split; [reflexivity|].
  assert (LS : length (seq 0 (length sols)) = length sols) by apply seq_length.
  split; [rewrite map2_len; auto|]. split.
  - apply (NoDup_nth _ ""%string). rewrite map_length, map2_len, LS by auto. intros i j Hi Hj E.
    change ""%string with (pic_name (Pic "" [] [])) in E. rewrite !map_nth in E. rewrite !(map2_nth _ 0%nat (Mat 0 [])) in E by (auto; lia). cbn [pic_name] in E.
    rewrite !seq_nth in E by auto. cbn [Nat.add] in E. apply png_injective in E. congruence.
  - intros i Hi. cbv zeta. rewrite (map2_nth _ 0%nat (Mat 0 [])) by (auto; lia). cbn [pic_nodes pic_edges]. split; [reflexivity|].
    intros a b. destruct (database_sound_proof v k l u sols (nth i sols (Mat 0 [])) H) as [Hc Hs]; [now apply nth_In|].
    destruct (nth i sols (Mat 0 [])) as [c M]. cbn [mcols mrows] in *. subst c. destruct Hs as ((HS & HB & _) & _). rewrite (nonzero_in (Z.to_nat v)) by exact HS.
    split; intros (Ha & Hb & Hx); (split; [auto|split; [auto|]]); destruct (HB a b Ha Hb); lia.
Qed.
