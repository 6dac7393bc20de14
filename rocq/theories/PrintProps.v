(** The printed text: complete up to 31 vertices, summarised from 32 on. *)
From Coq Require Import String Ascii.
From Verif Require Import Np ModelGauss Model ModelSort ModelUtil ModelDb ModelPrint Spec QSpec SortSpec PrintSpec Lib Check AnyFacts SolveFacts SolverProps SortProps Graph DbProps Greatest.
From Coq Require Import ZifyBool ZifyNat.
Local Open Scope list_scope.

(** ** what survives in the text *)
Lemma bd_app s t : binary_digits (s ++ t)%string = binary_digits s ++ binary_digits t.
Proof.
  induction s as [|c s IH]; simpl; auto. destruct (Ascii.eqb c "0"); [now rewrite IH|]. destruct (Ascii.eqb c "1"); [now rewrite IH|auto].
Qed.
Lemma bd_spaces n : binary_digits (spaces n) = [].
Proof. induction n as [|n IH]; simpl; auto. Qed.
Lemma bd_newline : binary_digits newline = [].
Proof. reflexivity. Qed.
Lemma bd_rstrip s : binary_digits (rstrip s) = binary_digits s.
Proof.
  induction s as [|c s IH]; simpl; auto. destruct (rstrip s) as [|c' s'] eqn:E.
  - simpl in IH. rewrite <- IH. destruct (Ascii.eqb_spec c " ") as [->|]; reflexivity.
  - change (binary_digits (String c (String c' s'))) with
      (if Ascii.eqb c "0" then 0 :: binary_digits (String c' s') else if Ascii.eqb c "1" then 1 :: binary_digits (String c' s') else binary_digits (String c' s')).
    now rewrite IH.
Qed.
Lemma str_app_assoc a b c : (a ++ (b ++ c))%string = ((a ++ b) ++ c)%string.
Proof. induction a as [|x a IH]; simpl; auto. now rewrite IH. Qed.
Lemma str_app_nil a : (a ++ "")%string = a.
Proof. induction a as [|x a IH]; simpl; auto. now rewrite IH. Qed.
Lemma drop_spaces n t : drop n (spaces n ++ t)%string = t.
Proof. induction n as [|n IH]; simpl; auto. Qed.
Lemma rstrip_app a x : rstrip x <> EmptyString -> rstrip (a ++ x)%string = (a ++ rstrip x)%string.
Proof.
  intros H. induction a as [|c a IH]; cbn [append]; auto. cbn [rstrip]. rewrite IH.
  destruct (a ++ rstrip x)%string eqn:E; auto. destruct a; simpl in E; [contradiction|discriminate].
Qed.
Lemma rstrip_full w t : rstrip w <> EmptyString -> rstrip (w ++ t)%string <> EmptyString.
Proof.
  induction w as [|c w IH]; cbn [append rstrip]; [congruence|]. intros H.
  destruct (rstrip (w ++ t)%string) eqn:E.
  - destruct (rstrip w) eqn:E2; [|exfalso; apply IH; [discriminate|reflexivity]]. 
    destruct (Ascii.eqb c " "); [congruence|discriminate].
  - discriminate.
Qed.

Section rows.
  Variables (width n : nat).
  (* the text so far starts with the indentation, and the current line is not
     only blanks unless it is the indentation *)
  Definition begun (st : string * string) : Prop :=
    (fst st = EmptyString /\ exists x, snd st = (spaces n ++ x)%string /\ rstrip x <> EmptyString)
    \/ exists y, fst st = (spaces n ++ y)%string.
  Definition started (st : string * string) : Prop := st = (EmptyString, spaces n) \/ begun st.
  Lemma begun_more s line t : begun (s, line) -> begun (s, line ++ t)%string.
  Proof.
    intros [[E (x & Ex & Hx)]|(y & Ey)]; cbn [fst snd] in *.
    - left. split; auto. exists (x ++ t)%string. cbn [snd]. rewrite Ex, <- str_app_assoc. split; [auto|now apply rstrip_full].
    - right. eauto.
  Qed.
  Lemma begun_text s line : begun (s, line) -> exists z, (s ++ line)%string = (spaces n ++ z)%string.
  Proof.
    intros [[E (x & Ex & Hx)]|(y & Ey)]; cbn [fst snd] in *; subst.
    - exists x. reflexivity.
    - rewrite <- str_app_assoc. eauto.
  Qed.
  Lemma extend_begun st w s line : rstrip w <> EmptyString -> started st -> extend_line st w width (spaces n) = (s, line) ->
    begun (s, line) /\ binary_digits (s ++ line)%string = binary_digits (fst st ++ snd st)%string ++ binary_digits w.
  Proof.
    destruct st as [s0 l0]. intros Hw HS E. unfold extend_line in E.
    destruct ((width <? String.length l0 + String.length w)%nat && (String.length (spaces n) <? String.length l0)%nat) eqn:EW.
    - injection E as <- <-. cbn [fst snd] in *. split.
      + right. cbn [fst]. destruct HS as [HS|[[E0 (x & Ex & Hx)]|(y & Ey)]]; cbn [fst snd] in *.
        * exfalso. assert (l0 = spaces n) by congruence. subst l0. lia.
        * subst. rewrite rstrip_app by auto. cbn [append]. rewrite <- str_app_assoc. eauto.
        * subst. rewrite <- str_app_assoc. eauto.
      + rewrite !bd_app, bd_rstrip, bd_newline, bd_spaces, app_nil_r. reflexivity.
    - assert (s = s0 /\ line = (l0 ++ w)%string) as [-> ->] by (split; congruence). cbn [fst snd] in *. split.
      + destruct HS as [HS|HS].
        * assert (s0 = EmptyString /\ l0 = spaces n) as [-> ->] by (split; congruence). left. cbn [fst snd]. eauto.
        * now apply begun_more.
      + rewrite !bd_app. now rewrite <- app_assoc.
  Qed.
  Lemma row_words_text ws : ws <> [] -> forall st, (forall w, In w ws -> rstrip w <> EmptyString) -> started st ->
    exists z, row_words st ws width (spaces n) = (spaces n ++ z)%string
      /\ binary_digits z = binary_digits (fst st ++ snd st)%string ++ concat (map binary_digits ws).
  Proof.
    induction ws as [|w ws IH]; intros Hne st Hw Hs; [congruence|].
    destruct (extend_line st w width (spaces n)) as [s line] eqn:E.
    destruct (extend_begun st w s line) as [HB HD]; auto. { apply Hw. now left. }
    destruct ws as [|w' ws].
    - cbn [row_words]. rewrite E. destruct (begun_text s line HB) as (z & Ez). exists z. split; auto.
      cbn [map concat]. rewrite app_nil_r, <- HD, Ez, bd_app, bd_spaces. reflexivity.
    - destruct (IH ltac:(discriminate) (s, line ++ ", ")%string) as (z & Ez & Dz).
      { intros x Hx. apply Hw. now right. }
      { right. now apply begun_more. }
      exists z. split.
      + rewrite <- Ez. cbn [row_words]. rewrite E. reflexivity.
      + rewrite Dz. cbn [fst snd]. rewrite str_app_assoc, bd_app, HD. change (binary_digits ", ") with (@nil Z). rewrite app_nil_r, <- app_assoc. reflexivity.
  Qed.
End rows.

Lemma digit_full a : rstrip (digit a) <> EmptyString.
Proof. unfold digit. destruct (a =? 0); discriminate. Qed.
Lemma bd_digits row : bits row -> concat (map binary_digits (map digit row)) = row.
Proof.
  intros H. induction row as [|a row IH]; simpl; auto. rewrite IH by (intros x Hx; apply H; now right).
  destruct (H a ltac:(now left)) as [->| ->]; reflexivity.
Qed.
Lemma format_row_digits row : row <> [] -> bits row -> binary_digits (format_row false row) = row.
Proof.
  intros Hne HB. unfold format_row, outer_items. cbn [andb].
  destruct (row_words_text 72 8 (map digit row)) with (st := (EmptyString, spaces 8)) as (z & Ez & Dz).
  - destruct row; [congruence|discriminate].
  - intros w Hw. apply in_map_iff in Hw. destruct Hw as (a & <- & _). apply digit_full.
  - now left.
  - rewrite Ez, drop_spaces, !bd_app, Dz, bd_digits by auto. cbn [fst snd append]. rewrite bd_spaces. simpl. now rewrite app_nil_r.
Qed.
Lemma concat_lines_digits l : forall x, binary_digits (String.concat ("," ++ newline) (map (fun x => spaces 7 ++ x)%string (x :: l)))
  = concat (map binary_digits (x :: l)).
Proof.
  induction l as [|y l IH]; intros x.
  - cbn [map String.concat concat]. rewrite bd_app, bd_spaces. now rewrite app_nil_r.
  - change (String.concat ("," ++ newline) (map (fun x => spaces 7 ++ x)%string (x :: y :: l)))
      with ((spaces 7 ++ x) ++ ("," ++ newline) ++ String.concat ("," ++ newline) (map (fun x => spaces 7 ++ x)%string (y :: l)))%string.
    rewrite !bd_app, IH, bd_spaces. reflexivity.
Qed.
Lemma concat_lines_start l x : exists z, String.concat ("," ++ newline) (map (fun x => spaces 7 ++ x)%string (x :: l)) = (spaces 7 ++ z)%string.
Proof.
  destruct l as [|y l].
  - exists x. reflexivity.
  - change (String.concat ("," ++ newline) (map (fun x => spaces 7 ++ x)%string (x :: y :: l)))
      with ((spaces 7 ++ x) ++ ("," ++ newline) ++ String.concat ("," ++ newline) (map (fun x => spaces 7 ++ x)%string (y :: l)))%string.
    rewrite <- str_app_assoc. eauto.
Qed.
Lemma format_matrix_digits rows : rows <> [] -> (forall r, In r rows -> r <> [] /\ bits r) ->
  binary_digits (format_matrix false rows) = concat rows.
Proof.
  intros Hne H. unfold format_matrix, outer_items. cbn [andb]. destruct rows as [|r rows]; [congruence|].
  cbn [map]. destruct (concat_lines_start (map (format_row false) rows) (format_row false r)) as (z & Ez).
  pose proof (concat_lines_digits (map (format_row false) rows) (format_row false r)) as D. cbn [map] in Ez, D. rewrite Ez in *.
  rewrite drop_spaces, !bd_app. rewrite bd_app, bd_spaces in D. simpl app in D. rewrite D.
  cbn [concat map]. rewrite format_row_digits by (apply H; now left).
  change (binary_digits "[") with (@nil Z). change (binary_digits "]") with (@nil Z). rewrite app_nil_r. cbn [app]. f_equal.
  rewrite map_map. assert (HR : forall x, In x rows -> x <> [] /\ bits x) by (intros; apply H; now right). clear -HR.
  induction rows as [|x rows IH]; cbn [map concat]; auto. rewrite format_row_digits by (apply HR; now left). f_equal. apply IH. intros y Hy. apply HR. now right.
Qed.
Lemma array_repr_digits m : mrows m <> [] -> (forall r, In r (mrows m) -> r <> [] /\ bits r) ->
  Z.of_nat (mnrows m) * Z.of_nat (mcols m) <= 1000 -> binary_digits (array_repr m) = concat (mrows m).
Proof.
  intros Hne H Hs. unfold array_repr. replace (1000 <? Z.of_nat (mnrows m) * Z.of_nat (mcols m)) with false by lia. cbv zeta.
  destruct (75 <? _)%nat; rewrite !bd_app, format_matrix_digits by auto; rewrite ?bd_newline, ?bd_spaces; simpl; rewrite ?app_nil_r; reflexivity.
Qed.
Lemma answers_digits ms v : (1 <= v <= 31)%nat -> (forall m, In m ms -> mcols m = v /\ adjacency v (mrows m)) ->
  binary_digits (answers_text ms) = entries ms.
Proof.
  intros Hv. induction ms as [|m ms IH]; intros H; [reflexivity|]. unfold entries. cbn [answers_text fold_right map concat].
  fold (answers_text ms). rewrite !bd_app, bd_newline. cbn [app]. rewrite IH by (intros x Hx; apply H; now right).
  destruct (H m ltac:(now left)) as (Hc & HA). pose proof HA as ((HL & HR) & HB & _). f_equal. apply array_repr_digits.
  - intros E. rewrite E in HL. simpl in HL. lia.
  - intros r Hr. split; [intros ->; specialize (HR [] Hr); simpl in HR; lia|]. apply (In_nth _ _ []) in Hr. destruct Hr as (i & Hi & <-).
    apply (adjacency_row_bits v); auto. lia.
  - unfold mnrows. rewrite HL, Hc. nia.
Qed.

Lemma concat_blocks {A} n (a : list (list A)) : (0 < n)%nat -> forall b, (forall x, In x a -> length x = n) -> (forall x, In x b -> length x = n) ->
  concat a = concat b -> a = b.
Proof.
  intros Hn. induction a as [|x a IH]; intros [|y b] Ha Hb E; auto.
  - exfalso. simpl in E. assert (length y = n) by (apply Hb; now left). destruct y; simpl in *; [lia|discriminate].
  - exfalso. simpl in E. assert (length x = n) by (apply Ha; now left). destruct x; simpl in *; [lia|discriminate].
  - simpl in E. assert (Lx : length x = n) by (apply Ha; now left). assert (Ly : length y = n) by (apply Hb; now left).
    assert (x = y /\ concat a = concat b) as [-> E2].
    { apply (f_equal (firstn n)) in E as E1. apply (f_equal (skipn n)) in E.
      rewrite !firstn_app, Lx, Ly, Nat.sub_diag, !firstn_O, !app_nil_r, !firstn_all2 in E1 by lia.
      rewrite !skipn_app, Lx, Ly, Nat.sub_diag, !skipn_O, !skipn_all2 in E by lia. auto. }
    f_equal. apply IH; auto; intros; [apply Ha|apply Hb]; now right.
Qed.
Lemma length_rows v (rows : list (list Z)) : (forall r, In r rows -> length r = v) -> length (concat rows) = (length rows * v)%nat.
Proof.
  induction rows as [|r rows IH]; intros H; [reflexivity|]. cbn [concat length]. rewrite app_length, IH by (intros x Hx; apply H; now right).
  rewrite (H r) by now left. lia.
Qed.
Lemma text_determines v ms ms' : (1 <= v <= 31)%nat ->
  (forall m, In m ms -> mcols m = v /\ adjacency v (mrows m)) -> (forall m, In m ms' -> mcols m = v /\ adjacency v (mrows m)) ->
  answers_text ms = answers_text ms' -> ms = ms'.
Proof.
  intros Hv H H' E. apply (f_equal binary_digits) in E. rewrite !(answers_digits _ v) in E by auto. unfold entries in E.
  assert (LEN : forall ms, (forall m, In m ms -> mcols m = v /\ adjacency v (mrows m)) -> forall x, In x (map (fun m => concat (mrows m)) ms) -> length x = (v * v)%nat).
  { clear. intros ms H x Hx. apply in_map_iff in Hx. destruct Hx as (m & <- & Hm). destruct (H m Hm) as (_ & (HL & HR) & _).
    rewrite (length_rows v) by auto. now rewrite HL. }
  apply (concat_blocks (v * v)) in E; [|nia|now apply LEN|now apply LEN].
  revert ms' H' E. induction ms as [|m ms IH]; intros [|m' ms'] H' E; simpl in E; try discriminate; auto.
  injection E as E1 E2. f_equal; [|apply IH; auto; intros; [apply H|apply H']; now right].
  destruct (H m ltac:(now left)) as (C1 & (L1 & R1) & _), (H' m' ltac:(now left)) as (C2 & (L2 & R2) & _).
  apply (concat_blocks v) in E1; auto; try lia. destruct m, m'. simpl in *. congruence.
Qed.
Lemma main_text_proof v k l u : admissible v k l u -> (v <= 31)%nat ->
  exists ms body, main_output (Z.of_nat v) k l u = Ok ms
    /\ main_text (Z.of_nat v) k l u = Ok (heading (Z.of_nat v) k l u ++ body)%string
    /\ binary_digits body = entries ms.
Proof.
  intros Ha Hv. destruct (main_output_proof v k l u Ha) as (ms & out & E1 & E2 & HP & _); [lia|].
  exists out, (answers_text out). split; [auto|]. unfold main_text. rewrite E2. split; [reflexivity|].
  apply (answers_digits out v); [unfold admissible in Ha; lia|]. intros m Hm. apply Permutation.Permutation_sym in HP.
  apply (Permutation.Permutation_in _ HP) in Hm. destruct (run_main_well_formed v k l u ms Ha E1 m Hm) as (A & B & _). auto.
Qed.

(** ** summaries *)
Lemma pick_edges (l : list Z) (l' : list Z) : (6 < length l)%nat -> length l = length l' ->
  (forall i, outer (length l) i -> nth i l 0 = nth i l' 0) -> outer_items true (map digit l) = outer_items true (map digit l').
Proof.
  intros HL HE H. unfold outer_items. rewrite !map_length. replace (6 <? length l)%nat with true by lia. replace (6 <? length l')%nat with true by lia. cbn [andb].
  rewrite !firstn_map, !skipn_map.
  replace (firstn 3 l) with (firstn 3 l').
  2:{ symmetry. apply (firstn_ext_nth 0); try lia. intros i Hi. apply H. unfold outer. lia. }
  replace (skipn (length l - 3) l) with (skipn (length l' - 3) l'); [reflexivity|].
  apply (nth_ext _ _ 0 0); [rewrite !skipn_length; lia|]. intros i Hi. rewrite skipn_length in Hi.
  rewrite !MaxFacts.nth_skipn_add. rewrite <- HE. symmetry. apply H. unfold outer. lia.
Qed.
Lemma summarised v M N : (32 <= v)%nat -> shape v v M -> shape v v N ->
  (forall i j, outer v i -> outer v j -> cell M i j = cell N i j) -> array_repr (Mat v M) = array_repr (Mat v N).
Proof.
  intros Hv [LM RM] [LN RN] H. unfold array_repr, mnrows. cbn [mrows mcols]. rewrite LM, LN.
  replace (1000 <? Z.of_nat v * Z.of_nat v) with true by nia.
  assert (E : format_matrix true M = format_matrix true N); [|now rewrite E].
  unfold format_matrix. do 4 f_equal.
  assert (ROW : forall i, outer v i -> format_row true (nth i M []) = format_row true (nth i N [])).
  { intros i Hi. assert (length (nth i M []) = v) by (apply RM, nth_In; unfold outer in Hi; lia).
    assert (length (nth i N []) = v) by (apply RN, nth_In; unfold outer in Hi; lia).
    unfold format_row. do 4 f_equal. apply pick_edges; try lia. intros j Hj. rewrite H0 in Hj. now apply H. }
  unfold outer_items. rewrite !map_length, LM, LN. replace (6 <? v)%nat with true by lia. cbn [andb]. rewrite !firstn_map, !skipn_map.
  assert (EXT : forall a b : list (list Z), length a = length b -> (forall i, (i < length a)%nat -> format_row true (nth i a []) = format_row true (nth i b [])) ->
     map (format_row true) a = map (format_row true) b).
  { clear. induction a as [|x a IH]; intros [|y b] HL HE; simpl in *; try lia; auto. f_equal; [apply (HE 0%nat); lia|].
    apply IH; [lia|]. intros i Hi. apply (HE (S i)). lia. }
  f_equal. f_equal.
  - apply EXT; [rewrite !firstn_length; lia|]. intros i Hi. rewrite firstn_length in Hi. rewrite !MaxFacts.nth_firstn_lt by lia. apply ROW. unfold outer. lia.
  - f_equal. apply EXT; [rewrite !skipn_length; lia|]. intros i Hi. rewrite skipn_length in Hi. rewrite !MaxFacts.nth_skipn_add. apply ROW. unfold outer. lia.
Qed.

(** two of the matrices printed for (36,15,6,6): different labellings of a
    Latin square graph, with the same text *)
Definition print_a : list (list Z) := map (unpack 36)
  [34358689792;51272216576;59257917376;63401299004;65510884147;66575151311;51986998028;52165956364;43547650784;43274245584;39403492536;39129868404;37215421715;36863314467;36151302215;35798787211;26380315970;26182114945;22038752277;21783927850;19969749681;19755512178;18943230186;18625183957;13043171990;12995985769;11681434029;11618764382;9899915802;9884431653;6631319113;6568466822;6208694182;6193027929;3237570968;3237385828].
Definition print_b : list (list Z) := map (unpack 36)
  [34358689792;51272216576;59257917376;63401299004;65510884147;66575151311;51722774664;51637507140;43547699074;43274345281;39403592229;39129916698;37482448213;37397514922;36148351098;35792887989;26377365872;26176214704;22129718809;21928114470;20145907302;20145576345;18943279495;18625282635;13527237100;13313147612;10976924835;10964527187;10340298253;10010270990;6484232726;6471697705;5928803538;5680245985;3378623336;3331486612].
Lemma print_a_srg : srg 36 15 6 6 print_a.
Proof. apply packed_srgb_ok. vm_compute. reflexivity. Qed.
Lemma print_b_srg : srg 36 15 6 6 print_b.
Proof. apply packed_srgb_ok. vm_compute. reflexivity. Qed.
Definition canonicalb (v : nat) (M : list (list Z)) : bool :=
  allb v (fun r => allb v (fun j => if (r <? j)%nat then allb v (fun j' =>
    if (j <? j')%nat then if cell M r j <? cell M r j' then negb (allb r (fun i => cell M i j =? cell M i j')) else true else true)
    else true)).
Lemma canonicalb_ok v M : canonicalb v M = true -> canonical v M.
Proof.
  unfold canonicalb. rewrite allb_ok. intros H r j j' Hj Hj' He. specialize (H r ltac:(lia)). rewrite allb_ok in H. specialize (H j ltac:(lia)).
  destruct (Nat.ltb_spec r j); [|lia]. rewrite allb_ok in H. specialize (H j' Hj'). destruct (Nat.ltb_spec j j'); [|lia].
  destruct (Z.ltb_spec (cell M r j) (cell M r j')); [|lia]. exfalso.
  enough (allb r (fun i => cell M i j =? cell M i j') = true) by (rewrite H3 in H; discriminate).
  apply allb_ok. intros i Hi. specialize (He i Hi). lia.
Qed.
Lemma print_a_canonical : canonical 36 print_a.
Proof. apply canonicalb_ok. vm_compute. reflexivity. Qed.
Lemma print_b_canonical : canonical 36 print_b.
Proof. apply canonicalb_ok. vm_compute. reflexivity. Qed.
Lemma ambiguous_proof : exists v k l u ms m m', admissible v k l u /\ (v <= 67)%nat
  /\ main_output (Z.of_nat v) k l u = Ok ms /\ In m ms /\ In m' ms /\ m <> m' /\ array_repr m = array_repr m'.
Proof.
  assert (Ha : admissible 36 15 6 6) by (unfold admissible; lia).
  destruct (main_output_proof 36 15 6 6 Ha ltac:(lia)) as (ms & out & E1 & E2 & HP & _).
  exists 36%nat, 15, 6, 6, out, (Mat 36 print_a), (Mat 36 print_b). split; [exact Ha|]. split; [lia|]. split; [exact E2|].
  split; [apply (Permutation.Permutation_in _ HP), (canonical_found 36 15 6 6 print_a ms); auto using print_a_srg, print_a_canonical; lia|].
  split; [apply (Permutation.Permutation_in _ HP), (canonical_found 36 15 6 6 print_b ms); auto using print_b_srg, print_b_canonical; lia|].
  split.
  - intros E. assert (F : cell print_a 6 26 = cell print_b 6 26) by congruence. revert F. vm_compute. discriminate.
  - vm_compute. reflexivity.
Qed.
