(** The printed text, character by character. *)
From Coq Require Import String Ascii.
From Verif Require Import Np ModelGauss Model ModelSort ModelUtil ModelPrint Spec QSpec SortSpec PrintSpec Lib AnyFacts SolveFacts SolverProps Graph SortProps UtilProps Spectrum PrintProps NumeralSpec Numeral.
From Coq Require Import ZifyBool ZifyNat.
Local Open Scope list_scope.

Lemma length_append a b : String.length (a ++ b)%string = (String.length a + String.length b)%nat.
Proof. induction a as [|c a IH]; simpl; auto. Qed.
Lemma length_spaces n : String.length (spaces n) = n.
Proof. induction n as [|n IH]; simpl; auto. Qed.
Lemma digit_length a : String.length (digit a) = 1%nat.
Proof. unfold digit. destruct (a =? 0); reflexivity. Qed.
Lemma concat_cons sep x l : l <> [] -> String.concat sep (x :: l) = (x ++ sep ++ String.concat sep l)%string.
Proof. destruct l; [easy|reflexivity]. Qed.

Definition wordlen (ws : list string) : nat := fold_right (fun w n => String.length w + 2 + n)%nat 0%nat ws.
Lemma row_words_fits width ind ws : forall s line, ws <> [] -> (String.length line + wordlen ws <= width + 2)%nat ->
  row_words (s, line) ws width ind = (s ++ line ++ String.concat ", " ws)%string.
Proof.
  induction ws as [|w ws IH]; intros s line NE H; [easy|]. cbn [wordlen fold_right] in H.
  change (fold_right (fun w n => String.length w + 2 + n)%nat 0%nat ws) with (wordlen ws) in H.
  assert (E : extend_line (s, line) w width ind = (s, line ++ w)%string).
  { unfold extend_line. destruct (Nat.ltb_spec width (String.length line + String.length w)); [lia|reflexivity]. }
  cbn [row_words]. rewrite E. destruct ws as [|w' ws']; [reflexivity|].
  rewrite IH; [|discriminate|]. 2: { rewrite !length_append. change (String.length ", ") with 2%nat. lia. }
  rewrite (concat_cons ", " w) by discriminate. now rewrite <- !str_app_assoc.
Qed.
Lemma rstrip_comma x : rstrip (x ++ ", ")%string = (x ++ ",")%string.
Proof. rewrite rstrip_app; [reflexivity|discriminate]. Qed.
Lemma row_words_break width ind ws w ws' : forall s line, ws <> [] -> (String.length line + wordlen ws <= width + 2)%nat ->
  (width < String.length line + wordlen ws + String.length w)%nat -> (String.length ind < String.length line + wordlen ws)%nat ->
  row_words (s, line) (ws ++ w :: ws') width ind
  = row_words (s ++ line ++ String.concat ", " ws ++ "," ++ newline, ind)%string (w :: ws') width ind.
Proof.
  induction ws as [|x ws IH]; intros s line NE H1 H2 H3; [easy|]. cbn [wordlen fold_right] in *.
  change (fold_right (fun w n => String.length w + 2 + n)%nat 0%nat ws) with (wordlen ws) in *.
  assert (E : extend_line (s, line) x width ind = (s, line ++ x)%string).
  { unfold extend_line. destruct (Nat.ltb_spec width (String.length line + String.length x)); [lia|reflexivity]. }
  cbn [app row_words]. rewrite E. destruct ws as [|y ws].
  - cbn [app]. cbn [wordlen fold_right] in *.
    assert (E1 : extend_line (s, (line ++ x) ++ ", ")%string w width ind
                 = ((s ++ line ++ String.concat ", " [x] ++ "," ++ newline)%string, (ind ++ w)%string)).
    { unfold extend_line. rewrite !length_append. change (String.length ", ") with 2%nat.
      destruct (Nat.ltb_spec width (String.length line + String.length x + 2 + String.length w)); [|lia].
      destruct (Nat.ltb_spec (String.length ind) (String.length line + String.length x + 2)); [|lia].
      cbn [andb]. rewrite rstrip_comma. cbn [String.concat]. f_equal. now rewrite <- !str_app_assoc. }
    assert (E2 : forall t, extend_line (t, ind) w width ind = (t, ind ++ w)%string).
    { intros t. unfold extend_line. destruct (Nat.ltb_spec (String.length ind) (String.length ind)); [lia|]. now rewrite andb_false_r. }
    cbn [row_words]. rewrite E1, E2. destruct ws'; reflexivity.
  - change ((y :: ws) ++ w :: ws') with (y :: ws ++ w :: ws'). cbv iota.
    change (y :: ws ++ w :: ws') with ((y :: ws) ++ w :: ws'). rewrite IH; try (rewrite ?length_append; change (String.length ", ") with 2%nat; lia); [|discriminate].
    rewrite (concat_cons ", " x) by discriminate. now rewrite <- !str_app_assoc.
Qed.

(** ** rows *)
Lemma wordlen_digits row : wordlen (map digit row) = (3 * List.length row)%nat.
Proof. induction row as [|a row IH]; [reflexivity|]. cbn [map wordlen fold_right List.length]. change (fold_right _ _ _) with (wordlen (map digit row)). rewrite digit_length, IH. lia. Qed.
Lemma digits_text row : String.concat ", " (map digit row) = bits_text row.
Proof. reflexivity. Qed.
Lemma format_row_layout row : row <> [] -> (List.length row <= 31)%nat -> format_row false row = row_layout row.
Proof.
  intros NE HL. unfold format_row, row_layout, outer_items. cbn [andb]. destruct (Nat.leb_spec (List.length row) 22) as [L|L].
  - rewrite row_words_fits; [|now destruct row|rewrite wordlen_digits, length_spaces; lia].
    change (EmptyString ++ ?x)%string with x. now rewrite drop_spaces, digits_text.
  - rewrite <- (firstn_skipn 22 row) at 1. rewrite map_app.
    assert (L1 : List.length (firstn 22 row) = 22%nat) by (rewrite firstn_length; lia).
    assert (L2 : List.length (skipn 22 row) = (List.length row - 22)%nat) by apply skipn_length.
    destruct (skipn 22 row) as [|a r] eqn:ER; [cbn in L2; lia|]. cbn [map].
    rewrite row_words_break; rewrite ?wordlen_digits, ?length_spaces, ?digit_length, ?L1; try lia.
    2: { destruct (firstn 22 row); [discriminate|easy]. }
    change (digit a :: map digit r) with (map digit (a :: r)).
    rewrite row_words_fits; [|easy|rewrite wordlen_digits, length_spaces; cbn [List.length] in *; lia].
    rewrite !digits_text. change (EmptyString ++ ?x)%string with x. rewrite <- !str_app_assoc, drop_spaces.
    change (spaces 8) with "        "%string. change newline with eol. now rewrite <- !str_app_assoc.
Qed.
Lemma concat_app sep l l' : l <> [] -> l' <> [] -> String.concat sep (l ++ l') = (String.concat sep l ++ sep ++ String.concat sep l')%string.
Proof.
  induction l as [|x l IH]; intros H H'; [easy|]. destruct l as [|y l].
  - cbn [app]. now rewrite concat_cons.
  - change ((x :: y :: l) ++ l') with (x :: (y :: l) ++ l'). rewrite (concat_cons sep x ((y :: l) ++ l')) by discriminate.
    rewrite IH by (auto; discriminate). rewrite (concat_cons sep x (y :: l)) by discriminate. now rewrite <- !str_app_assoc.
Qed.
Lemma format_row_short row : (32 <= List.length row)%nat -> format_row true row = short_row row.
Proof.
  intros HL. unfold format_row, short_row, outer_items. rewrite map_length. destruct (Nat.ltb_spec 6 (List.length row)); [|lia]. cbn [andb].
  rewrite firstn_map, skipn_map.
  assert (L1 : List.length (firstn 3 row) = 3%nat) by (rewrite firstn_length; lia).
  assert (L2 : List.length (skipn (List.length row - 3) row) = 3%nat) by (rewrite skipn_length; lia).
  destruct (firstn 3 row) as [|a [|b [|c [|? ?]]]]; try discriminate. destruct (skipn _ row) as [|d [|e [|f [|? ?]]]]; try discriminate.
  rewrite row_words_fits; [|discriminate|cbn [map app wordlen fold_right]; rewrite !digit_length, length_spaces; cbn; lia].
  change (EmptyString ++ ?x)%string with x. rewrite drop_spaces. rewrite concat_app by discriminate. rewrite (concat_app ", " ["..."%string]) by discriminate.
  rewrite !digits_text. cbn [String.concat]. rewrite <- !str_app_assoc. reflexivity.
Qed.
(** ** matrices *)
Lemma concat_indent l : l <> [] -> String.concat ("," ++ newline) (map (fun x => spaces 7 ++ x)%string l)
  = (spaces 7 ++ String.concat ("," ++ eol ++ "       ") l)%string.
Proof.
  induction l as [|x l IH]; intros H; [easy|]. destruct l as [|y l]; [reflexivity|].
  cbn [map] in *. rewrite concat_cons by discriminate. rewrite IH by discriminate.
  rewrite (concat_cons _ x) by discriminate. rewrite <- !str_app_assoc. reflexivity.
Qed.
Lemma last_line_app a b : forall n, last_line n (a ++ b)%string = last_line (last_line n a) b.
Proof. induction a as [|c a IH]; intros n; [reflexivity|]. apply IH. Qed.
Definition one_line (s : string) : Prop := forall n, last_line n s = (n + String.length s)%nat.
Lemma one_line_app a b : one_line a -> one_line b -> one_line (a ++ b)%string.
Proof. intros Ha Hb n. now rewrite last_line_app, Ha, Hb, length_append, Nat.add_assoc. Qed.
Lemma one_line_digit a : one_line (digit a).
Proof. intros n. unfold digit. destruct (a =? 0); cbn; lia. Qed.
Lemma one_line_bits row : one_line (bits_text row).
Proof.
  induction row as [|a row IH]; [intros n; cbn; lia|]. unfold bits_text in *. cbn [map]. destruct row as [|b row]; [apply one_line_digit|].
  rewrite concat_cons by discriminate. apply one_line_app; [apply one_line_digit|]. apply one_line_app; [intros n; cbn; lia|exact IH].
Qed.
Lemma bit_text_length a : String.length (bit_text a) = 1%nat.
Proof. apply (digit_length a). Qed.
Lemma bits_text_length row : row <> [] -> String.length (bits_text row) = (3 * List.length row - 2)%nat.
Proof.
  induction row as [|a row IH]; [easy|]. intros _. unfold bits_text in *. cbn [map]. destruct row as [|b row].
  - cbn [map String.concat]. now rewrite bit_text_length.
  - rewrite concat_cons by discriminate. rewrite !length_append, IH by discriminate. rewrite bit_text_length.
    cbn [List.length String.length]. lia.
Qed.
Lemma last_line_concat l x : forall n, last_line 7 (String.concat ("," ++ eol ++ "       ") (l ++ [x])) = last_line 7 x /\
  (l <> [] -> last_line n (String.concat ("," ++ eol ++ "       ") (l ++ [x])) = last_line 7 x).
Proof.
  induction l as [|y l IH]; intros n; [split; [reflexivity|easy]|]. cbn [app]. rewrite concat_cons by now destruct l.
  split; [|intros _]; rewrite !last_line_app; apply (IH 0%nat).
Qed.
Lemma row_layout_end row : row <> [] -> (List.length row <= 31)%nat ->
  last_line 7 (row_layout row) = (if (22 <? List.length row)%nat then 3 * (List.length row - 22) + 7 else 3 * List.length row + 7)%nat.
Proof.
  intros NE HL. unfold row_layout. rewrite !last_line_app. rewrite Nat.ltb_antisym. destruct (Nat.leb_spec (List.length row) 22); cbn [negb].
  - rewrite one_line_bits, bits_text_length by auto. cbn [last_line]. destruct row; [easy|]. cbn. lia.
  - rewrite !last_line_app. rewrite (one_line_bits (skipn 22 row)).
    assert (L2 : List.length (skipn 22 row) = (List.length row - 22)%nat) by apply skipn_length.
    rewrite bits_text_length by (intros E; rewrite E in L2; cbn in L2; lia). rewrite L2. cbn. lia.
Qed.
Lemma short_row_end row : (32 <= List.length row)%nat -> last_line 7 (short_row row) = 30%nat.
Proof.
  intros HL. unfold short_row. rewrite !last_line_app, !one_line_bits.
  assert (L1 : List.length (firstn 3 row) = 3%nat) by (rewrite firstn_length; lia).
  assert (L2 : List.length (skipn (List.length row - 3) row) = 3%nat) by (rewrite skipn_length; lia).
  rewrite !bits_text_length by (intros E; rewrite E in *; discriminate). rewrite L1, L2. reflexivity.
Qed.
Lemma array_repr_layout v M : (1 <= v)%nat -> shape v v M -> array_repr (Mat v M) = layout v M.
Proof.
  intros Hv [HL HR]. unfold array_repr, layout. cbn [mrows mcols mnrows]. unfold mnrows. cbn [mrows].
  set (summary := (1000 <? Z.of_nat (List.length M) * Z.of_nat v)).
  assert (SU : summary = negb (v <=? 31)%nat).
  { unfold summary. rewrite HL. destruct (Nat.leb_spec v 31); destruct (Z.ltb_spec 1000 (Z.of_nat v * Z.of_nat v)); auto; nia. }
  assert (RW : outer_items summary (map (format_row summary) M) = layout_rows v M).
  { rewrite SU. unfold layout_rows. destruct (Nat.leb_spec v 31) as [H|H]; cbn [negb].
    - unfold outer_items. cbn [andb]. apply map_ext_in. intros row Hr. specialize (HR row Hr). apply format_row_layout; [|lia].
      intros ->. cbn in HR. lia.
    - assert (E : map (format_row true) M = map short_row M) by (apply map_ext_in; intros row Hr; apply format_row_short; rewrite HR; auto; lia).
      rewrite E. unfold outer_items. rewrite map_length, HL. destruct (Nat.ltb_spec 6 v); [|lia]. cbn [andb]. now rewrite firstn_map, skipn_map. }
  assert (NE : layout_rows v M <> []).
  { unfold layout_rows. destruct (v <=? 31)%nat; [|destruct (firstn 3 M); discriminate]. destruct M; [cbn in HL; lia|discriminate]. }
  unfold format_matrix. rewrite RW, concat_indent by auto. rewrite drop_spaces.
  assert (LL : last_line 7 (String.concat ("," ++ eol ++ "       ") (layout_rows v M))
    = (if (v <=? 31)%nat then if (22 <? v)%nat then 3 * (v - 22) + 7 else 3 * v + 7 else 30)%nat).
  { destruct (exists_last NE) as (l & x & E). rewrite E. rewrite (proj1 (last_line_concat l x 0%nat)).
    assert (X : exists row, In row M /\ x = if (v <=? 31)%nat then row_layout row else short_row row).
    { unfold layout_rows in E. destruct (Nat.leb_spec v 31).
      - assert (In x (map row_layout M)) as Hx by (rewrite E; apply in_or_app; right; now left). apply in_map_iff in Hx as (row & <- & Hr). eauto.
      - assert (LS : List.length (skipn (v - 3) M) = 3%nat) by (rewrite skipn_length; lia).
        destruct (exists_last (l := skipn (v - 3) M)) as (r & row & Er); [intros Er; rewrite Er in LS; discriminate|].
        rewrite Er, map_app in E. cbn [map] in E. rewrite !app_assoc in E. apply app_inj_tail in E as [_ <-]. exists row. split; [|reflexivity].
        rewrite <- (firstn_skipn (v - 3) M), Er. apply in_or_app. right. apply in_or_app. right. now left. }
    destruct X as (row & Hr & ->). specialize (HR row Hr). destruct (Nat.leb_spec v 31).
    - rewrite row_layout_end; [now rewrite HR| |lia]. intros ->. cbn in HR. lia.
    - apply short_row_end. lia. }
  assert (LS : last_line 0 ("array(" ++ ("[" ++ String.concat ("," ++ eol ++ "       ") (layout_rows v M) ++ "]") ++ ",")%string
    = (last_line 7 (String.concat ("," ++ eol ++ "       ") (layout_rows v M)) + 2)%nat).
  { rewrite !last_line_app. change (last_line (last_line 0 "array(") "[") with 7%nat. cbn [last_line]. cbn. lia. }
  rewrite LS, LL. clear LS LL. change (String.length "dtype=int8)") with 11%nat.
  set (body := String.concat ("," ++ eol ++ "       ") (layout_rows v M)).
  assert (T : forall a b, (("array(" ++ ("[" ++ body ++ "]") ++ ",") ++ a ++ b)%string = ("array([" ++ body ++ "]," ++ a ++ b)%string).
  { intros a b. rewrite <- !str_app_assoc. reflexivity. }
  destruct (Nat.leb_spec v 31).
  - destruct (Nat.ltb_spec 22 v).
    + destruct (Nat.ltb_spec 75 (3 * (v - 22) + 7 + 2 + 11 + 1)); [lia|]. destruct (Nat.leb_spec 19 v), (Nat.leb_spec v 22); try lia. cbn [andb]. apply T.
    + destruct (Nat.ltb_spec 75 (3 * v + 7 + 2 + 11 + 1)), (Nat.leb_spec 19 v), (Nat.leb_spec v 22); try lia; cbn [andb].
      * rewrite (str_app_assoc newline (spaces 6)). apply T.
      * apply T.
  - destruct (Nat.leb_spec v 22); [lia|]. rewrite andb_false_r. apply T.
Qed.
(** the text on standard output of a successful run *)
Lemma answers_layout v ms : (1 <= v)%nat -> (forall m, In m ms -> mcols m = v /\ shape v v (mrows m)) ->
  answers_text ms = String.concat "" (map (fun m => layout v (mrows m) ++ eol)%string ms).
Proof.
  intros Hv. induction ms as [|m ms IH]; intros H; [reflexivity|]. cbn [answers_text fold_right map]. fold (answers_text ms).
  rewrite IH by (intros x Hx; apply H; now right). destruct (H m ltac:(now left)) as [Hc HS].
  replace m with (Mat v (mrows m)) at 1 by (destruct m; cbn in *; now rewrite Hc). rewrite array_repr_layout by auto. change newline with eol.
  destruct ms as [|m' ms]; [cbn [map String.concat]; now rewrite str_app_nil|].
  cbn [map]. rewrite (concat_cons "" (layout v (mrows m) ++ eol)%string) by discriminate. rewrite <- !str_app_assoc. reflexivity.
Qed.
Lemma arguments v k l u a b c d : numeral a v -> numeral b k -> numeral c l -> numeral d u -> main_program [a; b; c; d] = main_text v k l u.
Proof. intros A B C D. unfold main_program. cbn [mapM]. now rewrite (numeral_int_of a v), (numeral_int_of b k), (numeral_int_of c l), (numeral_int_of d u) by auto. Qed.
Lemma command_line_proof v k l u a b c d : numeral a (Z.of_nat v) -> numeral b k -> numeral c l -> numeral d u ->
  admissible v k l u -> (v <= 67)%nat -> exists ms, main_output (Z.of_nat v) k l u = Ok ms
  /\ main_program [a; b; c; d]
     = Ok (str (Z.of_nat v) ++ " " ++ str k ++ " " ++ str l ++ " " ++ str u ++ eol ++ "'*********** answers *************'" ++ eol
           ++ String.concat "" (map (fun m => layout v (mrows m) ++ eol) ms))%string.
Proof.
  intros A B C D Ha Hv. rewrite (arguments _ _ _ _ _ _ _ _ A B C D).
  destruct (main_output_proof v k l u Ha) as (ms & out & E1 & E2 & HP & _); [lia|]. exists out. split; [auto|].
  unfold main_text. rewrite E2. cbn [bind]. f_equal. unfold heading.
  rewrite (answers_layout v).
  - rewrite <- !str_app_assoc. reflexivity.
  - unfold admissible in Ha. lia.
  - intros m Hm. apply Permutation.Permutation_sym in HP. apply (Permutation.Permutation_in _ HP) in Hm.
    destruct (run_main_well_formed v k l u ms Ha E1 m Hm) as (X & Y & _). split; [auto|apply Y].
Qed.
Lemma mapM_length {A B} (f : A -> res B) l r : mapM f l = Ok r -> List.length r = List.length l.
Proof.
  revert r. induction l as [|a l IH]; intros r H; cbn [mapM] in H.
  - injection H as <-. reflexivity.
  - destruct (f a); try discriminate. cbn [bind] in H. destruct (mapM f l) as [t| |]; try discriminate. cbn [bind] in H.
    injection H as <-. cbn [List.length]. now rewrite (IH t).
Qed.
Lemma mapM_int argv : (exists zs, mapM int_of argv = Ok zs) \/ mapM int_of argv = Raise ValueError.
Proof.
  induction argv as [|s argv IH]; [left; now exists []|]. cbn [mapM]. destruct (int_of_cases s) as [(z & ->)| ->]; cbn [bind]; [|now right].
  destruct IH as [(zs & ->)| ->]; cbn [bind]; [left; eauto|now right].
Qed.
Lemma mapM_int_bad argv s : In s argv -> int_of s = Raise ValueError -> mapM int_of argv = Raise ValueError.
Proof.
  induction argv as [|a argv IH]; intros H E; [destruct H|]. cbn [mapM]. destruct H as [->|H]; [now rewrite E|]. rewrite (IH H E).
  destruct (int_of_cases a) as [(z & ->)| ->]; reflexivity.
Qed.
Lemma bad_arguments_proof argv : List.length argv <> 4%nat \/ (exists s, In s argv /\ ~ exists z, numeral s z) -> main_program argv = Raise ValueError.
Proof.
  intros [H|(s & H & E)]; unfold main_program.
  - destruct (mapM_int argv) as [(zs & E)| ->]; [|reflexivity]. rewrite E. apply mapM_length in E.
    destruct zs as [|a [|b [|c [|d [|e zs]]]]]; try reflexivity. cbn [List.length] in E. lia.
  - apply int_proof in E. now rewrite (mapM_int_bad argv s H E).
Qed.
Lemma bad_parameters_proof v k l u a b c d : numeral a v -> numeral b k -> numeral c l -> numeral d u ->
  (v - k - 1) * u <> k * (k - l - 1) -> main_program [a; b; c; d] = Raise AssertionError.
Proof.
  intros A B C D H. rewrite (arguments _ _ _ _ _ _ _ _ A B C D). unfold main_text. now rewrite main_rejects_proof.
Qed.
Lemma str_numeral z : numeral (str z) z.
Proof. apply int_of_numeral, int_of_str. Qed.
