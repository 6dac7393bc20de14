(** The text of a question contains all its numbers. *)
From Coq Require Import String Ascii DecimalString Sorting.Sorted.
From Verif Require Import Np ModelGauss Model ModelSort ModelUtil ModelPrint ModelScreen ModelDebug ModelSelf ModelRepr Spec QSpec NumeralSpec ReprSpec Lib Numeral UtilProps StepFacts PrintProps Layout Total ScreenProps.
From Coq Require Import ZifyBool ZifyNat.
Local Open Scope list_scope.
Local Open Scope Z_scope.

(** ** the reader as a machine *)
Local Notation cursor := (option (bool * Z)).
Fixpoint scan (cur : cursor) (s : string) : list Z * cursor :=
  match s with
  | EmptyString => ([], cur)
  | String c t =>
      match digit_value c with
      | Some d => scan (match cur with
                        | None => Some (false, d)
                        | Some (neg, z) => Some (neg, 10 * z + d)
                        end) t
      | None => let (l, c') := scan (if Ascii.eqb c "-"%char then Some (true, 0) else None) t in (finish cur ++ l, c')
      end
  end.
Lemma numbers_scan s : forall cur, numbers_from cur s = fst (scan cur s) ++ finish (snd (scan cur s)).
Proof.
  induction s as [|c s IH]; intros cur; cbn [numbers_from scan]; [reflexivity|].
  destruct (digit_value c) as [d|]; [apply IH|]. rewrite IH.
  destruct (scan (if Ascii.eqb c "-" then Some (true, 0) else None) s) as [l c']. cbn [fst snd]. now rewrite <- app_assoc.
Qed.
Lemma scan_app s t : forall cur, scan cur (s ++ t)%string = (fst (scan cur s) ++ fst (scan (snd (scan cur s)) t), snd (scan (snd (scan cur s)) t)).
Proof.
  induction s as [|c s IH]; intros cur; cbn [append scan]; [cbn [fst snd app]; now destruct (scan cur t)|].
  destruct (digit_value c) as [d|]; [apply IH|]. rewrite IH.
  destruct (scan (if Ascii.eqb c "-" then Some (true, 0) else None) s) as [l c']. cbn [fst snd]. destruct (scan c' t) as [m c'']. cbn [fst snd]. now rewrite app_assoc.
Qed.
Definition closed (s : string) (l : list Z) : Prop := scan None s = (l, None).
Lemma closed_app s t l m : closed s l -> closed t m -> closed (s ++ t)%string (l ++ m).
Proof. unfold closed. intros A B. rewrite scan_app, A. cbn [fst snd]. now rewrite B. Qed.
Lemma closed_numbers s l : closed s l -> numbers s = l.
Proof. unfold closed, numbers. intros E. rewrite numbers_scan, E. cbn. now rewrite app_nil_r. Qed.

(** a separator: something in it, no digits and no sign *)
Fixpoint silent (s : string) : bool :=
  match s with
  | EmptyString => true
  | String c t => match digit_value c with Some _ => false | None => if Ascii.eqb c "-"%char then false else silent t end
  end.
Definition quiet (s : string) : bool := match s with EmptyString => false | _ => silent s end.
Lemma silent_scan s : silent s = true -> scan None s = ([], None).
Proof.
  induction s as [|c s IH]; cbn [silent scan]; auto. destruct (digit_value c); [discriminate|]. destruct (Ascii.eqb c "-"); [discriminate|].
  intros H. now rewrite IH.
Qed.
Lemma quiet_scan s cur : quiet s = true -> scan cur s = (finish cur, None).
Proof.
  destruct s as [|c s]; [discriminate|]. cbn [quiet silent scan]. destruct (digit_value c); [discriminate|]. destruct (Ascii.eqb c "-"); [discriminate|].
  intros H. rewrite silent_scan by auto. now rewrite app_nil_r.
Qed.
Lemma silent_closed s : silent s = true -> closed s [].
Proof. exact (silent_scan s). Qed.
Lemma silent_app s t : silent s = true -> silent t = true -> silent (s ++ t)%string = true.
Proof.
  induction s as [|c s IH]; cbn [append silent]; auto. destruct (digit_value c); auto. destruct (Ascii.eqb c "-"); auto.
Qed.
Lemma quiet_app s t : quiet s = true -> silent t = true -> quiet (s ++ t)%string = true.
Proof. destruct s as [|c s]; [discriminate|]. intros H1 H2. exact (silent_app _ _ H1 H2). Qed.
Lemma silent_spaces n : silent (spaces n) = true.
Proof. induction n; auto. Qed.
(** a piece and the separator behind it *)
Lemma piece x q : quiet q = true -> closed (x ++ q)%string (numbers x).
Proof. intros H. unfold closed. rewrite scan_app, (quiet_scan q) by auto. cbn [fst snd]. unfold numbers. now rewrite numbers_scan. Qed.
Lemma numbers_silent s t : silent s = true -> numbers (s ++ t)%string = numbers t.
Proof. intros H. unfold numbers. rewrite !numbers_scan, scan_app, silent_scan by auto. reflexivity. Qed.
Lemma closed_silent s t l : silent s = true -> closed (s ++ t)%string l <-> closed t l.
Proof.
  intros H. unfold closed. rewrite scan_app, silent_scan by auto. cbn [fst snd app]. now destruct (scan None t).
Qed.

(** ** one number *)
Ltac read_value := change (digit_value "0"%char) with (Some 0); change (digit_value "1"%char) with (Some 1); change (digit_value "2"%char) with (Some 2); change (digit_value "3"%char) with (Some 3); change (digit_value "4"%char) with (Some 4); change (digit_value "5"%char) with (Some 5); change (digit_value "6"%char) with (Some 6); change (digit_value "7"%char) with (Some 7); change (digit_value "8"%char) with (Some 8); change (digit_value "9"%char) with (Some 9); cbv iota beta.
Lemma scan_acc neg d : forall p, scan (Some (neg, Z.pos p)) (NilEmpty.string_of_uint d) = ([], Some (neg, Z.pos (Pos.of_uint_acc d p))).
Proof.
  induction d; intros p; [reflexivity|..]; cbn [NilEmpty.string_of_uint scan Pos.of_uint_acc]; read_value; rewrite <- IHd; do 3 f_equal; lia.
Qed.
Lemma scan_uint neg d : scan (Some (neg, 0)) (NilEmpty.string_of_uint d) = ([], Some (neg, Z.of_uint d)).
Proof.
  induction d; [reflexivity|exact IHd|..]; cbn [NilEmpty.string_of_uint scan]; read_value; apply (scan_acc neg d).
Qed.
Lemma scan_first d : scan None (NilZero.string_of_uint d) = ([], Some (false, Z.of_uint d)).
Proof. pose proof (scan_uint false d) as H. destruct d; [reflexivity|..]; exact H. Qed.
Lemma scan_minus d : scan (Some (true, 0)) (NilZero.string_of_uint d) = ([], Some (true, Z.of_uint d)).
Proof. pose proof (scan_uint true d) as H. destruct d; [reflexivity|..]; exact H. Qed.
Lemma scan_str z : fst (scan None (str z)) = [] /\ finish (snd (scan None (str z))) = [z].
Proof.
  pose proof (DecimalZ.of_to z) as E. unfold str, NilZero.string_of_int. destruct (Z.to_int z) as [d|d]; cbn [Z.of_int] in E; subst z.
  - rewrite scan_first. auto.
  - cbn [scan]. change (digit_value "-") with (@None Z). change (Ascii.eqb "-" "-") with true. cbv iota beta. rewrite scan_minus. auto.
Qed.
Lemma numbers_str z : numbers (str z) = [z].
Proof. unfold numbers. rewrite numbers_scan. destruct (scan_str z) as [-> ->]. reflexivity. Qed.
Lemma numbers_pad w z : numbers (pad w (str z)) = [z].
Proof. unfold pad. rewrite numbers_silent by apply silent_spaces. apply numbers_str. Qed.

(** ** breaking lines *)
Lemma scan_rstrip x : forall cur, scan cur (rstrip x ++ newline)%string = scan cur (x ++ newline)%string.
Proof.
  induction x as [|c x IH]; intros cur; [reflexivity|]. cbn [rstrip].
  assert (E : (c = " "%char /\ rstrip x = EmptyString) \/ (match rstrip x with EmptyString => if Ascii.eqb c " " then EmptyString else String c EmptyString | String _ _ as t' => String c t' end) = String c (rstrip x)).
  { destruct (rstrip x); [|auto]. destruct (Ascii.eqb_spec c " "); auto. }
  destruct E as [[-> E]| ->].
  - rewrite E in *. cbn [append]. change (Ascii.eqb " " " ") with true. cbv iota.
    change (scan cur (String " " (x ++ newline))) with (let (l, c') := scan None (x ++ newline)%string in (finish cur ++ l, c')).
    rewrite <- IH. cbn. reflexivity.
  - cbn [append scan]. destruct (digit_value c); [apply IH|]. now rewrite IH.
Qed.
Lemma closed_rstrip s x l : closed (s ++ x)%string l -> closed (s ++ rstrip x ++ newline)%string l.
Proof.
  unfold closed. intros H. rewrite scan_app, scan_rstrip, <- scan_app, str_app_assoc, scan_app, H. cbn. now rewrite app_nil_r.
Qed.
Lemma rstrip_silent x : rstrip x = EmptyString -> silent x = true.
Proof.
  induction x as [|c x IH]; cbn [rstrip silent]; auto. destruct (rstrip x); [|discriminate].
  destruct (Ascii.eqb_spec c " ") as [->|]; [|discriminate]. intros _. cbn. auto.
Qed.
Lemma pad_full w z : rstrip (pad w (str z)) <> EmptyString.
Proof.
  intros H. apply rstrip_silent in H. apply silent_closed, closed_numbers in H. rewrite numbers_pad in H. discriminate.
Qed.

Section rows.
  Variables (sep : string) (width n : nat).
  Hypothesis Hsep : quiet sep = true.
  Lemma words_closed ws : ws <> [] -> forall st l q, (forall w, In w ws -> rstrip w <> EmptyString) -> started n st ->
    closed (fst st ++ snd st)%string l -> quiet q = true ->
    exists z, words sep st ws width (spaces n) = (spaces n ++ z)%string /\ closed (z ++ q)%string (l ++ concat (map numbers ws)).
  Proof.
    induction ws as [|w ws IH]; intros Hne st l q Hw Hs Hl Hq; [congruence|].
    destruct (extend_line st w width (spaces n)) as [s line] eqn:E.
    destruct (extend_begun width n st w s line) as [HB _]; auto. { apply Hw. now left. }
    assert (HC : forall p, quiet p = true -> closed ((s ++ line) ++ p)%string (l ++ numbers w)).
    { intros p Hp. destruct st as [s0 l0]. cbn [fst snd] in Hl. unfold extend_line in E.
      destruct ((width <? String.length l0 + String.length w)%nat && (String.length (spaces n) <? String.length l0)%nat).
      - injection E as <- <-. apply closed_rstrip in Hl.
        assert (F : (((s0 ++ rstrip l0 ++ newline) ++ spaces n ++ w) ++ p)%string = ((s0 ++ rstrip l0 ++ newline) ++ spaces n ++ (w ++ p))%string) by now rewrite <- !str_app_assoc.
        rewrite F. apply closed_app; auto. apply closed_silent; [apply silent_spaces|]. now apply piece.
      - assert (s = s0 /\ line = (l0 ++ w)%string) as [-> ->] by (split; congruence).
        assert (F : ((s0 ++ l0 ++ w) ++ p)%string = ((s0 ++ l0) ++ (w ++ p))%string) by now rewrite <- !str_app_assoc.
        rewrite F. apply closed_app; auto. now apply piece. }
    destruct ws as [|w' ws].
    - cbn [words]. rewrite E. destruct (begun_text n s line HB) as (z & Ez). exists z. split; auto.
      cbn [map concat]. rewrite app_nil_r. specialize (HC q Hq). rewrite Ez, <- str_app_assoc in HC. exact (proj1 (closed_silent _ _ _ (silent_spaces n)) HC).
    - destruct (IH ltac:(discriminate) (s, line ++ sep)%string (l ++ numbers w) q) as (z & Ez & Dz); auto.
      { intros x Hx. apply Hw. now right. }
      { right. now apply begun_more. }
      { cbn [fst snd]. rewrite str_app_assoc. now apply HC. }
      exists z. split.
      + rewrite <- Ez. cbn [words]. rewrite E. reflexivity.
      + rewrite app_assoc in Dz || rewrite <- app_assoc in Dz. exact Dz.
  Qed.
  Lemma row_closed w l : l <> [] -> closed (row_text sep width n w false l) l.
  Proof.
    intros Hl. unfold row_text, outer_items. cbn [andb].
    destruct (words_closed (map (fun a => pad w (str a)) l)) with (st := (EmptyString, spaces n)) (l := @nil Z) (q := "]"%string) as (z & Ez & Dz).
    - destruct l; [congruence|discriminate].
    - intros x Hx. apply in_map_iff in Hx. destruct Hx as (a & <- & _). apply pad_full.
    - now left.
    - cbn [fst snd append]. apply silent_closed, silent_spaces.
    - reflexivity.
    - rewrite Ez, drop_spaces. apply (closed_silent "["); [reflexivity|]. cbn [app] in Dz.
      replace (concat (map numbers (map (fun a => pad w (str a)) l))) with l in Dz; [exact Dz|].
      clear. induction l as [|a l IH]; cbn [map concat]; auto. rewrite numbers_pad, <- IH. reflexivity.
  Qed.
  Lemma vector_closed l : Z.of_nat (List.length l) <= 1000 -> closed (vector_text sep width n l) l.
  Proof.
    intros H. destruct l as [|a l]; [reflexivity|]. unfold vector_text. replace (1000 <? _) with false by (cbn [List.length] in *; lia).
    apply row_closed. discriminate.
  Qed.
End rows.

(** ** questions *)
Lemma silent_concat sep l : silent sep = true -> (forall x, In x l -> silent x = true) -> silent (String.concat sep l) = true.
Proof.
  intros H. induction l as [|x l IH]; intros Hl; [reflexivity|]. destruct l as [|y l]; [apply Hl; now left|].
  change (String.concat sep (x :: y :: l)) with (x ++ sep ++ String.concat sep (y :: l))%string.
  apply silent_app; [apply Hl; now left|]. apply silent_app; auto. apply IH. intros z Hz. apply Hl. now right.
Qed.
Lemma silent_marks n : silent (question_marks n) = true.
Proof. apply silent_concat; [reflexivity|]. intros x Hx. apply repeat_spec in Hx. now subst. Qed.
Lemma closed_str z q t l : quiet q = true -> closed t l -> closed (str z ++ q ++ t)%string (z :: l).
Proof. intros Hq Ht. rewrite str_app_assoc. change (z :: l) with ([z] ++ l). apply closed_app; auto. rewrite <- (numbers_str z). now apply piece. Qed.
Lemma closed_dtype s d l k : closed s l -> closed d k -> closed (with_dtype s d) (l ++ k).
Proof.
  intros A B. unfold with_dtype. destruct (75 <? _)%nat; apply closed_app; auto.
  - apply (closed_silent newline); [reflexivity|]. apply closed_silent; [apply silent_spaces|auto].
  - apply (closed_silent " "); [reflexivity|auto].
Qed.
Lemma closed_quiet s t l m : closed s l -> closed t m -> l = [] -> closed (s ++ t)%string m.
Proof. intros A B ->. exact (closed_app _ _ _ _ A B). Qed.
Lemma int8_closed l : Z.of_nat (List.length l) <= 1000 -> closed (vector_repr_int8 l) (l ++ [8]).
Proof.
  intros H. apply closed_dtype; [|reflexivity]. apply (closed_silent "array("); [reflexivity|].
  rewrite <- (app_nil_r l) at 2. apply closed_app; [now apply vector_closed|reflexivity].
Qed.
Lemma int64_closed l : Z.of_nat (List.length l) <= 1000 -> closed (vector_repr_int64 l) (l ++ if (List.length l =? 0)%nat then [64] else []).
Proof.
  intros H. destruct l as [|a l]; [reflexivity|]. unfold vector_repr_int64. apply (closed_silent "array("); [reflexivity|].
  apply closed_app; [now apply vector_closed|reflexivity].
Qed.
Lemma answer_closed a : Z.of_nat (List.length (av a)) <= 1000 -> List.length (aloc a) = List.length (av a) ->
  closed (answer_repr a) (av a ++ [8] ++ aloc a ++ (if (List.length (aloc a) =? 0)%nat then [64] else []) ++ [alen a]).
Proof.
  intros H E. unfold answer_repr. apply (closed_silent "Answer(value="); [reflexivity|]. rewrite app_assoc. apply closed_app; [now apply int8_closed|].
  apply (closed_silent ", "); [reflexivity|]. apply (closed_silent newline); [reflexivity|]. apply (closed_silent "    location="); [reflexivity|].
  rewrite app_assoc. apply closed_app; [apply int64_closed; lia|]. apply (closed_silent ", len="); [reflexivity|].
  rewrite <- (app_str_nil ")"). apply closed_str; reflexivity.
Qed.
Lemma equations_closed bs rows C : Z.of_nat C <= 1000 -> (forall r, In r rows -> List.length r = C) ->
  closed (String.concat "" (map (fun ba => str (fst ba) ++ tab ++ vector_str (snd ba) ++ newline)%string (combine bs rows)))
         (concat (map (fun ba : Z * list Z => fst ba :: snd ba) (combine bs rows))).
Proof.
  intros HC. revert rows; induction bs as [|b bs IH]; intros [|r rows] Hr; try reflexivity. cbn [combine map concat].
  assert (E : forall x l, String.concat "" (x :: l) = (x ++ String.concat "" l)%string) by (intros x [|y l]; [now rewrite app_str_nil|reflexivity]).
  rewrite E. apply closed_app; [|apply IH; intros; apply Hr; now right]. cbn [fst snd]. apply closed_str; [reflexivity|].
  rewrite <- (app_nil_r r) at 2. apply closed_app; [|reflexivity]. apply vector_closed; [reflexivity|]. rewrite (Hr r) by now left. exact HC.
Qed.
Lemma question_closed Q : legible Q -> closed (question_repr Q) (question_numbers Q).
Proof.
  intros [G1 G2 G3 G4 G5 G6]. unfold question_repr, question_numbers, mnrows. cbv zeta.
  apply (closed_silent "b"); [reflexivity|]. apply (closed_silent tab); [reflexivity|]. apply (closed_silent "A_("); [reflexivity|].
  apply closed_str; [reflexivity|]. apply closed_str; [reflexivity|]. apply (closed_silent newline); [reflexivity|].
  apply closed_app; [now apply (equations_closed _ _ (mcols (qA Q)))|].
  apply (closed_silent "x="); [reflexivity|]. apply (closed_silent tab); [reflexivity|]. apply (closed_silent "["); [reflexivity|].
  apply closed_silent; [apply silent_marks|]. apply (closed_silent "]_("); [reflexivity|].
  replace ("x1)" ++ tab ++ "quota=sum(x)=" ++ str (qquota Q) ++ newline ++ "bnd" ++ tab ++ vector_str (qbounds Q) ++ newline ++ answer_repr (qans Q))%string
    with ("x" ++ ("1)" ++ tab ++ "quota=sum(x)=") ++ str (qquota Q) ++ (newline ++ "bnd" ++ tab) ++ vector_str (qbounds Q) ++ newline ++ answer_repr (qans Q))%string
    by (rewrite <- !str_app_assoc; reflexivity).
  cbn [app]. apply closed_str; [reflexivity|]. change (1 :: ?l) with ([1] ++ l). apply closed_app; [reflexivity|].
  apply closed_str; [reflexivity|]. apply closed_app; [apply vector_closed; [reflexivity|lia]|]. apply (closed_silent newline); [reflexivity|].
  exact (answer_closed (qans Q) G6 G4).
Qed.
Lemma question_text_proof Q : legible Q -> numbers (question_repr Q) = question_numbers Q.
Proof. intros H. now apply closed_numbers, question_closed. Qed.

(** the numbers determine the question *)
Lemma app_cut {A} (a b c d : list A) : List.length a = List.length b -> a ++ c = b ++ d -> a = b /\ c = d.
Proof.
  revert b; induction a as [|x a IH]; intros [|y b] H E; try discriminate; [auto|]. cbn [app] in E. injection E as -> E.
  destruct (IH b) as [-> ->]; auto.
Qed.
Lemma equations_cut C : forall bs rows bs' rows' t t', List.length bs = List.length rows -> List.length bs' = List.length rows' -> List.length rows = List.length rows' ->
  (forall r, In r rows -> List.length r = C) -> (forall r, In r rows' -> List.length r = C) ->
  concat (map (fun ba : Z * list Z => fst ba :: snd ba) (combine bs rows)) ++ t = concat (map (fun ba : Z * list Z => fst ba :: snd ba) (combine bs' rows')) ++ t' ->
  bs = bs' /\ rows = rows' /\ t = t'.
Proof.
  induction bs as [|b bs IH]; intros [|r rows] [|b' bs'] [|r' rows'] t t' H1 H2 H3 R1 R2 E; try discriminate; [auto|].
  cbn [combine map concat fst snd app] in E. injection E as -> E. rewrite <- !app_assoc in E.
  apply app_cut in E; [|rewrite (R1 r), (R2 r') by (now left); reflexivity]. destruct E as [-> E].
  destruct (IH rows bs' rows' t t') as (-> & -> & ->); cbn [List.length] in *; auto; intros x Hx; [apply R1|apply R2]; now right.
Qed.
Lemma question_numbers_inj Q Q' : legible Q -> legible Q' -> question_numbers Q = question_numbers Q' -> Q = Q'.
Proof.
  destruct Q as [[C A] b qt bd [a lo le]], Q' as [[C' A'] b' qt' bd' [a' lo' le']].
  intros [G1 G2 G3 G4 G5 G6] [G1' G2' G3' G4' G5' G6'] E. unfold question_numbers in E. cbn [qA qb qquota qbounds qans av aloc alen mrows mcols] in *.
  cbn [app] in E. injection E as ER EC E. apply Nat2Z.inj in ER, EC. rewrite <- EC in G1', G3', E |- *. clear EC G5'.
  apply equations_cut with (C := C) in E; auto. destruct E as (-> & -> & E). injection E as -> E.
  apply app_cut in E; [|congruence]. destruct E as [-> E].
  assert (L : List.length a = List.length a').
  { pose proof (f_equal (@List.length Z) E) as F. rewrite !app_length in F. cbn [List.length] in F. rewrite !app_length, G4, G4' in F.
    destruct (Nat.eqb_spec (List.length a) 0), (Nat.eqb_spec (List.length a') 0); cbn [List.length] in F; lia. }
  apply app_cut in E; auto. destruct E as [-> E]. injection E as E. apply app_cut in E; [|congruence]. destruct E as [-> E].
  rewrite G4 in E. apply app_inv_head in E. injection E as ->. reflexivity.
Qed.
Lemma question_text_inj Q Q' : legible Q -> legible Q' -> question_repr Q = question_repr Q' -> Q = Q'.
Proof. intros H H' E. apply question_numbers_inj; auto. rewrite <- !question_text_proof by auto. now rewrite E. Qed.

(** more than 1000 buckets *)
Definition long_answer (x : Z) : answer :=
  Ans (repeat 0 500 ++ [x] ++ repeat 0 500) (map Z.of_nat (seq 0 (Z.to_nat 1001))) 1001.
Lemma long_text : answer_repr (long_answer 0) = answer_repr (long_answer 1) /\ long_answer 0 <> long_answer 1.
Proof. split; [vm_compute; reflexivity|]. intros E. apply (f_equal (fun a => nth 500 (av a) 0)) in E. vm_compute in E. discriminate. Qed.

(** ** well-formed questions are legible *)
Lemma sorted_room l y : forall x, StronglySorted Z.lt (x :: l ++ [y]) -> x + Z.of_nat (List.length l) < y.
Proof.
  induction l as [|z l IH]; intros x H; apply StronglySorted_inv in H; destruct H as [H F].
  - cbn [app List.length] in *. inversion F; subst. lia.
  - cbn [app List.length] in *. specialize (IH z H). inversion F; subst. lia.
Qed.
Lemma ok_legible Q : question_ok Q -> alen (qans Q) <= 1000 -> legible Q.
Proof.
  intros [H1 H2 H3 H4 [H5 _] (H6 & H7 & H8) H9] L. destruct H1 as [H1 H1'].
  assert (B : Z.of_nat (List.length (av (qans Q))) <= 1000).
  { rewrite H6. unfold edges in *. destruct (aloc (qans Q)) as [|x l]; [cbn; lia|]. cbn [app hd] in *. subst x.
    apply sorted_room in H8. cbn [List.length]. lia. }
  constructor; auto. rewrite <- H9. unfold open.
  assert (F : forall (f : nat -> bool) l, (List.length (filter f l) <= List.length l)%nat).
  { intros f l. induction l as [|a l IH]; cbn [filter List.length]; [auto|]. destruct (f a); cbn [List.length]; lia. }
  specialize (F (fun i => nth i (av (qans Q)) 0 =? -1) (seq 0 (List.length (av (qans Q))))). rewrite seq_length in F. lia.
Qed.

(** ** the layout of a 0/1 matrix is the one of [ModelPrint] *)
Lemma words_comma ws : forall st width i, words ", " st ws width i = row_words st ws width i.
Proof.
  induction ws as [|w ws IH]; intros st width i; [reflexivity|]. cbn [words row_words]. destruct ws as [|w' ws]; [reflexivity|].
  destruct (extend_line st w width i) as [s line]. apply IH.
Qed.
Lemma bit_str a : a = 0 \/ a = 1 -> pad 1 (str a) = digit a.
Proof. intros [->| ->]; reflexivity. Qed.
Lemma bits_extreme l : bits l -> (fold_right Z.max (hd 0 l) l = 0 \/ fold_right Z.max (hd 0 l) l = 1) /\ (fold_right Z.min (hd 0 l) l = 0 \/ fold_right Z.min (hd 0 l) l = 1).
Proof.
  intros H. assert (H0 : hd 0 l = 0 \/ hd 0 l = 1) by (destruct l as [|a l]; [now left|apply H; now left]).
  revert H0. generalize (hd 0 l). intros d Hd. induction l as [|a l IH]; cbn [fold_right]; [auto|].
  destruct IH as [A B]; [intros x Hx; apply H; now right|]. assert (Ha : a = 0 \/ a = 1) by (apply H; now left). lia.
Qed.
Lemma bits_width l : bits l -> entry_width l = 1%nat.
Proof. intros H. unfold entry_width. destruct (bits_extreme l H) as [[->| ->] [->| ->]]; reflexivity. Qed.
Lemma edge_in {A} b (l : list A) x : In x (edge b l) -> In x l.
Proof.
  unfold edge. destruct (_ && _)%bool; auto. intros H. apply in_app_iff in H. destruct H as [H|H].
  - rewrite <- (firstn_skipn 3 l). apply in_app_iff. now left.
  - rewrite <- (firstn_skipn (List.length l - 3) l). apply in_app_iff. now right.
Qed.
Lemma matrix_same m : mrows m <> [] -> mcols m <> 0%nat -> (forall r, In r (mrows m) -> bits r) -> matrix_repr_int8 m = array_repr m.
Proof.
  intros N1 N2 HB. unfold matrix_repr_int8, array_repr, with_dtype, matrix_text. cbv zeta.
  assert (N : (mnrows m * mcols m =? 0)%nat = false).
  { apply Nat.eqb_neq. unfold mnrows. destruct (mrows m); [congruence|]. cbn [List.length]. nia. }
  rewrite N. unfold format_matrix. set (sm := 1000 <? _).
  rewrite bits_width.
  2:{ intros x Hx. apply in_concat in Hx. destruct Hx as (r & Hr & Hx). apply in_map_iff in Hr. destruct Hr as (r0 & <- & Hr).
      apply edge_in in Hr. apply edge_in in Hx. exact (HB r0 Hr x Hx). }
  assert (E : map (row_text ", " 72 8 1 sm) (mrows m) = map (format_row sm) (mrows m)).
  { apply map_ext_in. intros r Hr. unfold row_text, format_row. cbv zeta. rewrite words_comma.
    replace (map (fun a => pad 1 (str a)) r) with (map digit r); [reflexivity|]. apply map_ext_in. intros a Ha. symmetry. apply bit_str. exact (HB r Hr a Ha). }
  rewrite E. reflexivity.
Qed.

(** ** debug *)
Lemma debug_result_proof tty name f Q : snd (debug_text tty name f Q) = debug f Q.
Proof.
  unfold debug_text, debug. destruct (question_copy Q) as [B| |]; try reflexivity. cbn [bind]. destruct (f Q) as [Q'| |]; try reflexivity. cbn [bind].
  destruct (invariant_check Q') as [[]| |e]; try reflexivity. destruct e; reflexivity.
Qed.
Lemma plain_general sep ws : plain sep = true -> forall st n i, plain (fst st) = true -> plain (snd st) = true -> (forall w, In w ws -> plain w = true) -> plain i = true ->
  plain (words sep st ws n i) = true.
Proof.
  intros Hsep. induction ws as [|w ws IH]; intros st n i Hs Hl Hw Hi; [apply plain_app_i; auto|].
  destruct (plain_extend st w n i Hs Hl (Hw w (or_introl eq_refl)) Hi) as [E1 E2].
  assert (Hw' : forall x, In x ws -> plain x = true) by (intros; apply Hw; now right).
  cbn [words]. destruct ws as [|w2 ws]; destruct (extend_line st w n i) as [s line]; cbn [fst snd] in *; [auto using plain_app_i|].
  apply IH; cbn [fst snd]; auto. apply plain_app_i; auto.
Qed.
Lemma plain_vector sep width n l : plain sep = true -> plain (vector_text sep width n l) = true.
Proof.
  intros H. unfold vector_text. destruct l as [|a l]; [reflexivity|]. cbv zeta. unfold row_text.
  apply plain_app_i; [reflexivity|]. apply plain_app_i; [|reflexivity]. apply plain_drop, plain_general; cbn [fst snd]; auto using plain_spaces.
  refine (plain_outer _ _ _). intros x Hx. apply in_map_iff in Hx. destruct Hx as (z & <- & _). unfold pad. apply plain_app_i; [apply plain_spaces|apply plain_str].
Qed.
Lemma plain_dtype s d : plain s = true -> plain d = true -> plain (with_dtype s d) = true.
Proof.
  intros A B. unfold with_dtype. destruct (75 <? _)%nat; repeat (apply plain_app_i; auto using plain_spaces).
Qed.
Lemma plain_int8 l : plain (vector_repr_int8 l) = true.
Proof. apply plain_dtype; [|reflexivity]. apply plain_app_i; [reflexivity|]. apply plain_app_i; [now apply plain_vector|reflexivity]. Qed.
Lemma plain_int64 l : plain (vector_repr_int64 l) = true.
Proof.
  unfold vector_repr_int64. destruct l; [reflexivity|]. apply plain_app_i; [reflexivity|]. apply plain_app_i; [now apply plain_vector|reflexivity].
Qed.
Lemma plain_answer a : plain (answer_repr a) = true.
Proof.
  unfold answer_repr.
  apply plain_app_i; [reflexivity|]. apply plain_app_i; [apply plain_int8|]. do 3 (apply plain_app_i; [reflexivity|]).
  apply plain_app_i; [apply plain_int64|]. apply plain_app_i; [reflexivity|]. apply plain_app_i; [apply plain_str|reflexivity].
Qed.
Lemma plain_question Q : plain (question_repr Q) = true.
Proof.
  unfold question_repr. cbv zeta. do 3 (apply plain_app_i; [reflexivity|]). apply plain_app_i; [apply plain_str|]. apply plain_app_i; [reflexivity|].
  apply plain_app_i; [apply plain_str|]. do 2 (apply plain_app_i; [reflexivity|]). apply plain_app_i.
  { apply plain_concat; [reflexivity|]. intros x Hx. apply in_map_iff in Hx. destruct Hx as ([b r] & <- & _). cbn [fst snd].
    apply plain_app_i; [apply plain_str|]. apply plain_app_i; [reflexivity|]. apply plain_app_i; [now apply plain_vector|reflexivity]. }
  do 3 (apply plain_app_i; [reflexivity|]). apply plain_app_i.
  { apply plain_concat; [reflexivity|]. intros x Hx. apply repeat_spec in Hx. now subst. }
  apply plain_app_i; [reflexivity|]. apply plain_app_i; [apply plain_str|]. do 3 (apply plain_app_i; [reflexivity|]).
  apply plain_app_i; [apply plain_str|]. do 3 (apply plain_app_i; [reflexivity|]). apply plain_app_i; [now apply plain_vector|].
  apply plain_app_i; [reflexivity|]. apply plain_answer.
Qed.
Lemma strip_blue s t : plain s = true -> strip_ansi (blue true s ++ t)%string = (s ++ newline ++ strip_ansi t)%string.
Proof.
  intros P. unfold blue, echo. rewrite !app_str_assoc. rewrite (strip_code (escape "34m")) by reflexivity. rewrite strip_plain by exact P.
  rewrite (strip_code (escape "0m")) by reflexivity. now rewrite strip_plain.
Qed.
Lemma strip_red s t : plain s = true -> strip_ansi (red true s ++ t)%string = (s ++ newline ++ strip_ansi t)%string.
Proof.
  intros P. unfold red, echo. rewrite !app_str_assoc. rewrite (strip_code (escape "31m")) by reflexivity. rewrite strip_plain by exact P.
  rewrite (strip_code (escape "0m")) by reflexivity. now rewrite strip_plain.
Qed.
Lemma blue_pipe s : plain s = true -> blue false s = (s ++ newline)%string.
Proof. intros H. pose proof (strip_blue s "" H) as E. change (strip_ansi "") with ""%string in E. rewrite !app_str_nil in E. exact E. Qed.
Lemma red_pipe s : plain s = true -> red false s = (s ++ newline)%string.
Proof. intros H. pose proof (strip_red s "" H) as E. change (strip_ansi "") with ""%string in E. rewrite !app_str_nil in E. exact E. Qed.
Lemma plain_performing name m : plain name = true -> plain m = true -> plain (quoted ("performing " ++ name ++ m)) = true.
Proof. intros A B. unfold quoted. repeat (apply plain_app_i; auto). Qed.
Lemma no_escape_plain s : no_escape s -> plain s = true.
Proof.
  unfold no_escape. induction s as [|c s IH]; cbn [list_ascii_of_string plain In]; auto. intros H.
  destruct (Ascii.eqb_spec c (ascii_of_nat 27)) as [E|_]; [exfalso; apply H; now left|]. apply IH. tauto.
Qed.
Lemma line_text name what : (quoted ("performing " ++ name ++ ". " ++ what) ++ newline)%string = debug_line name what.
Proof. unfold quoted, debug_line. rewrite !app_str_assoc. reflexivity. Qed.
Lemma check_cases Q : invariant_check Q = Ok tt \/ invariant_check Q = Raise AssertionError.
Proof.
  assert (A : forall c, assert_ c = Ok tt \/ assert_ c = Raise AssertionError) by (intros []; auto).
  unfold invariant_check. cbv zeta.
  do 5 (match goal with |- bind (assert_ ?c) _ = _ \/ _ => destruct (A c) as [->| ->]; [cbn [bind]|right; reflexivity] end).
  unfold answer_quota. match goal with |- bind (bind (assert_ ?c) _) _ = _ \/ _ => destruct (A c) as [->| ->]; [cbn [bind]|right; reflexivity] end.
  match goal with |- bind (assert_ ?c) _ = _ \/ _ => destruct (A c) as [->| ->]; [cbn [bind]|right; reflexivity] end.
  destruct (Nat.eqb _ 0); auto.
Qed.
Definition change (Q Q' : question) (name : string) : string :=
  (question_repr Q ++ newline ++ debug_line name "reduce to" ++ question_repr Q' ++ newline)%string.
Definition alarm (Q Q' : question) (name : string) : string :=
  (question_repr Q ++ newline ++ debug_line name "AssertionError!" ++ question_repr Q' ++ newline ++ newline)%string.
Lemma debug_pipe_proof name f Q Q' : no_escape name -> question_copy Q = Ok Q -> f Q = Ok Q' ->
  fst (debug_text false name f Q)
  = ((if question_eqb Q' Q then debug_line name "No change" else change Q Q' name)
     ++ (match debug f Q with Ok _ => "" | _ => alarm Q Q' name end))%string.
Proof.
  intros HN HC HF. apply no_escape_plain in HN.
  assert (B : forall what, plain what = true -> plain (quoted ("performing " ++ name ++ what)) = true) by (intros; now apply plain_performing).
  unfold debug_text, debug, change, alarm. rewrite HC, HF. cbn [bind].
  rewrite blue_pipe, green_pipe, red_pipe by (apply B; reflexivity).
  change (quoted ("performing " ++ name ++ ". No change") ++ newline)%string with (quoted ("performing " ++ name ++ ". " ++ "No change") ++ newline)%string.
  change (quoted ("performing " ++ name ++ ". reduce to") ++ newline)%string with (quoted ("performing " ++ name ++ ". " ++ "reduce to") ++ newline)%string.
  change (quoted ("performing " ++ name ++ ". AssertionError!") ++ newline)%string with (quoted ("performing " ++ name ++ ". " ++ "AssertionError!") ++ newline)%string.
  rewrite !line_text. destruct (check_cases Q') as [-> | ->]; cbn [bind fst].
  - now rewrite app_str_nil.
  - reflexivity.
Qed.
Lemma debug_silent_proof tty name f Q : (forall Q', f Q <> Ok Q') -> fst (debug_text tty name f Q) = EmptyString.
Proof.
  intros H. unfold debug_text. destruct (question_copy Q); try reflexivity. destruct (f Q) as [Q'| |]; try reflexivity. exfalso. now apply (H Q').
Qed.
Lemma debug_terminal_proof name f Q : no_escape name -> strip_ansi (fst (debug_text true name f Q)) = fst (debug_text false name f Q).
Proof.
  intros HN. apply no_escape_plain in HN.
  assert (B : forall what, plain what = true -> plain (quoted ("performing " ++ name ++ what)) = true) by (intros; now apply plain_performing).
  assert (PQ : forall X t, strip_ansi (question_repr X ++ t)%string = (question_repr X ++ strip_ansi t)%string) by (intros; apply strip_plain, plain_question).
  assert (PN : forall t, strip_ansi (newline ++ t)%string = (newline ++ strip_ansi t)%string) by (intros; now apply strip_plain).
  assert (PE : strip_ansi newline = newline) by reflexivity.
  unfold debug_text. destruct (question_copy Q) as [X| |]; try reflexivity. destruct (f Q) as [Q'| |]; try reflexivity. cbv zeta.
  rewrite !blue_pipe, !green_pipe, !red_pipe by (apply B; reflexivity).
  assert (S : forall t, strip_ansi ((if question_eqb Q' X then blue true (quoted ("performing " ++ name ++ ". No change"))
            else (question_repr X ++ newline ++ green true (quoted ("performing " ++ name ++ ". reduce to")) ++ question_repr Q' ++ newline)) ++ t)%string
    = ((if question_eqb Q' X then quoted ("performing " ++ name ++ ". No change") ++ newline
        else (question_repr X ++ newline ++ (quoted ("performing " ++ name ++ ". reduce to") ++ newline) ++ question_repr Q' ++ newline)) ++ strip_ansi t)%string).
  { intros t. destruct (question_eqb Q' X).
    - rewrite strip_blue by (apply B; reflexivity). now rewrite app_str_assoc.
    - rewrite !app_str_assoc, PQ, PN, strip_green, PQ, PN by (apply B; reflexivity). reflexivity. }
  destruct (check_cases Q') as [-> | ->]; cbn [fst].
  - specialize (S ""%string). change (strip_ansi "") with ""%string in S. rewrite !app_str_nil in S. exact S.
  - rewrite S. f_equal. rewrite PQ, PN, strip_red, PQ, PN, PE by (apply B; reflexivity). now rewrite !app_str_assoc.
Qed.
Lemma debug_numbers_proof name f Q Q' : no_escape name -> legible Q -> legible Q' -> question_copy Q = Ok Q -> f Q = Ok Q' -> Q' <> Q -> debug f Q = Ok Q' ->
  numbers (fst (debug_text false name f Q)) = question_numbers Q ++ numbers name ++ question_numbers Q'.
Proof.
  intros HN L L' HC HF HD HR. rewrite (debug_pipe_proof name f Q Q') by auto. rewrite HR, app_str_nil.
  destruct (question_eqb Q' Q) eqn:E; [apply question_eqb_spec in E; contradiction|].
  apply closed_numbers. unfold change. apply closed_app; [now apply question_closed|]. apply (closed_silent newline); [reflexivity|].
  apply closed_app; [|rewrite <- (app_nil_r (question_numbers Q')); apply closed_app; [now apply question_closed|reflexivity]].
  unfold debug_line. apply (closed_silent "'performing "); [reflexivity|]. now apply piece.
Qed.
Lemma self_texts_proof :
  self_srg_text = Ok (String.concat newline
    ["matrix form"; "[[0 1 1 1 1 1 1 0 0 0]"; " [1 0 1 1 1 0 0 1 1 0]]"; "transform into problem space";
     "b" ++ tab ++ "A_(3x7)"; "2" ++ tab ++ "[1 1 1 1 0 0 0]"; "2" ++ tab ++ "[1 1 0 0 1 1 0]"; "4" ++ tab ++ "[1 1 1 1 1 1 1]";
     "x=" ++ tab ++ "[? ? ? ? ? ? ?]_(7x1)" ++ tab ++ "quota=sum(x)=4"; "bnd" ++ tab ++ "[1 1 1 1 1 1 1]";
     "Answer(value=array([-1, -1, -1, -1, -1, -1, -1], dtype=int8), "; "    location=array([0, 1, 2, 3, 4, 5, 6]), len=7)"; ""])%string
  /\ self_unique_text = Ok (String.concat newline
    ["[[1 1 0 0]"; " [1 0 1 0]"; " [1 1 1 1]]"; "bounds [2 2 2 1]"; "unique_loc [0 2 4 6]";
     "[[1 1 1 1 0 0 0]"; " [1 1 0 0 1 1 0]"; " [1 1 1 1 1 1 1]]"; ""])%string.
Proof. split; vm_compute; reflexivity. Qed.
(** the examples in the documentation of [Question.__repr__] (srg/srg.py:113-124) *)
Lemma docstring_answer : answer_repr (Ans [0; -1; 0; 0; -1] [0; 4; 8; 12; 16] 20)
  = ("Answer(value=array([ 0, -1,  0,  0, -1], dtype=int8), " ++ newline ++ "    location=array([ 0,  4,  8, 12, 16]), len=20)")%string.
Proof. vm_compute. reflexivity. Qed.

(** ** no line is too long *)
Fixpoint fits (n k : nat) (s : string) : Prop :=
  match s with
  | EmptyString => (k <= n)%nat
  | String c t => if Ascii.eqb c (ascii_of_nat 10) then (k <= n)%nat /\ fits n 0 t else fits n (S k) t
  end.
Lemma lines_some s : exists x r, lines s = x :: r.
Proof. destruct s as [|c s]; cbn [lines]; [eauto|]. destruct (Ascii.eqb c _); [eauto|]. destruct (lines s); eauto. Qed.
Lemma fits_lines n s : forall k, fits n k s -> exists x r, lines s = x :: r /\ (k + String.length x <= n)%nat /\ forall y, In y r -> (String.length y <= n)%nat.
Proof.
  induction s as [|c s IH]; intros k; cbn [fits lines].
  - intros H. exists EmptyString, []. cbn. split; [reflexivity|]. split; [lia|easy].
  - destruct (Ascii.eqb c (ascii_of_nat 10)).
    + intros [H1 H2]. exists EmptyString, (lines s). cbn [String.length]. split; [reflexivity|]. split; [lia|].
      destruct (IH _ H2) as (x & r & -> & A & B). intros y [<-|Hy]; auto.
    + intros H. destruct (IH _ H) as (x & r & -> & A & B). exists (String c x), r. cbn [String.length]. split; [reflexivity|]. split; [lia|auto].
Qed.
Lemma fits_all n s x : fits n 0 s -> In x (lines s) -> (String.length x <= n)%nat.
Proof. intros H Hx. destruct (fits_lines _ _ _ H) as (y & r & E & A & B). rewrite E in Hx. destruct Hx as [<-|Hx]; auto. Qed.
Fixpoint unbroken (s : string) : bool :=
  match s with EmptyString => true | String c t => if Ascii.eqb c (ascii_of_nat 10) then false else unbroken t end.
Lemma fits_unbroken n p t : unbroken p = true -> forall k, fits n k (p ++ t)%string <-> fits n (k + String.length p) t.
Proof.
  induction p as [|c p IH]; cbn [unbroken append String.length]; intros H k; [now rewrite Nat.add_0_r|]. cbn [fits].
  destruct (Ascii.eqb c (ascii_of_nat 10)); [discriminate|]. rewrite IH by auto. now replace (S k + String.length p)%nat with (k + S (String.length p))%nat by lia.
Qed.
Lemma unbroken_app s t : unbroken s = true -> unbroken t = true -> unbroken (s ++ t)%string = true.
Proof. induction s as [|c s IH]; cbn [append unbroken]; auto. destruct (Ascii.eqb c _); auto. Qed.
Lemma unbroken_rstrip s : unbroken s = true -> unbroken (rstrip s) = true.
Proof.
  induction s as [|c s IH]; cbn [unbroken rstrip]; auto. destruct (Ascii.eqb c (ascii_of_nat 10)) eqn:E; [discriminate|]. intros H. specialize (IH H).
  destruct (rstrip s) as [|d s']; [destruct (Ascii.eqb c " "); [reflexivity|]; cbn [unbroken]; now rewrite E|].
  cbn [unbroken] in IH |- *. now rewrite E.
Qed.
Lemma unbroken_spaces n : unbroken (spaces n) = true.
Proof. induction n; auto. Qed.
Lemma unbroken_uint d : unbroken (NilEmpty.string_of_uint d) = true.
Proof. induction d; auto. Qed.
Lemma unbroken_str z : unbroken (str z) = true.
Proof.
  unfold str, NilZero.string_of_int, NilZero.string_of_uint. destruct (Z.to_int z) as [d|d]; destruct d; try reflexivity; cbn; apply unbroken_uint.
Qed.
Lemma rstrip_short s : (String.length (rstrip s) <= String.length s)%nat.
Proof. induction s as [|c s IH]; cbn [rstrip]; auto. destruct (rstrip s); [destruct (Ascii.eqb c " ")|]; cbn [String.length] in *; lia. Qed.
Lemma rstrip_blank x y : rstrip y = EmptyString -> rstrip (x ++ y)%string = rstrip x.
Proof. intros H. induction x as [|c x IH]; cbn [append]; [auto|]. cbn [rstrip]. now rewrite IH. Qed.
Lemma rstrip_sep x sep : (String.length (rstrip (x ++ sep)) <= String.length x + String.length (rstrip sep))%nat.
Proof.
  destruct (rstrip sep) as [|c t] eqn:E.
  - rewrite rstrip_blank by auto. pose proof (rstrip_short x). cbn [String.length]. lia.
  - rewrite rstrip_app by congruence. rewrite length_append, E. lia.
Qed.
Fixpoint glue (ls : list string) : string :=
  match ls with [] => EmptyString | x :: r => (x ++ newline ++ glue r)%string end.
Lemma glue_app a b : glue (a ++ b) = (glue a ++ glue b)%string.
Proof. induction a as [|x a IH]; cbn [app glue]; [reflexivity|]. rewrite IH. now rewrite !app_str_assoc. Qed.
Lemma glue_fits n ls t : (forall x, In x ls -> unbroken x = true /\ (String.length x <= n)%nat) -> fits n 0 t -> fits n 0 (glue ls ++ t)%string.
Proof.
  induction ls as [|x ls IH]; intros H Ht; [exact Ht|]. cbn [glue]. rewrite !app_str_assoc. destruct (H x) as [A B]; [now left|].
  rewrite fits_unbroken by auto. cbn. split; [lia|]. apply IH; auto. intros y Hy. apply H. now right.
Qed.
Section widths.
  Variables (sep : string) (width n m : nat).
  Hypothesis Hsep : unbroken sep = true.
  Hypothesis Hcomma : (String.length (rstrip sep) <= 1)%nat.
  Hypothesis Hm : (n + m <= width)%nat.
  Lemma words_fit ws : ws <> [] -> forall ls line, (forall w, In w ws -> unbroken w = true /\ (String.length w <= m)%nat) ->
    (forall x, In x ls -> unbroken x = true /\ (String.length x <= S width)%nat) ->
    unbroken line = true -> (String.length (rstrip line) <= S width)%nat ->
    exists ls' line', words sep (glue ls, line) ws width (spaces n) = (glue ls' ++ line')%string
      /\ (forall x, In x ls' -> unbroken x = true /\ (String.length x <= S width)%nat) /\ unbroken line' = true /\ (String.length line' <= width)%nat.
  Proof.
    induction ws as [|w ws IH]; intros Hne ls line Hw Hls U L; [congruence|].
    destruct (Hw w) as [Uw Lw]; [now left|].
    assert (E : exists ls' line', extend_line (glue ls, line) w width (spaces n) = (glue ls', line')
      /\ (forall x, In x ls' -> unbroken x = true /\ (String.length x <= S width)%nat) /\ unbroken line' = true /\ (String.length line' <= width)%nat).
    { unfold extend_line. rewrite length_spaces. destruct ((width <? String.length line + String.length w)%nat && (n <? String.length line)%nat) eqn:EW.
      - exists (ls ++ [rstrip line]), (spaces n ++ w)%string. split; [|split; [|split]].
        + rewrite glue_app. cbn [glue]. now rewrite app_str_nil.
        + intros x Hx. apply in_app_iff in Hx. destruct Hx as [Hx|[<-|[]]]; auto. split; [now apply unbroken_rstrip|exact L].
        + apply unbroken_app; [apply unbroken_spaces|auto].
        + rewrite length_append, length_spaces. lia.
      - exists ls, (line ++ w)%string. split; [reflexivity|]. split; [auto|]. split; [now apply unbroken_app|]. rewrite length_append. lia. }
    destruct E as (ls' & line' & E & A & B & C). cbn [words]. rewrite E.
    destruct ws as [|w' ws]; [eauto 6|]. apply IH; auto.
    - discriminate.
    - intros x Hx. apply Hw. now right.
    - now apply unbroken_app.
    - pose proof (rstrip_sep line' sep). lia.
  Qed.
End widths.
Lemma length_pad w s : String.length (pad w s) = Nat.max w (String.length s).
Proof. unfold pad. rewrite length_append, length_spaces. lia. Qed.
Lemma fits_last n d : unbroken d = true -> forall s k, fits n k s -> (last_line k s + String.length d <= n)%nat -> fits n k (s ++ d)%string.
Proof.
  intros U. induction s as [|c s IH]; intros k H L; cbn [append fits last_line] in *.
  - rewrite <- (app_str_nil d), fits_unbroken by auto. cbn. lia.
  - destruct (Ascii.eqb c (ascii_of_nat 10)); [destruct H; split|]; auto.
Qed.
Lemma fits_more n m s : (n <= m)%nat -> forall k, fits n k s -> fits m k s.
Proof.
  intros L. induction s as [|c s IH]; intros k H; cbn [fits] in *; [lia|]. destruct (Ascii.eqb c _); [destruct H; split; [lia|auto]|auto].
Qed.
Lemma extreme_in l : l <> [] -> In (fold_right Z.max (hd 0 l) l) l /\ In (fold_right Z.min (hd 0 l) l) l.
Proof.
  intros H. assert (H0 : In (hd 0 l) l) by (destruct l; [congruence|now left]). 
  assert (G : forall d l, (fold_right Z.max d l = d \/ In (fold_right Z.max d l) l) /\ (fold_right Z.min d l = d \/ In (fold_right Z.min d l) l)).
  { intros d l'. induction l' as [|a l' IH]; cbn [fold_right In]; [auto|]. destruct IH as [A B]. split.
    - destruct (Z.max_spec a (fold_right Z.max d l')) as [[_ ->]|[_ ->]]; tauto.
    - destruct (Z.min_spec a (fold_right Z.min d l')) as [[_ ->]|[_ ->]]; tauto. }
  destruct (G (hd 0 l) l) as [[E|A] [F|B]]; split; auto; congruence.
Qed.
Lemma width_le m l : l <> [] -> (forall a, In a l -> (String.length (str a) <= m)%nat) -> (entry_width l <= m)%nat.
Proof. intros N H. destruct (extreme_in l N) as [A B]. apply H in A, B. unfold entry_width. lia. Qed.
Lemma edge_nonempty {A} b (l : list A) : l <> [] -> edge b l <> [].
Proof. intros H. unfold edge. destruct (_ && _)%bool; auto. destruct l as [|x l]; [congruence|discriminate]. Qed.
Lemma outer_in b ws w : In w (outer_items b ws) -> w = "..."%string \/ In w ws.
Proof.
  unfold outer_items. destruct (_ && _)%bool; auto. intros H. apply in_app_iff in H. destruct H as [H|[<-|H]]; auto; right.
  - rewrite <- (firstn_skipn 3 ws). apply in_app_iff. now left.
  - rewrite <- (firstn_skipn (List.length ws - 3) ws). apply in_app_iff. now right.
Qed.
Lemma outer_nonempty b ws : ws <> [] -> outer_items b ws <> [].
Proof. intros H. unfold outer_items. destruct (_ && _)%bool; auto. destruct ws as [|x ws]; [congruence|discriminate]. Qed.
Lemma vector_fits sep width n m l p : quiet sep = true -> unbroken sep = true -> (String.length (rstrip sep) <= 1)%nat -> unbroken p = true -> S (String.length p) = n ->
  (3 <= m)%nat -> (n + m <= width)%nat -> (forall a, In a l -> (String.length (str a) <= m)%nat) -> fits (S width) 0 (p ++ vector_text sep width n l)%string.
Proof.
  intros Hq Hs Hc Up Lp H3 Hm Hl. destruct l as [|a0 l0] eqn:El.
  { rewrite fits_unbroken by auto. cbn. lia. }
  rewrite <- El in *. assert (Nl : l <> []) by (rewrite El; discriminate). unfold vector_text. rewrite El, <- El. cbv zeta.
  set (b := 1000 <? _). set (w := entry_width _). unfold row_text. set (ws := outer_items b (map (fun a => pad w (str a)) l)).
  assert (Lw : (w <= m)%nat).
  { apply width_le; [now apply edge_nonempty|]. intros a Ha. apply Hl. eapply edge_in; exact Ha. }
  assert (Nw : ws <> []) by (apply outer_nonempty; rewrite El; discriminate).
  assert (W : forall x, In x ws -> rstrip x <> EmptyString /\ unbroken x = true /\ (String.length x <= m)%nat).
  { intros x Hx. apply outer_in in Hx. destruct Hx as [->|Hx]; [cbn; split; [discriminate|auto]|].
    apply in_map_iff in Hx. destruct Hx as (a & <- & Ha). split; [apply pad_full|]. split; [apply unbroken_app; [apply unbroken_spaces|apply unbroken_str]|].
    rewrite length_pad. specialize (Hl a Ha). lia. }
  destruct (words_closed sep width n Hq ws Nw (EmptyString, spaces n) [] "]"%string) as (z & Ez & _).
  { intros x Hx. now apply W. } { now left. } { apply silent_closed, silent_spaces. } { reflexivity. }
  destruct (words_fit sep width n m Hs Hc Hm ws Nw [] (spaces n)) as (ls & line & E & A & B & C).
  { intros x Hx. now apply W. } { intros x []. } { apply unbroken_spaces. } { pose proof (rstrip_short (spaces n)). rewrite length_spaces in *. lia. }
  cbn [glue] in E. rewrite Ez in E. rewrite Ez, drop_spaces. rewrite fits_unbroken by auto. change ("[" ++ z ++ "]")%string with (String "[" (z ++ "]")). cbn [fits].
  change (Ascii.eqb "[" (ascii_of_nat 10)) with false. cbv iota. rewrite Nat.add_0_l, Lp.
  assert (G : fits (S width) 0 (spaces n ++ (z ++ "]"))%string).
  { rewrite <- app_str_assoc, E, app_str_assoc. apply glue_fits; auto. rewrite fits_unbroken by auto. cbn. lia. }
  rewrite fits_unbroken, length_spaces in G by apply unbroken_spaces. exact G.
Qed.
Lemma dtype_fits s d : fits 75 0 s -> unbroken d = true -> (6 + String.length d <= 75)%nat -> fits 75 0 (with_dtype s d).
Proof.
  intros H U L. unfold with_dtype. destruct (Nat.ltb_spec 75 (last_line 0 s + String.length d + 1)).
  - assert (G : forall s k, fits 75 k s -> forall t, fits 75 0 t -> fits 75 k (s ++ newline ++ t)%string).
    { clear. induction s as [|c s IH]; intros k H t Ht; cbn [append fits] in *; [cbn; auto|]. destruct (Ascii.eqb c (ascii_of_nat 10)); [destruct H; split|]; auto. }
    apply G; auto. rewrite fits_unbroken by apply unbroken_spaces. rewrite <- (app_str_nil d), fits_unbroken by auto. cbn. cbn in L. lia.
  - apply (fits_last 75 (" " ++ d)); auto. cbn [append String.length]. lia.
Qed.
Lemma last_line_le n s : forall k, fits n k s -> (last_line k s <= n)%nat.
Proof.
  induction s as [|c s IH]; intros k H; cbn [fits last_line] in *; auto. destruct (Ascii.eqb c (ascii_of_nat 10)); [destruct H|]; auto.
Qed.
Lemma vector_lines_proof l x : (forall a, In a l -> (String.length (str a) <= 66)%nat) ->
  In x (lines (vector_str l)) \/ In x (lines (vector_repr_int8 l)) \/ In x (lines (vector_repr_int64 l)) -> (String.length x <= 75)%nat.
Proof.
  intros Hl.
  assert (A : fits 75 0 (vector_str l)).
  { apply (vector_fits " " 74 1 66 l EmptyString); auto; cbn; lia. }
  assert (B : fits 74 0 ("array(" ++ vector_text ", " 73 7 l)%string).
  { apply (vector_fits ", " 73 7 66 l "array("); auto; cbn; lia. }
  assert (C : forall c, unbroken c = true -> String.length c = 1%nat -> fits 75 0 ("array(" ++ vector_text ", " 73 7 l ++ c)%string).
  { intros c U L. rewrite <- app_str_assoc. apply fits_last; auto; [now apply (fits_more 74); [lia|]|]. pose proof (last_line_le _ _ _ B). lia. }
  intros [H|[H|H]]; refine (fits_all 75 _ x _ H); auto.
  - apply dtype_fits; [apply C; reflexivity|reflexivity|cbn; lia].
  - unfold vector_repr_int64. destruct l as [|a l]; [apply dtype_fits; [apply C; reflexivity|reflexivity|cbn; lia]|]. apply C; reflexivity.
Qed.
Lemma limit_proof : exists a a', a <> a' /\ Z.of_nat (List.length (av a)) = 1001 /\ answer_repr a = answer_repr a'.
Proof. exists (long_answer 0), (long_answer 1). destruct long_text. split; [auto|]. split; [reflexivity|auto]. Qed.
Lemma debug_both_proof tty name f Q : snd (debug_text tty name f Q) = debug f Q
  /\ ((forall Q', f Q <> Ok Q') -> fst (debug_text tty name f Q) = EmptyString).
Proof. split; [apply debug_result_proof|apply debug_silent_proof]. Qed.
Lemma repr_example : vector_str (repeat 12 25) = ("[" ++ String.concat " " (repeat "12" 24) ++ newline ++ " 12]")%string
  /\ vector_repr_int8 (repeat (-1) 18) = ("array([" ++ String.concat ", " (repeat "-1" 17) ++ "," ++ newline ++ "       -1], dtype=int8)")%string
  /\ exists m Q Q', seed 10 6 3 4 = Ok m /\ from_matrix m = Ok Q /\ reduce_col Q = Ok Q' /\ legible Q /\ legible Q' /\ Q' <> Q
       /\ question_copy Q = Ok Q /\ debug reduce_col Q = Ok Q' /\ no_escape "reduce_col".
Proof.
  split; [vm_compute; reflexivity|]. split; [vm_compute; reflexivity|].
  eexists. eexists. eexists. split; [vm_compute; reflexivity|]. split; [vm_compute; reflexivity|]. split; [vm_compute; reflexivity|].
  split; [constructor; try (vm_compute; congruence); intros r Hr; repeat (destruct Hr as [<-|Hr]; [reflexivity|]); easy|].
  split; [constructor; try (vm_compute; congruence); intros r Hr; repeat (destruct Hr as [<-|Hr]; [reflexivity|]); easy|].
  split; [discriminate|]. split; [vm_compute; reflexivity|]. split; [vm_compute; reflexivity|].
  unfold no_escape. vm_compute. intuition discriminate.
Qed.
