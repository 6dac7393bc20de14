(** The program on every command line with at most 67 vertices (C74, C82). *)
From Coq Require Import String.
From Verif Require Import Np ModelGauss Model ModelSort ModelUtil ModelPrint Spec SortSpec PrintSpec Lib SortFacts Graph NumeralSpec Numeral PrintProps Layout Outside AnyArgs.
From Coq Require Import Sorting.Permutation.
Local Open Scope list_scope.
Local Open Scope Z_scope.

Lemma any_line_proof v k l u a b c d : numeral a (Z.of_nat v) -> numeral b k -> numeral c l -> numeral d u ->
  (3 <= v <= 67)%nat -> (Z.of_nat v - k - 1) * u = k * (k - l - 1) ->
  exists ms, main_output (Z.of_nat v) k l u = Ok ms
  /\ main_program [a; b; c; d]
     = Ok (str (Z.of_nat v) ++ " " ++ str k ++ " " ++ str l ++ " " ++ str u ++ eol ++ "'*********** answers *************'" ++ eol
           ++ String.concat "" (map (fun m => layout v (mrows m) ++ eol) ms))%string.
Proof.
  intros A B C D Hv He. rewrite (arguments _ _ _ _ _ _ _ _ A B C D).
  destruct (any_arguments_proof v k l u Hv He) as (ms & E & _ & HM). exists (sort_matrices ms).
  assert (E2 : main_output (Z.of_nat v) k l u = Ok (sort_matrices ms)) by (unfold main_output; now rewrite E). split; [auto|].
  unfold main_text. rewrite E2. cbn [bind]. f_equal. unfold heading. rewrite (answers_layout v).
  - rewrite <- !str_app_assoc. reflexivity.
  - lia.
  - intros m Hm. apply (Permutation_in _ (sort_perm ms)) in Hm.
    destruct (HM m Hm) as (X & _ & [[Y _]|[_ [Y _]]]); split; auto. apply Y.
Qed.

Lemma every_line_proof argv : (forall a t v, argv = a :: t -> numeral a v -> v <= 67) ->
  (exists t, main_program argv = Ok t) \/ main_program argv = Raise ValueError
  \/ main_program argv = Raise AssertionError \/ main_program argv = Raise IndexError.
Proof.
  intros H. destruct (mapM_int argv) as [(zs & E)|E]; [|right; left; unfold main_program; now rewrite E].
  assert (HL := mapM_length _ _ _ E). destruct (Nat.eq_dec (List.length argv) 4) as [L|L].
  2:{ right. left. apply bad_arguments_proof. now left. }
  destruct argv as [|a [|b [|c [|d [|? ?]]]]]; try discriminate L. destruct zs as [|v [|k [|l [|u [|? ?]]]]]; try discriminate HL.
  assert (Hv : v <= 67).
  { apply (H a [b; c; d] v eq_refl). apply int_of_numeral. cbn [mapM] in E. destruct (int_of a) as [x| |]; try discriminate E. cbn [bind] in E.
    do 3 (match type of E with context [bind (int_of ?s) _] => destruct (int_of s); try discriminate E; cbn [bind] in E end). injection E as -> _ _ _. reflexivity. }
  unfold main_program. rewrite E. unfold main_text, main_output.
  pose proof (outcome_any_proof v k l u Hv) as O. destruct (_ =? _); [|rewrite O; auto].
  destruct (v <? 3).
  - rewrite O. destruct (v <? 0); [auto|]. destruct (v <? 2); auto.
  - destruct O as (ms & ->). cbn [bind]. left. eauto.
Qed.
