(** The text on a terminal and in a pipe (C88). *)
From Coq Require Import String Ascii.
From Verif Require Import Np Model ModelSort ModelUtil ModelPrint ModelScreen Lib Layout TotalProps.
From Coq Require Import ZifyBool ZifyNat.
Import ListNotations.
Local Open Scope string_scope.

(** ** texts without escape characters *)
Fixpoint plain (s : string) : bool :=
  match s with EmptyString => true | String c t => negb (Ascii.eqb c (ascii_of_nat 27)) && plain t end.
Lemma app_str_assoc a b c : (a ++ b) ++ c = a ++ (b ++ c).
Proof. induction a as [|x a IH]; cbn; [reflexivity|now rewrite IH]. Qed.
Lemma app_str_nil a : a ++ "" = a.
Proof. induction a as [|x a IH]; cbn; [reflexivity|now rewrite IH]. Qed.
Lemma plain_app a b : plain (a ++ b) = (plain a && plain b)%bool.
Proof. induction a as [|c a IH]; cbn [append plain]; [reflexivity|]. rewrite IH. now rewrite andb_assoc. Qed.
Lemma plain_app_i a b : plain a = true -> plain b = true -> plain (a ++ b) = true.
Proof. rewrite plain_app. now intros -> ->. Qed.
Lemma plain_spaces n : plain (spaces n) = true.
Proof. induction n; auto. Qed.
Lemma plain_drop n : forall s, plain s = true -> plain (drop n s) = true.
Proof. induction n as [|n IH]; intros [|c s] H; auto. cbn [drop]. apply IH. cbn [plain] in H. now apply andb_true_iff in H. Qed.
Lemma plain_rstrip s : plain s = true -> plain (rstrip s) = true.
Proof.
  induction s as [|c s IH]; intros H; [reflexivity|]. cbn [plain] in H. apply andb_true_iff in H. destruct H as [H1 H2]. specialize (IH H2).
  cbn [rstrip]. destruct (rstrip s) as [|d t]; [destruct (Ascii.eqb c " "%char); cbn [plain]; now rewrite ?H1|]. cbn [plain] in *. now rewrite H1.
Qed.
Lemma plain_extend st w n i : plain (fst st) = true -> plain (snd st) = true -> plain w = true -> plain i = true ->
  plain (fst (extend_line st w n i)) = true /\ plain (snd (extend_line st w n i)) = true.
Proof.
  destruct st as [s line]. cbn [fst snd]. intros Hs Hl Hw Hi. unfold extend_line. destruct (_ && _)%bool; cbn [fst snd]; split; auto using plain_app_i, plain_rstrip.
Qed.
Lemma plain_words ws : forall st n i, plain (fst st) = true -> plain (snd st) = true -> (forall w, In w ws -> plain w = true) -> plain i = true ->
  plain (row_words st ws n i) = true.
Proof.
  induction ws as [|w ws IH]; intros st n i Hs Hl Hw Hi; [apply plain_app_i; auto|].
  destruct (plain_extend st w n i Hs Hl (Hw w (or_introl eq_refl)) Hi) as [E1 E2].
  assert (Hw' : forall x, In x ws -> plain x = true) by (intros; apply Hw; now right).
  cbn [row_words]. destruct ws as [|w2 ws]; destruct (extend_line st w n i) as [s line]; cbn [fst snd] in *; [auto using plain_app_i|].
  apply IH; cbn [fst snd]; auto. apply plain_app_i; auto.
Qed.
Lemma plain_concat sep l : plain sep = true -> (forall x, In x l -> plain x = true) -> plain (String.concat sep l) = true.
Proof.
  intros Hs. induction l as [|x l IH]; intros H; [reflexivity|]. cbn [String.concat]. destruct l as [|y l]; [apply H; now left|].
  apply plain_app_i; [apply H; now left|]. apply plain_app_i; [exact Hs|]. apply IH. intros z Hz. apply H. now right.
Qed.
Lemma plain_outer b l : (forall x, In x l -> plain x = true) -> forall x, In x (outer_items b l) -> plain x = true.
Proof.
  intros H x Hx. unfold outer_items in Hx. destruct (_ && _)%bool; [|auto]. apply in_app_iff in Hx. destruct Hx as [Hx|Hx].
  - apply H. rewrite <- (firstn_skipn 3 l). apply in_or_app. now left.
  - apply in_app_iff in Hx. destruct Hx as [[<-|[]]|Hx]; [reflexivity|]. apply H. rewrite <- (firstn_skipn (List.length l - 3) l). apply in_or_app. now right.
Qed.
Lemma plain_row b row : plain (format_row b row) = true.
Proof.
  unfold format_row. cbv zeta. apply plain_app_i; [reflexivity|]. apply plain_app_i; [|reflexivity]. apply plain_drop, plain_words; auto using plain_spaces.
  apply plain_outer. intros x Hx. apply in_map_iff in Hx. destruct Hx as (a & <- & _). unfold digit. destruct (Z.eqb a 0); reflexivity.
Qed.
Lemma plain_matrix b rows : plain (format_matrix b rows) = true.
Proof.
  unfold format_matrix. cbv zeta. apply plain_app_i; [reflexivity|]. apply plain_app_i; [|reflexivity]. apply plain_drop, plain_concat; [reflexivity|].
  intros x Hx. apply in_map_iff in Hx. destruct Hx as (y & <- & Hy). apply plain_app_i; [apply plain_spaces|].
  revert y Hy. apply plain_outer. intros y Hy. apply in_map_iff in Hy. destruct Hy as (row & <- & _). apply plain_row.
Qed.
Lemma plain_repr m : plain (array_repr m) = true.
Proof.
  unfold array_repr. cbv zeta. set (s := "array(" ++ _ ++ ","). assert (Hs : plain s = true) by (apply plain_app_i; [reflexivity|apply plain_app_i; [apply plain_matrix|reflexivity]]).
  destruct (_ <? _)%nat; apply plain_app_i; auto.
Qed.
Lemma plain_uint d : plain (DecimalString.NilZero.string_of_uint d) = true.
Proof.
  unfold DecimalString.NilZero.string_of_uint.
  assert (H : forall d, plain (DecimalString.NilEmpty.string_of_uint d) = true) by (induction d0; cbn; auto). destruct d; [reflexivity|..]; exact (H _).
Qed.
Lemma plain_str z : plain (str z) = true.
Proof. unfold str. destruct (Z.to_int z); cbn [DecimalString.NilZero.string_of_int plain]; rewrite ?plain_uint; reflexivity. Qed.
Lemma plain_first v k l u : plain (first_line v k l u) = true.
Proof. unfold first_line. repeat (apply plain_app_i; [first [apply plain_str|reflexivity]|]). reflexivity. Qed.

(** ** removing the codes *)
Lemma after_parameters_shorter s t : after_parameters s = Some t -> (String.length t < String.length s)%nat.
Proof.
  induction s as [|c s IH]; cbn [after_parameters]; [discriminate|]. destruct (is_parameter c); [intros H; apply IH in H; cbn; lia|].
  destruct (is_letter c); [|discriminate]. intros H. injection H as <-. cbn. lia.
Qed.
Lemma after_sequence_shorter s t : after_sequence s = Some t -> (String.length t < String.length s)%nat.
Proof.
  destruct s as [|c [|d s]]; cbn [after_sequence]; try discriminate. destruct (_ && _)%bool; [|discriminate]. intros H. apply after_parameters_shorter in H. cbn. lia.
Qed.
Lemma strip_from_fuel : forall n s m, (String.length s <= n)%nat -> (String.length s <= m)%nat -> strip_from n s = strip_from m s.
Proof.
  induction n as [|n IH]; intros [|c t] m Hn Hm; cbn [String.length] in *; try lia.
  - now destruct m.
  - now destruct m.
  - destruct m as [|m]; [lia|]. cbn [strip_from]. destruct (after_sequence (String c t)) as [t'|] eqn:E.
    + apply after_sequence_shorter in E. cbn [String.length] in E. apply IH; lia.
    + f_equal. apply IH; lia.
Qed.
Lemma strip_code a s : after_sequence (a ++ s) = Some s -> strip_ansi (a ++ s) = strip_ansi s.
Proof.
  intros H. pose proof (after_sequence_shorter _ _ H) as L. unfold strip_ansi. destruct (a ++ s) as [|c t]; [discriminate|].
  cbn [String.length strip_from]. rewrite H. cbn [String.length] in L. apply strip_from_fuel; lia.
Qed.
Lemma strip_plain a s : plain a = true -> strip_ansi (a ++ s) = a ++ strip_ansi s.
Proof.
  induction a as [|c a IH]; intros H; [reflexivity|]. cbn [plain] in H. apply andb_true_iff in H. destruct H as [H1 H2]. cbn [append].
  rewrite <- IH by exact H2. unfold strip_ansi. cbn [String.length strip_from].
  assert (E : after_sequence (String c (a ++ s)) = None).
  { cbn [after_sequence]. destruct (a ++ s) as [|d t]; [reflexivity|]. apply negb_true_iff in H1. now rewrite H1. }
  now rewrite E.
Qed.
Lemma strip_only s : plain s = true -> strip_ansi s = s.
Proof. intros H. rewrite <- (app_str_nil s) at 1. rewrite strip_plain by exact H. apply app_str_nil. Qed.
Lemma strip_green s t : plain s = true -> strip_ansi (green true s ++ t) = s ++ newline ++ strip_ansi t.
Proof.
  intros H. unfold green, echo. rewrite !app_str_assoc. rewrite (strip_code (escape "32m")) by reflexivity. rewrite strip_plain by exact H.
  rewrite (strip_code (escape "0m")) by reflexivity. now rewrite strip_plain.
Qed.
Lemma green_pipe s : plain s = true -> green false s = s ++ newline.
Proof.
  intros H. pose proof (strip_green s "" H) as E. change (strip_ansi "") with "" in E. rewrite !app_str_nil in E. exact E.
Qed.
Lemma strip_clear s : strip_ansi (clear true ++ s) = strip_ansi s.
Proof. unfold clear, echo. rewrite app_str_assoc. rewrite (strip_code (escape "2J")) by reflexivity. now rewrite (strip_code (escape "1;1H")). Qed.
Definition star_line : string := "'*********** answers *************'".
Definition painted (tty : bool) (ms : list mat) : string := fold_right (fun m t => green tty (array_repr m) ++ t) EmptyString ms.
Lemma strip_painted ms : strip_ansi (painted true ms) = answers_text ms.
Proof. induction ms as [|m ms IH]; [reflexivity|]. unfold painted in *. cbn [fold_right answers_text]. rewrite strip_green by apply plain_repr. now rewrite IH. Qed.
Lemma painted_pipe ms : painted false ms = answers_text ms.
Proof. induction ms as [|m ms IH]; [reflexivity|]. unfold painted in *. cbn [fold_right answers_text]. rewrite green_pipe, IH by apply plain_repr. apply app_str_assoc. Qed.

Lemma heading_first v k l u : heading v k l u = first_line v k l u ++ star_line ++ newline.
Proof. unfold heading, first_line. now rewrite !app_str_assoc. Qed.

(** ** the theorems *)
Theorem terminal_proof argv : snd (screen true argv) = snd (screen false argv)
  /\ strip_ansi (fst (screen true argv)) = fst (screen false argv)
  /\ exists s, fst (screen true argv) = escape "2J" ++ escape "1;1H" ++ s.
Proof.
  assert (G : forall x, exists s, clear true ++ x = escape "2J" ++ escape "1;1H" ++ s) by (intros x; exists x; unfold clear, echo; now rewrite app_str_assoc).
  assert (G0 : exists s, clear true = escape "2J" ++ escape "1;1H" ++ s) by (exists ""; reflexivity).
  assert (F0 : strip_ansi (clear true) = clear false) by reflexivity.
  assert (F : forall v k l u, strip_ansi (clear true ++ first_line v k l u) = clear false ++ first_line v k l u).
  { intros. rewrite strip_clear, strip_only by apply plain_first. reflexivity. }
  unfold screen. destruct (mapM_int argv) as [(zs & ->)| ->]; [|now auto].
  destruct zs as [|v [|k [|l [|u [|x zs]]]]]; auto. cbv zeta.
  destruct (main_output v k l u) as [ms| |e]; cbn [fst snd]; auto.
  split; [reflexivity|]. split; [|rewrite app_str_assoc; apply G].
  fold star_line. fold (painted true ms). fold (painted false ms). rewrite !app_str_assoc, strip_clear, strip_plain by apply plain_first.
  rewrite strip_green, strip_painted by reflexivity. rewrite painted_pipe, green_pipe by reflexivity. rewrite !app_str_assoc. reflexivity.
Qed.
Theorem pipe_proof argv :
  (exists t, main_program argv = Ok t /\ screen false argv = (t, None))
  \/ (exists v k l u e, mapM int_of argv = Ok [v; k; l; u] /\ run_main v k l u = Raise e
        /\ screen false argv = (str v ++ " " ++ str k ++ " " ++ str l ++ " " ++ str u ++ newline, Some e))
  \/ ((forall v k l u, mapM int_of argv <> Ok [v; k; l; u]) /\ screen false argv = ("", Some ValueError)).
Proof.
  unfold screen, main_program. destruct (mapM_int argv) as [(zs & ->)| ->]; [|right; right; split; [discriminate|reflexivity]].
  destruct zs as [|v [|k [|l [|u [|x zs]]]]]; try (right; right; split; [discriminate|reflexivity]). cbv zeta. unfold main_text, main_output.
  destruct (every_run_ends_proof v k l u) as [(ms & E)|H].
  - left. rewrite E. cbn [bind]. eexists. split; [reflexivity|]. f_equal. fold star_line. set (ss := _ : list mat).
    fold (painted false ss). rewrite painted_pipe, green_pipe by reflexivity. rewrite heading_first, !app_str_assoc. reflexivity.
  - right. left. assert (HE : exists e, run_main v k l u = Raise e) by (destruct H as [H|[[_ H]|[[_ H]|[_ H]]]]; eauto).
    destruct HE as (e & E). exists v, k, l, u, e. rewrite E. cbn [bind]. auto.
Qed.
Theorem coloured_proof argv v k l u ms : mapM int_of argv = Ok [v; k; l; u] -> main_output v k l u = Ok ms ->
  screen true argv = (escape "2J" ++ escape "1;1H" ++ str v ++ " " ++ str k ++ " " ++ str l ++ " " ++ str u ++ newline
    ++ String.concat "" (map (fun t => escape "32m" ++ t ++ escape "0m" ++ newline)
                             ("'*********** answers *************'" :: map array_repr ms)), None).
Proof.
  intros E1 E2. unfold screen. rewrite E1, E2. cbv zeta. f_equal. unfold clear, echo, first_line. rewrite !app_str_assoc. do 10 f_equal.
  assert (C : forall x l, String.concat "" (x :: l) = x ++ String.concat "" l) by (intros x [|y l']; cbn [String.concat]; [now rewrite app_str_nil|reflexivity]).
  cbn [map]. rewrite C. rewrite !app_str_assoc. unfold green at 1, echo. rewrite !app_str_assoc. do 5 f_equal.
  clear E2. induction ms as [|m ms IH]; [reflexivity|]. cbn [fold_right map]. rewrite C, IH. reflexivity.
Qed.
