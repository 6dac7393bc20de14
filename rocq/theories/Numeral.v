(** Python's [int] on strings. *)
From Coq Require Import String Ascii.
From Verif Require Import Np ModelUtil NumeralSpec.
From Coq Require Import ZifyBool ZifyNat.
Open Scope list_scope.
Open Scope Z_scope.

Lemma app_assoc_s a b c : ((a ++ b) ++ c)%string = (a ++ (b ++ c))%string.
Proof. induction a as [|x a IH]; cbn; congruence. Qed.
Lemma app_nil_s a : (a ++ EmptyString)%string = a.
Proof. induction a as [|x a IH]; cbn; congruence. Qed.

Lemma digit_iff c d : digit_of c = Some d <-> decimal c d.
Proof.
  unfold decimal. split.
  - destruct c as [[] [] [] [] [] [] [] []]; cbv; intros H; try discriminate; injection H as <-; tauto.
  - cbn [In]. intros H. repeat (destruct H as [H|H]; [injection H as <- <-; reflexivity|]). easy.
Qed.
Lemma blank_iff c : blank c = true <-> In (nat_of_ascii c) [9; 10; 11; 12; 13; 32]%nat.
Proof. unfold blank. cbn [In]. lia. Qed.
Lemma white_nil : white EmptyString.
Proof. intros c []. Qed.
Lemma white_cons c s : white (String c s) <-> blank c = true /\ white s.
Proof.
  unfold white. cbn [list_ascii_of_string]. rewrite blank_iff. split.
  - intros H. split; [apply H; now left|]. intros d Hd. apply H. now right.
  - intros [H1 H2] d [<-|Hd]; auto.
Qed.
Lemma all_blank_iff s : all_blank s = true <-> white s.
Proof.
  induction s as [|c s IH]; cbn [all_blank]; [split; [intros _; apply white_nil|auto]|]. rewrite white_cons, <- IH.
  destruct (blank c); [tauto|split; [discriminate|intros [? _]; discriminate]].
Qed.
Lemma digit_not_blank c d : digit_of c = Some d -> blank c = false /\ Ascii.eqb c "-" = false /\ Ascii.eqb c "+" = false /\ Ascii.eqb c underscore = false.
Proof. rewrite digit_iff. unfold decimal. cbn [In]. intros H. repeat (destruct H as [H|H]; [injection H as <- <-; auto|]). easy. Qed.
Lemma blank_not_digit c : blank c = true -> digit_of c = None /\ Ascii.eqb c underscore = false.
Proof. rewrite blank_iff. destruct c as [[] [] [] [] [] [] [] []]; cbv; intuition (try discriminate). Qed.

(** what is accepted is a numeral *)
Lemma more_digits_whole n : forall s s0 acc z, (String.length s <= n)%nat -> whole s0 acc -> more_digits acc s = Ok z ->
  exists b w, s = (b ++ w)%string /\ white w /\ whole (s0 ++ b) z.
Proof.
  induction n as [|n IH]; intros s s0 acc z Hn Hw H.
  - destruct s as [|c s]; [|cbn in Hn; lia]. injection H as <-. exists EmptyString, EmptyString. rewrite (app_nil_s s0). split; [reflexivity|]. split; [apply white_nil|auto].
  - destruct s as [|c s].
    { injection H as <-. exists EmptyString, EmptyString. rewrite (app_nil_s s0). split; [reflexivity|]. split; [apply white_nil|auto]. }
    cbn [String.length] in Hn. cbn [more_digits] in H. destruct (digit_of c) as [d|] eqn:Ed.
    + destruct (IH s (s0 ++ String c EmptyString)%string _ z ltac:(lia) (whole_next _ _ _ _ Hw (proj1 (digit_iff _ _) Ed)) H) as (b & w & -> & W1 & W2).
      exists (String c b), w. split; [reflexivity|]. split; [auto|]. rewrite app_assoc_s in W2. exact W2.
    + destruct (Ascii.eqb_spec c underscore) as [->|Eu].
      * destruct s as [|c' s]; [discriminate|]. destruct (digit_of c') as [d|] eqn:Ed'; [|discriminate]. cbn [String.length] in Hn.
        destruct (IH s (s0 ++ String "_" (String c' EmptyString))%string _ z ltac:(lia) (whole_under _ _ _ _ Hw (proj1 (digit_iff _ _) Ed')) H) as (b & w & -> & W1 & W2).
        exists (String underscore (String c' b)), w. split; [reflexivity|]. split; [auto|]. rewrite app_assoc_s in W2. exact W2.
      * destruct (all_blank (String c s)) eqn:Eb; [|discriminate]. injection H as <-. exists EmptyString, (String c s). rewrite (app_nil_s s0). split; [reflexivity|].
        split; [now apply all_blank_iff|auto].
Qed.
Lemma digits_first_whole s z : digits_first s = Ok z -> exists b w, s = (b ++ w)%string /\ white w /\ whole b z.
Proof.
  destruct s as [|c s]; [discriminate|]. cbn [digits_first]. destruct (digit_of c) as [d|] eqn:Ed; [|discriminate]. intros H.
  destruct (more_digits_whole _ s (String c EmptyString) d z (le_n _) (whole_digit _ _ (proj1 (digit_iff _ _) Ed)) H) as (b & w & -> & W1 & W2).
  exists (String c b), w. auto.
Qed.
Lemma int_of_numeral s z : int_of s = Ok z -> numeral s z.
Proof.
  revert z; induction s as [|c s IH]; intros z H; [discriminate|]. cbn [int_of] in H. destruct (blank c) eqn:Eb.
  - destruct (IH z H) as (w & b & w' & -> & W & W' & S). exists (String c w), b, w'. split; [reflexivity|]. split; [now apply white_cons|auto].
  - destruct (Ascii.eqb_spec c "-") as [->|Em].
    + destruct (digits_first s) as [y| |] eqn:Ed; try discriminate. cbn [bind] in H. injection H as <-.
      destruct (digits_first_whole s y Ed) as (b & w & -> & W & S). exists EmptyString, (String "-" b), w. split; [reflexivity|]. split; [apply white_nil|].
      split; [auto|]. now apply signed_minus.
    + destruct (Ascii.eqb_spec c "+") as [->|Ep].
      * destruct (digits_first_whole s z H) as (b & w & -> & W & S). exists EmptyString, (String "+" b), w. split; [reflexivity|]. split; [apply white_nil|].
        split; [auto|]. now apply signed_plus.
      * destruct (digits_first_whole _ z H) as (b & w & E & W & S). exists EmptyString, b, w. split; [exact E|]. split; [apply white_nil|].
        split; [auto|]. now apply signed_none.
Qed.

(** every numeral is accepted *)
Lemma whole_first s z : whole s z -> forall t, digits_first (s ++ t) = more_digits z t.
Proof.
  induction 1 as [c d Hd|s z c d _ IH Hd|s z c d _ IH Hd]; intros t; apply digit_iff in Hd.
  - cbn. now rewrite Hd.
  - rewrite app_assoc_s, IH. cbn [append more_digits]. now rewrite Hd.
  - rewrite app_assoc_s, IH. cbn [append more_digits]. change (digit_of "_") with (@None Z). change (Ascii.eqb "_" underscore) with true. cbv iota. now rewrite Hd.
Qed.
Lemma whole_head s z : whole s z -> exists c t, s = String c t /\ exists d, digit_of c = Some d.
Proof.
  induction 1 as [c d Hd|s z c d _ IH Hd|s z c d _ IH Hd]; [exists c, EmptyString; split; [auto|]; exists d; now apply digit_iff|..];
    destruct IH as (c0 & t & -> & D); cbn [append]; eauto.
Qed.
Lemma more_digits_white z w : white w -> more_digits z w = Ok z.
Proof.
  intros H. destruct w as [|c w]; [reflexivity|]. pose proof (proj2 (all_blank_iff _) H) as A. apply white_cons in H. destruct H as [B _].
  destruct (blank_not_digit c B) as [D U]. cbn [more_digits]. now rewrite D, U, A.
Qed.
Lemma int_of_white w s : white w -> int_of (w ++ s) = int_of s.
Proof.
  induction w as [|c w IH]; intros H; [reflexivity|]. apply white_cons in H. destruct H as [B W]. cbn [append int_of]. rewrite B. auto.
Qed.
Lemma numeral_int_of s z : numeral s z -> int_of s = Ok z.
Proof.
  intros (w & b & w' & -> & W & W' & S). rewrite int_of_white by auto. destruct S as [b z S|b z S|b z S].
  - pose proof (whole_first b z S w') as F. destruct (whole_head b z S) as (c & t & -> & d & D). destruct (digit_not_blank c d D) as (D1 & D2 & D3 & D4).
    cbn [append int_of] in *. rewrite D1, D2, D3, F. now apply more_digits_white.
  - cbn [append int_of]. change (blank "+") with false. change (Ascii.eqb "+" "-") with false. change (Ascii.eqb "+" "+") with true. cbv iota.
    rewrite (whole_first b z S). now apply more_digits_white.
  - cbn [append int_of]. change (blank "-") with false. change (Ascii.eqb "-" "-") with true. cbv iota.
    rewrite (whole_first b z S), more_digits_white by auto. reflexivity.
Qed.
Lemma more_digits_cases n : forall s acc, (String.length s <= n)%nat -> (exists z, more_digits acc s = Ok z) \/ more_digits acc s = Raise ValueError.
Proof.
  induction n as [|n IH]; intros s acc Hn; (destruct s as [|c s]; [left; cbn; eauto|cbn [String.length] in Hn]); [lia|].
  cbn [more_digits]. destruct (digit_of c) as [d|]; [apply IH; lia|]. destruct (Ascii.eqb c underscore).
  - destruct s as [|c' s]; [now right|]. cbn [String.length] in Hn. destruct (digit_of c'); [apply IH; lia|now right].
  - destruct (all_blank _); eauto.
Qed.
Lemma digits_first_cases s : (exists z, digits_first s = Ok z) \/ digits_first s = Raise ValueError.
Proof. destruct s as [|c s]; [now right|]. cbn [digits_first]. destruct (digit_of c); [|now right]. now apply (more_digits_cases (String.length s)). Qed.
Lemma int_of_cases s : (exists z, int_of s = Ok z) \/ int_of s = Raise ValueError.
Proof.
  induction s as [|c s IH]; [now right|]. cbn [int_of]. destruct (blank c); [auto|]. destruct (Ascii.eqb c "-").
  - destruct (digits_first_cases s) as [(z & ->)| ->]; cbn [bind]; eauto.
  - destruct (Ascii.eqb c "+"); apply digits_first_cases.
Qed.
Lemma int_proof s : (forall z, int_of s = Ok z <-> numeral s z) /\ ((~ exists z, numeral s z) <-> int_of s = Raise ValueError).
Proof.
  split.
  - intros z. split; [apply int_of_numeral|apply numeral_int_of].
  - split.
    + intros N. destruct (int_of_cases s) as [(z & E)|E]; [|exact E]. exfalso. apply N. exists z. now apply int_of_numeral.
    + intros E (z & N). apply numeral_int_of in N. congruence.
Qed.
