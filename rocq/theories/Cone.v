(** Systems of equations and the non-negative combinations of their rows. *)
From Verif Require Import Np Spec Lib.
From Coq Require Import ZifyBool ZifyNat.

Definition sys := list (list Z * Z).

(** [(r, v)] is a sum of rows of [S], with [v] at least the sum of their
    right-hand sides. *)
Inductive cone (C : nat) (S : sys) : list Z -> Z -> Prop :=
| cone_zero v : 0 <= v -> cone C S (repeat 0 C) v
| cone_add row b r v : In (row, b) S -> cone C S r v -> cone C S (vadd row r) (b + v).

Definition wide (C : nat) (S : sys) : Prop := forall row b, In (row, b) S -> length row = C.

Lemma cone_length C S r v : wide C S -> cone C S r v -> length r = C.
Proof.
  intros HS. induction 1 as [v Hv|row b r v Hin H IH]; [apply repeat_length|].
  specialize (HS _ _ Hin). rewrite vadd_length; lia.
Qed.

Lemma cone_weaken C S r v v' : cone C S r v -> v <= v' -> cone C S r v'.
Proof.
  intros H. revert v'. induction H as [v Hv|row b r v Hin H IH]; intros v' Hle.
  - constructor. lia.
  - replace v' with (b + (v' - b)) by lia. constructor; auto. apply IH. lia.
Qed.

Lemma cone_in C S row b : wide C S -> In (row, b) S -> cone C S row b.
Proof.
  intros HS H. specialize (HS _ _ H) as Hl. 
  rewrite <- (vadd_zero_r row), Hl. replace b with (b + 0) by lia.
  constructor; auto. constructor. lia.
Qed.

Lemma vadd_zero_l x : vadd (repeat 0 (length x)) x = x.
Proof. unfold vadd. induction x as [|a x IH]; simpl; auto. now rewrite IH. Qed.

Lemma cone_sum C S r v r' v' : wide C S -> cone C S r v -> cone C S r' v' -> cone C S (vadd r r') (v + v').
Proof.
  intros HS H H'. pose proof (cone_length _ _ _ _ HS H') as Hl.
  induction H as [v Hv|row b r v Hin H IH].
  - replace (vadd (repeat 0 C) r') with r' by (rewrite <- Hl; symmetry; apply vadd_zero_l). apply cone_weaken with v'; [auto|lia].
  - rewrite <- vadd_assoc. replace (b + v + v') with (b + (v + v')) by lia. constructor; auto.
Qed.

Lemma cone_trans C S S' : wide C S' ->
  (forall row b, In (row, b) S -> cone C S' row b) ->
  forall r v, cone C S r v -> cone C S' r v.
Proof.
  intros HS' HS. induction 1 as [v Hv|row b r v Hin H IH].
  - now constructor.
  - apply cone_sum; auto.
Qed.

Definition holds (S : sys) (y : list Z) : Prop := forall row b, In (row, b) S -> dot row y = b.
Definition below (S : sys) (y : list Z) : Prop := forall row b, In (row, b) S -> dot row y <= b.

Lemma cone_below C S r v y : wide C S -> below S y -> cone C S r v -> dot r y <= v.
Proof.
  intros HS Hy. induction 1 as [v Hv|row b r v Hin H IH].
  - rewrite dot_repeat0. lia.
  - rewrite dot_vadd.
    + specialize (Hy _ _ Hin). lia.
    + rewrite (HS _ _ Hin), (cone_length _ _ _ _ HS H). reflexivity.
Qed.

(** if columns agree on all rows of [S] they agree on the combination *)
Lemma cone_columns C S r v i j : wide C S ->
  (forall row b, In (row, b) S -> nth i row 0 = nth j row 0) ->
  (i < C)%nat -> (j < C)%nat ->
  cone C S r v -> nth i r 0 = nth j r 0.
Proof.
  intros HS Hc Hi Hj. induction 1 as [v Hv|row b r v Hin H IH].
  - rewrite !nth_repeat_lt; auto.
  - rewrite !nth_vadd by (rewrite (HS _ _ Hin), (cone_length _ _ _ _ HS H); auto).
    rewrite IH. specialize (Hc _ _ Hin). lia.
Qed.

(** a 1 in column [j] comes from a row with a non-zero entry in column [j],
    whose right-hand side is bounded *)
Lemma cone_column_one C S r v j : wide C S ->
  (forall row b, In (row, b) S -> bits row /\ 0 <= b) -> (j < C)%nat ->
  cone C S r v -> 0 < nth j r 0 ->
  exists row b, In (row, b) S /\ nth j row 0 = 1 /\ b <= v.
Proof.
  intros HS Hb Hj.
  induction 1 as [v Hv|row b r v Hin H IH]; intros Hp.
  - rewrite nth_repeat_lt in Hp; auto; lia.
  - assert (Hv : 0 <= v).
    { clear - Hb H. induction H as [v Hv|row b r v Hin H IH]; auto. apply Hb in Hin. lia. }
    destruct (Hb _ _ Hin) as [Hrow Hbn].
    rewrite nth_vadd in Hp by (rewrite (HS _ _ Hin), (cone_length _ _ _ _ HS H); auto).
    assert (Hbit : bit (nth j row 0)).
    { apply Hrow, nth_In. now rewrite (HS _ _ Hin). }
    destruct Hbit as [E|E].
    + destruct IH as (row' & b' & Hin' & E' & Hle); [lia|]. exists row', b'. repeat split; auto; lia.
    + exists row, b. repeat split; auto; lia.
Qed.

(** substituting values [xs] for the columns [cs] *)
Definition subst_sys (cs : list nat) (xs : list Z) (S : sys) : sys :=
  map (fun p => (delete cs (fst p), snd p - dot (pick 0 cs (fst p)) xs)) S.

Lemma cone_subst C S cs xs r v : wide C S ->
  NoDup cs -> (forall j, In j cs -> (j < C)%nat) -> length xs = length cs ->
  cone C S r v ->
  cone (C - length cs) (subst_sys cs xs S) (delete cs r) (v - dot (pick 0 cs r) xs).
Proof.
  intros HS Hd Hb Hx. induction 1 as [v Hv|row b r v Hin H IH].
  - rewrite delete_repeat by auto.
    assert (E : pick 0 cs (repeat 0 C) = repeat 0 (length cs)).
    { clear - Hb. induction cs as [|c cs IH]; simpl; auto. f_equal.
      - apply nth_repeat_lt, Hb. now left.
      - apply IH. intros; apply Hb; now right. }
    rewrite E, dot_repeat0. constructor. lia.
  - assert (Hl : length row = length r) by (rewrite (HS _ _ Hin), (cone_length _ _ _ _ HS H); auto).
    rewrite delete_vadd, pick_vadd by auto.
    rewrite dot_vadd by now rewrite !pick_length.
    replace (b + v - (dot (pick 0 cs row) xs + dot (pick 0 cs r) xs))
      with ((b - dot (pick 0 cs row) xs) + (v - dot (pick 0 cs r) xs)) by lia.
    constructor; auto.
    unfold subst_sys. apply in_map_iff. exists (row, b). auto.
Qed.
