(** The elimination properties (C10-C13) in terms of [Spec]. *)
From Verif Require Import Np ModelGauss Spec Lib BitFacts Cone ElimFacts.
From Coq Require Import Sorting.Sorted.

(** a matrix gauss_elim can be called with: 0/1 entries, first column not zero,
    at most 63 columns (row keys are int64); the right-hand side is int8 *)
Definition elim_input (A : mat) (b : list Z) : Prop :=
  (1 <= mcols A <= 63)%nat
  /\ shape (length b) (mcols A) (mrows A)
  /\ (forall row, In row (mrows A) -> bits row)
  /\ (forall x, In x b -> 0 <= x <= 127)
  /\ (exists row, In row (mrows A) /\ nth 0 row 0 = 1).

Lemma holds_solves A b y : length A = length b -> (holds (msys A b) y <-> solves A b y).
Proof.
  intros HL. split.
  - intros H. split; auto. intros i Hi. apply H. apply nth_in_combine; auto. lia.
  - intros [_ H] row x Hin. apply (in_combine_nth _ _ _ _ [] 0) in Hin.
    destruct Hin as (i & Hi & _ & <- & <-). auto.
Qed.
Lemma below_stays A b y : length A = length b -> (below (msys A b) y <-> stays_below A b y).
Proof.
  intros HL. split.
  - intros H. split; auto. intros i Hi. apply H. apply nth_in_combine; auto. lia.
  - intros [_ H] row x Hin. apply (in_combine_nth _ _ _ _ [] 0) in Hin.
    destruct Hin as (i & Hi & _ & <- & <-). auto.
Qed.

Lemma elim_input_spec A b : elim_input A b ->
  exists A' b', elim A b = Ok (A', b') /\ elim_result (mcols A) (mrows A) b A' b'.
Proof.
  intros (H1 & [H2 H2'] & H3 & H4 & H5). apply elim_spec; auto.
Qed.

Lemma elim_keeps_solutions_proof A b : elim_input A b ->
  exists A' b', elim A b = Ok (A', b')
    /\ forall x, solves (mrows A) b x -> solves (mrows A') b' x.
Proof.
  intros HI. destruct (elim_input_spec A b HI) as (A' & b' & HE & HR). exists A', b'. split; auto.
  intros x Hx. apply holds_solves; [symmetry; apply (er_len _ _ _ _ _ HR)|].
  apply (er_sol _ _ _ _ _ HR). apply holds_solves; auto. apply HI.
Qed.

Lemma elim_weak_sound_proof A b : elim_input A b ->
  exists A' b', elim A b = Ok (A', b')
    /\ forall x, stays_below (mrows A') b' x -> stays_below (mrows A) b x.
Proof.
  intros HI. destruct (elim_input_spec A b HI) as (A' & b' & HE & HR). exists A', b'. split; auto.
  intros x Hx. apply below_stays in Hx; [|symmetry; apply (er_len _ _ _ _ _ HR)].
  apply below_stays; [apply HI|]. intros row v Hin.
  apply (cone_below (mcols A) (msys (mrows A') b')); auto.
  - intros r z Hr. apply in_combine_l in Hr. now apply (er_rows _ _ _ _ _ HR).
  - now apply (er_cone _ _ _ _ _ HR).
Qed.

(** the rows of [A] can be subtracted from later ones no more *)
Definition no_row_below_another (A : list (list Z)) (b : list Z) : Prop :=
  forall i j, (i < j < length A)%nat ->
    ~ ((forall c, cell A i c <= cell A j c) /\ nth i b 0 <= nth j b 0).

(** value of a 0/1 row read as a binary number, most significant digit first *)
Fixpoint binary_value (x : list Z) : Z :=
  match x with
  | [] => 0
  | a :: t => a * 2 ^ Z.of_nat (length t) + binary_value t
  end.
Lemma binary_value_pack x : bits x -> (length x <= 63)%nat -> pack x = binary_value x.
Proof. intros. rewrite pack_pack0 by auto. reflexivity. Qed.

Lemma elim_normal_form_proof A b : elim_input A b ->
  exists A' b', elim A b = Ok (A', b')
    /\ mcols A' = mcols A
    /\ shape (length b') (mcols A) (mrows A') /\ (length b' <= length b)%nat
    /\ (forall row, In row (mrows A') -> bits row /\ exists a, In a row /\ a = 1)
    /\ (forall x, In x b' -> 0 <= x)
    /\ StronglySorted Z.le (map binary_value (mrows A'))
    /\ no_row_below_another (mrows A') b'
    /\ elim A' b' = Ok (A', b').
Proof.
  intros HI. destruct (elim_input_spec A b HI) as (A' & b' & HE & HR). exists A', b'. split; auto.
  destruct HI as (H63 & _ & _ & Hb & _).
  destruct HR as [R1 R2 R3 R4 R5 R6 R7 R8 R9 R10].
  split; auto. split; [split; [now rewrite R3|intros row Hr; now apply R2]|].
  split; auto. split.
  { intros row Hr. destruct (R2 _ Hr) as (L & Bt & j & Hj & E). split; auto.
    exists (nth j row 0). split; auto. apply nth_In. lia. }
  split.
  { intros x Hx. apply (R5 127) in Hx; try lia. intros y Hy. apply Hb in Hy. lia. }
  split.
  { replace (map binary_value (mrows A')) with (map pack (mrows A')); auto.
    apply map_ext_in. intros row Hr. destruct (R2 _ Hr) as (L & Bt & _). apply binary_value_pack; auto; lia. }
  split; auto.
Qed.

Lemma encode_decode_proof A b : elim_input A b ->
  (forall row, In row (mrows A) -> exists a, In a row /\ a = 1) ->
  (hd <- encode A b ;; decode hd) = Ok (A, b).
Proof.
  intros (H63 & [HL HW] & Hbits & Hb & (row0 & Hrow0 & H0)) Hnz.
  destruct (encode_ok A b (mcols A)) as (E & HE & Hsys & Hk & Hv & _ & Hlen); auto.
  rewrite HE. cbn [bind].
  assert (Hrange : forall e, In e E -> 0 < ekey e < 2 ^ Z.of_nat (mcols A)).
  { intros e He. assert (Hin : In (ekey e) (map pack (mrows A))) by (rewrite <- Hk; now apply in_map).
    apply in_map_iff in Hin. destruct Hin as (row & Er & Hr).
    pose proof (pack_range row (Hbits _ Hr) ltac:(rewrite (HW _ Hr); lia)) as R. rewrite (HW _ Hr), Er in R.
    assert (ekey e <> 0); [|lia]. intros E0. rewrite E0 in Er.
    destruct (Hnz _ Hr) as (a & Ha & Ea).
    pose proof (row_of_pack row (Hbits _ Hr) ltac:(rewrite (HW _ Hr); lia)) as P.
    rewrite Er, row_of_0 in P. rewrite <- P in Ha. apply repeat_spec in Ha. lia. }
  assert (HA : map (fun e => row_of (mcols A) (ekey e)) E = mrows A).
  { rewrite <- (map_map ekey (row_of (mcols A))), Hk, map_map. rewrite <- (map_id (mrows A)) at 2.
    apply map_ext_in. intros row Hr. rewrite <- (HW _ Hr). apply row_of_pack; auto. rewrite (HW _ Hr). lia. }
  rewrite (decode_ok (mcols A) E).
  - rewrite HA, Hv. destruct A; reflexivity.
  - lia.
  - apply Forall_forall. intros e He. split; [specialize (Hrange _ He); lia|].
    apply Hb. rewrite <- Hv. now apply in_map.
  - intros e He. specialize (Hrange _ He). lia.
  - rewrite <- HA in Hrow0. apply in_map_iff in Hrow0. destruct Hrow0 as (e & Er & He).
    exists e. split; auto. now rewrite Er.
Qed.

Lemma row_keys_injective_proof x y : bits x -> bits y -> length x = length y -> (length x <= 63)%nat ->
  pack x = pack y -> x = y.
Proof. apply pack_inj. Qed.

(** decision procedure for [elim_input], used by the examples *)
Definition bitb (x : Z) : bool := (x =? 0) || (x =? 1).
Lemma bitb_ok x : bitb x = true <-> bit x.
Proof. unfold bitb, bit. rewrite orb_true_iff, !Z.eqb_eq. reflexivity. Qed.
Lemma bitsb_ok x : forallb bitb x = true <-> bits x.
Proof. rewrite forallb_forall. split; intros H a Ha; apply bitb_ok; auto. Qed.
Definition shapeb (n c : nat) (M : list (list Z)) : bool :=
  Nat.eqb (length M) n && forallb (fun row => Nat.eqb (length row) c) M.
Lemma shapeb_ok n c M : shapeb n c M = true <-> shape n c M.
Proof.
  unfold shapeb, shape. rewrite andb_true_iff, Nat.eqb_eq, forallb_forall. 
  split; intros [H1 H2]; split; auto; intros row Hr; apply Nat.eqb_eq; auto.
Qed.
Definition elim_inputb (A : mat) (b : list Z) : bool :=
  (1 <=? mcols A)%nat && (mcols A <=? 63)%nat && shapeb (length b) (mcols A) (mrows A)
  && forallb (forallb bitb) (mrows A) && forallb (fun x => (0 <=? x) && (x <=? 127)) b
  && existsb (fun row => nth 0 row 0 =? 1) (mrows A).
Lemma elim_inputb_ok A b : elim_inputb A b = true -> elim_input A b.
Proof.
  unfold elim_inputb. rewrite !andb_true_iff. intros (((((H1 & H2) & H3) & H4) & H5) & H6).
  apply Nat.leb_le in H1, H2. apply shapeb_ok in H3. split; [lia|]. split; auto. split.
  { intros row Hr. apply bitsb_ok. rewrite forallb_forall in H4. auto. }
  split.
  { intros x Hx. rewrite forallb_forall in H5. specialize (H5 _ Hx). lia. }
  apply existsb_exists in H6. destruct H6 as (row & Hr & E). exists row. split; auto. now apply Z.eqb_eq.
Qed.
