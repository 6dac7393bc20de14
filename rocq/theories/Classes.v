(** Isomorphism classes of the shipped matrices; which shipped lists are
    complete. *)
From Verif Require Import Np ModelGauss Model ModelSort ModelUtil ModelDb Database Spec ClassSpec Lib StepFacts Graph Check UtilProps SolveFacts DbProps ClassData PruneData Orderly.
From Coq Require Import ZifyBool ZifyNat Sorting.Permutation.
Local Open Scope Z_scope.

(** ** isomorphism is an equivalence *)
Lemma iso_refl v M : isomorphic v M M.
Proof. exists (fun i => i). split; [split; auto|auto]. Qed.
Lemma iso_trans v A B C : isomorphic v A B -> isomorphic v B C -> isomorphic v A C.
Proof.
  intros (f & [F1 F2] & F) (g & [G1 G2] & G). exists (fun i => f (g i)). split; [split|].
  - auto.
  - intros i j Hi Hj E. apply G2; auto.
  - intros i j Hi Hj. rewrite G by auto. apply F; auto.
Qed.
Lemma relabelling_onto v f j : relabelling v f -> (j < v)%nat -> exists i, (i < v)%nat /\ f i = j.
Proof.
  intros Hf Hj. assert (In j (map f (seq 0 v))) as H.
  { apply (Permutation_in _ (Permutation_sym (relabelling_perm v f Hf))). apply in_seq. lia. }
  apply in_map_iff in H. destruct H as (i & E & Hi). apply in_seq in Hi. exists i. split; [lia|auto].
Qed.
Definition inverse (v : nat) (f : nat -> nat) (j : nat) : nat :=
  match find (fun i => (f i =? j)%nat) (seq 0 v) with Some i => i | None => 0%nat end.
Lemma inverse_ok v f j : relabelling v f -> (j < v)%nat -> (inverse v f j < v)%nat /\ f (inverse v f j) = j.
Proof.
  intros Hf Hj. unfold inverse. destruct (find _ _) as [i|] eqn:E.
  - apply find_some in E. destruct E as [E1 E2]. apply in_seq in E1. split; lia.
  - destruct (relabelling_onto v f j Hf Hj) as (i & Hi & Hfi). apply find_none with (x := i) in E; [lia|]. apply in_seq. lia.
Qed.
Lemma iso_sym v A B : isomorphic v A B -> isomorphic v B A.
Proof.
  intros (f & Hf & F). exists (inverse v f). split; [split|].
  - intros j Hj. now apply inverse_ok.
  - intros i j Hi Hj E. rewrite <- (proj2 (inverse_ok v f i Hf Hi)), E. now apply inverse_ok.
  - intros i j Hi Hj. destruct (inverse_ok v f i Hf Hi) as [I1 I2], (inverse_ok v f j Hf Hj) as [J1 J2].
    rewrite F by auto. now rewrite I2, J2.
Qed.

(** ** an invariant: the edges between common neighbours of [i] and [j] *)
Definition weight (v : nat) (M : list (list Z)) (i j : nat) : Z :=
  sumn v (fun w => sumn v (fun x => cell M i w * cell M j w * (cell M i x * cell M j x) * cell M w x)).
Definition signature (v : nat) (M : list (list Z)) : Z :=
  sumn v (fun i => sumn v (fun j => cell M i j * (weight v M i j * weight v M i j))).
Lemma weight_iso v f M N : relabelling v f ->
  (forall i j, (i < v)%nat -> (j < v)%nat -> cell N i j = cell M (f i) (f j)) ->
  forall i j, (i < v)%nat -> (j < v)%nat -> weight v N i j = weight v M (f i) (f j).
Proof.
  intros Hf H i j Hi Hj. unfold weight.
  rewrite <- (sumn_relabel v f (fun w => sumn v (fun x => cell M (f i) w * cell M (f j) w * (cell M (f i) x * cell M (f j) x) * cell M w x)) Hf).
  apply sumn_ext. intros w Hw.
  rewrite <- (sumn_relabel v f (fun x => cell M (f i) (f w) * cell M (f j) (f w) * (cell M (f i) x * cell M (f j) x) * cell M (f w) x) Hf).
  apply sumn_ext. intros x Hx. now rewrite !H.
Qed.
Lemma signature_iso v M N : isomorphic v M N -> signature v N = signature v M.
Proof.
  intros (f & Hf & H). pose proof (weight_iso v f M N Hf H) as HW. unfold signature.
  rewrite <- (sumn_relabel v f (fun i => sumn v (fun j => cell M i j * (weight v M i j * weight v M i j))) Hf).
  apply sumn_ext. intros i Hi.
  rewrite <- (sumn_relabel v f (fun j => cell M (f i) j * (weight v M (f i) j * weight v M (f i) j)) Hf).
  apply sumn_ext. intros j Hj. now rewrite H, HW.
Qed.

(** ... on packed rows *)
Definition sum_if (v : nat) (c : Z) (f : nat -> Z) : Z :=
  zsum (map (fun j => if Z.testbit c (Z.of_nat (v - 1 - j)) then f j else 0) (seq 0 v)).
Definition packed_weight (v : nat) (rows : list Z) (c : Z) : Z := sum_if v c (fun w => popcount (Z.land c (nth w rows 0))).
Definition packed_signature (v : nat) (rows : list Z) : Z :=
  zsum (map (fun r => sum_if v r (fun j => let t := packed_weight v rows (Z.land r (nth j rows 0)) in t * t)) rows).
Lemma land_range n a b : 0 <= a < 2 ^ n -> 0 <= b < 2 ^ n -> 0 <= n -> 0 <= Z.land a b < 2 ^ n.
Proof.
  intros Ha Hb Hn. split; [apply Z.land_nonneg; lia|]. destruct (Z.eq_dec (Z.land a b) 0) as [->|Hne]; [apply Z.pow_pos_nonneg; lia|].
  apply Z.log2_lt_pow2; [pose proof (proj2 (Z.land_nonneg a b)); lia|]. eapply Z.le_lt_trans; [apply Z.log2_land; lia|].
  destruct (Z.eq_dec a 0) as [E|E]; [rewrite E in Hne; now rewrite Z.land_0_l in Hne|].
  apply Z.min_lt_iff. left. apply Z.log2_lt_pow2; lia.
Qed.
Lemma mul_bit (b : bool) x : Z.b2z b * x = if b then x else 0.
Proof. destruct b; [apply Z.mul_1_l|reflexivity]. Qed.
Lemma map_nth_seq (f : Z -> Z) rows : map (fun i => f (nth i rows 0)) (seq 0 (length rows)) = map f rows.
Proof.
  apply (nth_ext _ _ 0 0); rewrite !map_length, seq_length; [reflexivity|]. intros n Hn.
  rewrite (nth_map_in _ _ _ 0%nat) by (rewrite seq_length; lia). rewrite (nth_map_in _ _ _ 0) by lia. now rewrite seq_nth by lia.
Qed.
Section packed2.
  Variables (v : nat) (rows : list Z).
  Let M := map (unpack v) rows.
  Hypothesis HL : length rows = v.
  Hypothesis HR : forall n, In n rows -> 0 <= n < 2 ^ Z.of_nat v.

  Lemma pk_weight i j : (i < v)%nat -> (j < v)%nat -> weight v M i j = packed_weight v rows (Z.land (nth i rows 0) (nth j rows 0)).
  Proof.
    intros Hi Hj. pose proof (pk_range v rows HL HR i Hi) as Ri. pose proof (pk_range v rows HL HR j Hj) as Rj.
    unfold weight, packed_weight, sum_if. change (zsum (map ?f (seq 0 v))) with (sumn v f). apply sumn_ext. intros w Hw.
    pose proof (pk_range v rows HL HR w Hw) as Rw. set (c := Z.land (nth i rows 0) (nth j rows 0)).
    assert (C : forall x, (x < v)%nat -> cell M i x * cell M j x = Z.b2z (Z.testbit c (Z.of_nat (v - 1 - x)))).
    { intros x Hx. unfold M. rewrite !pk_cell by auto. unfold c. rewrite Z.land_spec. now destruct (Z.testbit _ _), (Z.testbit _ _). }
    rewrite (sumn_ext v _ (fun x => Z.b2z (Z.testbit c (Z.of_nat (v - 1 - w))) * Z.b2z (Z.testbit (Z.land c (nth w rows 0)) (Z.of_nat (v - 1 - x))))).
    - rewrite sumn_scale, mul_bit. destruct (Z.testbit c _); [|reflexivity].
      rewrite (popcount_sum _ v) by (apply land_range; auto; [now apply land_range; lia|lia]).
      apply (sumn_rev v (fun x => Z.b2z (Z.testbit (Z.land c (nth w rows 0)) (Z.of_nat x)))).
    - intros x Hx. rewrite !C by auto. rewrite Z.land_spec. unfold M. rewrite pk_cell by auto.
      destruct (Z.testbit c (Z.of_nat (v - 1 - w))), (Z.testbit c (Z.of_nat (v - 1 - x))), (Z.testbit _ _); reflexivity.
  Qed.
  Lemma pk_signature : signature v M = packed_signature v rows.
  Proof.
    unfold signature, packed_signature. rewrite <- map_nth_seq, HL.
    apply sumn_ext. intros i Hi. unfold sum_if. change (zsum (map ?f (seq 0 v))) with (sumn v f). apply sumn_ext. intros j Hj.
    rewrite pk_weight by auto. unfold M. rewrite pk_cell by auto. now rewrite mul_bit.
  Qed.
End packed2.

(** ** checking the data *)
Definition distinct_nats (l : list nat) : bool :=
  (fix go l := match l with [] => true | a :: t => negb (existsb (Nat.eqb a) t) && go t end) l.
Lemma distinct_nats_ok l : distinct_nats l = true -> NoDup l.
Proof.
  induction l as [|a l IH]; intros H; constructor; apply andb_true_iff in H; destruct H as [H1 H2]; auto.
  intros Hin. apply negb_true_iff in H1. rewrite <- not_true_iff_false in H1. apply H1, existsb_exists. exists a. split; auto. apply Nat.eqb_refl.
Qed.
(** [f] is a relabelling that turns the packed matrix [a] into [b] *)
Definition packed_isob (v : nat) (a b : list Z) (f : list nat) : bool :=
  (length a =? v)%nat && (length b =? v)%nat && (length f =? v)%nat && forallb (fun x => (x <? v)%nat) f && distinct_nats f
  && allb v (fun i => let r := nth i b 0 in let s := nth (nth i f 0%nat) a 0 in
       allb v (fun j => Bool.eqb (Z.testbit r (Z.of_nat (v - 1 - j))) (Z.testbit s (Z.of_nat (v - 1 - nth j f 0%nat))))).
Lemma packed_isob_ok v a b f : packed_isob v a b f = true -> isomorphic v (map (unpack v) a) (map (unpack v) b).
Proof.
  unfold packed_isob. rewrite !andb_true_iff, allb_ok. intros [[[[[H1 H2] H3] H4] H5] H6]. rewrite forallb_forall in H4.
  apply distinct_nats_ok in H5. assert (F : forall i, (i < v)%nat -> (nth i f 0 < v)%nat).
  { intros i Hi. specialize (H4 (nth i f 0%nat) ltac:(apply nth_In; lia)). lia. }
  exists (fun i => nth i f 0%nat). split; [split; auto|].
  - intros i j Hi Hj E. apply (proj1 (NoDup_nth f 0%nat) H5); auto; lia.
  - intros i j Hi Hj. specialize (H6 i Hi). rewrite allb_ok in H6. specialize (H6 j Hj). apply Bool.eqb_prop in H6.
    rewrite !pk_cell by (auto; lia). now rewrite H6.
Qed.
Definition packed_shapeb (v : nat) (rows : list Z) : bool :=
  (length rows =? v)%nat && forallb (fun r => (0 <=? r) && (r <? 2 ^ Z.of_nat v)) rows.
Lemma packed_signature_ok v rows : packed_shapeb v rows = true -> signature v (map (unpack v) rows) = packed_signature v rows.
Proof.
  unfold packed_shapeb. rewrite andb_true_iff, forallb_forall. intros [H1 H2]. apply pk_signature; [lia|].
  intros n Hn. specialize (H2 n Hn). lia.
Qed.
Fixpoint distinct_Z (l : list Z) : bool := match l with [] => true | a :: t => negb (existsb (Z.eqb a) t) && distinct_Z t end.
Lemma distinct_signatures v l : forallb (packed_shapeb v) l = true -> distinct_Z (map (packed_signature v) l) = true ->
  ForallOrdPairs (fun A B => ~ isomorphic v A B) (map (map (unpack v)) l).
Proof.
  induction l as [|a l IH]; intros HS HD; [constructor|]. cbn [forallb map distinct_Z] in *. apply andb_true_iff in HS, HD.
  destruct HS as [S1 S2], HD as [D1 D2]. constructor; [|now apply IH]. rewrite forallb_forall in S2. apply negb_true_iff in D1.
  apply Forall_forall. intros B HB HI. apply in_map_iff in HB. destruct HB as (b & <- & Hb). apply signature_iso in HI.
  rewrite !packed_signature_ok in HI by auto. enough (existsb (Z.eqb (packed_signature v a)) (map (packed_signature v) l) = true) by congruence.
  apply existsb_exists. exists (packed_signature v b). split; [now apply in_map|lia].
Qed.
Definition classesb (e : (nat * Z * Z * Z) * list (list Z)) (d : list nat * list (nat * list nat)) : bool :=
  let '((v, _, _, _), ms) := e in let '(reps, maps) := d in
  (length maps =? length ms)%nat && forallb (fun r => (r <? length ms)%nat) reps
  && forallb (fun p => existsb (Nat.eqb (fst (snd p))) reps && packed_isob v (nth (fst (snd p)) ms []) (fst p) (snd (snd p))) (combine ms maps)
  && forallb (packed_shapeb v) (map (fun r => nth r ms []) reps)
  && distinct_Z (map (packed_signature v) (map (fun r => nth r ms []) reps)).
Lemma classesb_ok v k l u ms reps maps : classesb ((v, k, l, u), ms) (reps, maps) = true ->
  representatives v (map mrows (entry_solutions ((v, k, l, u), ms))) (map (map (unpack v)) (map (fun r => nth r ms []) reps)).
Proof.
  unfold classesb. rewrite !andb_true_iff. intros [[[[H1 H2] H3] H4] H5]. rewrite forallb_forall in H2, H3.
  assert (EM : map mrows (entry_solutions ((v, k, l, u), ms)) = map (map (unpack v)) ms).
  { cbn [entry_solutions]. rewrite map_map. reflexivity. }
  rewrite EM. split; [|split].
  - intros A HA. apply in_map_iff in HA. destruct HA as (a & <- & Ha). apply in_map. apply in_map_iff in Ha.
    destruct Ha as (r & <- & Hr). specialize (H2 r Hr). apply nth_In. lia.
  - now apply distinct_signatures.
  - intros A HA. apply in_map_iff in HA. destruct HA as (a & <- & Ha). destruct (In_nth _ _ [] Ha) as (i & Hi & Ei).
    specialize (H3 (nth i (combine ms maps) ([], (0%nat, [])))). rewrite combine_nth in H3 by lia.
    assert (IN : In (nth i ms [], nth i maps (0%nat, [])) (combine ms maps)).
    { rewrite <- combine_nth by lia. apply nth_In. rewrite combine_length. lia. }
    apply H3 in IN. cbn [fst snd] in IN. apply andb_true_iff in IN. destruct IN as [I1 I2]. rewrite Ei in I2.
    apply existsb_exists in I1. destruct I1 as (r & Hr & Er). apply packed_isob_ok in I2.
    exists (map (unpack v) (nth (fst (nth i maps (0%nat, []))) ms [])). split; [|exact I2].
    apply in_map. apply in_map_iff. exists r. split; auto. f_equal. lia.
Qed.
Lemma class_data_ok : (length class_data =? length database)%nat && forallb (fun p => classesb (fst p) (snd p)) (combine database class_data) = true.
Proof. vm_cast_no_check (eq_refl true). Qed.

Lemma combine_In_l {A B} (a : A) (l : list A) (l' : list B) : length l = length l' -> In a l -> exists b, In (a, b) (combine l l').
Proof.
  revert l'. induction l as [|x l IH]; intros [|y l'] HL Hin; simpl in *; try lia; try contradiction.
  destruct Hin as [->|Hin]; [exists y; now left|]. destruct (IH l' ltac:(lia) Hin) as (b & Hb). exists b. now right.
Qed.
Definition six_eqb (a b : Z * Z * Z * Z * Z * Z) : bool :=
  let '(a1, a2, a3, a4, a5, a6) := a in let '(b1, b2, b3, b4, b5, b6) := b in
  (a1 =? b1) && (a2 =? b2) && (a3 =? b3) && (a4 =? b4) && (a5 =? b5) && (a6 =? b6).
Lemma six_eqb_ok a b : six_eqb a b = true -> a = b.
Proof.
  destruct a as [[[[[a1 a2] a3] a4] a5] a6], b as [[[[[b1 b2] b3] b4] b5] b6]. cbn [six_eqb]. rewrite !andb_true_iff, !Z.eqb_eq.
  intros [[[[[-> ->] ->] ->] ->] ->]. reflexivity.
Qed.
Definition countsb (p : ((nat * Z * Z * Z) * list (list Z)) * (list nat * list (nat * list nat))) : bool :=
  let '(((v, k, l, u), ms), (reps, _)) := p in
  existsb (six_eqb (Z.of_nat v, k, l, u, Z.of_nat (length ms), Z.of_nat (length reps))) class_table.
Lemma countsb_true : forallb countsb (combine database class_data) = true.
Proof. vm_cast_no_check (eq_refl true). Qed.
Lemma shipped_representatives v k l u sols : get_solutions v k l u = Ok sols -> exists reps,
  representatives (Z.to_nat v) (map mrows sols) reps
  /\ In (v, k, l, u, Z.of_nat (length sols), Z.of_nat (length reps)) class_table.
Proof.
  intros H. apply get_solutions_in in H. destruct H as ([p ms] & n & Hin & He & -> & ->). simpl in He. subst p. rewrite Nat2Z.id.
  pose proof class_data_ok as C. apply andb_true_iff in C. destruct C as [CL CC].
  destruct (combine_In_l _ database class_data ltac:(lia) Hin) as ([reps maps] & Hc). rewrite forallb_forall in CC.
  pose proof (CC _ Hc) as K. cbn [fst snd] in K. eexists. split; [exact (classesb_ok _ _ _ _ _ _ _ K)|].
  rewrite !map_length. cbn [entry_solutions]. rewrite map_length. clear - Hc.
  pose proof countsb_true as T. rewrite forallb_forall in T. specialize (T _ Hc). cbv beta iota delta [countsb] in T.
  apply existsb_exists in T. destruct T as (x & Hx & E). apply six_eqb_ok in E. now rewrite E.
Qed.

Lemma get_solutions_entry v k l u ms : In ((v, k, l, u), ms) database ->
  get_solutions (Z.of_nat v) k l u = Ok (entry_solutions ((v, k, l, u), ms)).
Proof.
  intros Hin. unfold get_solutions. pose proof database_names_distinct as ND. unfold list_problems in ND.
  pose proof (find_unique entry_name database _ ND Hin) as F. cbn [entry_name] in F. now rewrite F.
Qed.

(** ** (21,10,5,4): the complement problem is quickly solved *)
Definition t7_complement : list Z :=
  [1047552;1508336;1622799;1585359;1575999;1321212;1316083;1214259;1198908;1151939;1139660;801962;801877;708117;
   707882;651845;651658;497233;497058;485972;485800].
Definition t7_map : list nat := [0;11;12;14;16;18;20;13;15;17;19;4;3;6;5;2;7;8;9;10;1]%nat.
Definition t7_rows : list Z :=
  map2 (fun i r => Z.ones 21 - r - 2 ^ Z.of_nat (20 - i)) (seq 0 21) t7_complement.
Lemma run_21_10_3_6 : run_main 21 10 3 6 = Ok [Mat 21 (map (unpack 21) t7_complement)].
Proof. vm_compute. reflexivity. Qed.
Lemma complement_iso v M N M' N' : (0 < v)%nat -> adjacency v M -> adjacency v N -> isomorphic v M N ->
  complement M = Ok M' -> complement N = Ok N' -> isomorphic v M' N'.
Proof.
  intros Hv HM HN (f & Hf & H) EM EN. pose proof Hf as [F1 F2].
  destruct (complement_adjacency v M Hv HM) as (A & EA & _ & CA). destruct (complement_adjacency v N Hv HN) as (B & EB & _ & CB).
  assert (A = M') by congruence. assert (B = N') by congruence. subst A B. exists f. split; auto. intros i j Hi Hj.
  rewrite CA, CB by auto. rewrite H by auto. destruct (Nat.eqb_spec i j) as [->|Hne]; [now rewrite Nat.eqb_refl|].
  destruct (Nat.eqb_spec (f i) (f j)) as [E|]; [|reflexivity]. apply F2 in E; auto. contradiction.
Qed.
Lemma complete_21_10_5_4 sols G : get_solutions 21 10 5 4 = Ok sols -> srg 21 10 5 4 G ->
  exists m, In m sols /\ isomorphic 21 G (mrows m).
Proof.
  intros H HG. pose proof (complement_srg_proof 21 10 5 4 G ltac:(lia) HG) as (_ & N & EN & HN & EG).
  change (srg 21 10 3 6 N) in HN. destruct (solve_complete 21 10 3 6 N ltac:(lia) ltac:(lia) HN) as (ms & m & E & Hm & _ & HI).
  change (Z.of_nat 21) with 21 in E. rewrite run_21_10_3_6 in E. injection E as <-. destruct Hm as [<-|[]]. cbn [mrows] in HI.
  set (C := map (unpack 21) t7_complement) in *.
  assert (HC : adjacency 21 C) by (apply (packed_srgb_ok 21 10 3 6 t7_complement); vm_compute; reflexivity).
  destruct (complement_adjacency 21 C ltac:(lia) HC) as (D & ED & _ & CD).
  pose proof (complement_iso 21 N C G D ltac:(lia) (proj1 HN) HC HI EG ED) as HGD.
  assert (E0 : get_solutions 21 10 5 4 = Ok (map (fun rows => Mat 21 (map (unpack 21) rows)) db_21_10_5_4)) by reflexivity.
  rewrite E0 in H. injection H as <-. exists (Mat 21 (map (unpack 21) (nth 0 db_21_10_5_4 []))). split; [now left|].
  apply (iso_trans _ _ D); auto. cbn [mrows].
  assert (EC : complement C = Ok (map (unpack 21) t7_rows)) by (vm_compute; reflexivity).
  assert (ET : D = map (unpack 21) t7_rows) by (rewrite ED in EC; congruence). rewrite ET.
  apply (packed_isob_ok 21 t7_rows _ t7_map). vm_compute. reflexivity.
Qed.
(** ** (27,10,1,5) and (28,12,6,4): the search for greatest labellings *)
Lemma listed_complete data v k l u ms sols G : In ((v, k, l, u), ms) database -> (3 <= v <= 67)%nat -> 1 <= k -> 0 <= u ->
  match orderly_main data (Z.of_nat v) k l u with
  | Ok out => forallb (fun m => existsb (mat_eqb m) (entry_solutions ((v, k, l, u), ms))) out
  | _ => false
  end = true ->
  get_solutions (Z.of_nat v) k l u = Ok sols -> srg v k l u G -> exists m, In m sols /\ isomorphic v G (mrows m).
Proof.
  intros Hin Hv Hk Hu H ES HG. rewrite (get_solutions_entry v k l u ms Hin) in ES. injection ES as <-.
  destruct (orderly_main data (Z.of_nat v) k l u) as [out| |] eqn:E; try discriminate.
  destruct (orderly_complete data v k l u G out Hv Hk Hu HG E) as (m & Hm & HI). exists m. split; auto.
  rewrite forallb_forall in H. specialize (H m Hm). apply existsb_exists in H. destruct H as (m' & Hm' & Em).
  apply mat_eqb_iff in Em. now subst m'.
Qed.
Lemma orderly_27 : match orderly_main prune_27_10_1_5 27 10 1 5 with
  | Ok out => forallb (fun m => existsb (mat_eqb m) (entry_solutions ((27%nat, 10, 1, 5), db_27_10_1_5))) out
  | _ => false end = true.
Proof. vm_cast_no_check (eq_refl true). Qed.
Lemma orderly_28 : match orderly_main prune_28_12_6_4 28 12 6 4 with
  | Ok out => forallb (fun m => existsb (mat_eqb m) (entry_solutions ((28%nat, 12, 6, 4), db_28_12_6_4))) out
  | _ => false end = true.
Proof. vm_cast_no_check (eq_refl true). Qed.

Lemma shipped_complete v k l u sols G : get_solutions v k l u = Ok sols -> ~ In (v, k, l, u) incomplete ->
  srg (Z.to_nat v) k l u G -> exists m, In m sols /\ isomorphic (Z.to_nat v) G (mrows m).
Proof.
  intros H Hs HG. destruct (shipped_representatives v k l u sols H) as (reps & _ & T).
  assert (D : (v < 20 \/ (v, k, l, u) = (25, 8, 3, 2) \/ (v, k, l, u) = (21, 10, 4, 5)) \/ (v, k, l, u) = (21, 10, 5, 4)
              \/ (v, k, l, u) = (27, 10, 1, 5) \/ (v, k, l, u) = (28, 12, 6, 4)).
  { unfold class_table in T. repeat (destruct T as [T|T]; [injection T as; subst; first [left; left; lia|tauto|exfalso; apply Hs; simpl; tauto]|]). destruct T. }
  destruct D as [D|[D|[D|D]]]; [now apply (database_complete2_proof v k l u)| | |]; injection D as -> -> -> ->.
  - now apply complete_21_10_5_4.
  - apply (listed_complete prune_27_10_1_5 27 10 1 5 db_27_10_1_5 sols G); [do 18 right; now left|lia|lia|lia|exact orderly_27|exact H|exact HG].
  - apply (listed_complete prune_28_12_6_4 28 12 6 4 db_28_12_6_4 sols G); [do 19 right; now left|lia|lia|lia|exact orderly_28|exact H|exact HG].
Qed.

(** ** three lists are not complete *)
Definition paley25 : list Z :=
  [842457;929148;480942;256839;636339;26240726;29389163;14695093;7348058;19942829;23888694;12452747;22479317;27492602;
   14254701;23815193;11923484;22722574;28122119;14076947;26958624;29732736;15390144;8218848;20362848].
Definition other26 : list Z :=
  [620589;369396;480593;929411;693098;52638;40296708;29952326;15286936;59152520;20526464;43648228;55084121;44140039;
   39126824;13695552;23206964;12355633;22265891;27550762;52448193;26354445;36907090;52187666;7606477;46150066].
Lemma not_listed v k l u ms G sols : In ((v, k, l, u), ms) database -> packed_shapeb v G = true -> forallb (packed_shapeb v) ms = true ->
  existsb (Z.eqb (packed_signature v G)) (map (packed_signature v) ms) = false ->
  get_solutions (Z.of_nat v) k l u = Ok sols -> forall m, In m sols -> ~ isomorphic v (map (unpack v) G) (mrows m).
Proof.
  intros Hin HG HS HE H m Hm HI. rewrite (get_solutions_entry v k l u ms Hin) in H. injection H as <-.
  cbn [entry_solutions] in Hm. apply in_map_iff in Hm. destruct Hm as (rows & <- & Hr). cbn [mrows] in HI.
  apply signature_iso in HI. rewrite forallb_forall in HS. rewrite !packed_signature_ok in HI by auto.
  enough (existsb (Z.eqb (packed_signature v G)) (map (packed_signature v) ms) = true) by congruence.
  apply existsb_exists. exists (packed_signature v rows). split; [now apply in_map|lia].
Qed.
Lemma incomplete_lists v k l u sols : get_solutions v k l u = Ok sols ->
  In (v, k, l, u) incomplete ->
  exists G, srg (Z.to_nat v) k l u G /\ forall m, In m sols -> ~ isomorphic (Z.to_nat v) G (mrows m).
Proof.
  intros H [E|[E|[E|[]]]]; injection E as <- <- <- <-.
  - exists (map (unpack 25) paley25). split; [apply packed_srgb_ok; vm_compute; reflexivity|].
    apply (not_listed 25 12 5 6 db_25_12_5_6 paley25); [do 16 right; now left|vm_compute; reflexivity|vm_compute; reflexivity|vm_compute; reflexivity|exact H].
  - exists (map (unpack 26) other26). split; [apply packed_srgb_ok; vm_compute; reflexivity|].
    apply (not_listed 26 10 3 4 db_26_10_3_4 other26); [do 17 right; now left|vm_compute; reflexivity|vm_compute; reflexivity|vm_compute; reflexivity|exact H].
  - exists paley29. split; [exact paley29_srg|]. assert (E0 : get_solutions 29 14 6 7 = Ok []) by reflexivity.
    rewrite E0 in H. injection H as <-. intros m [].
Qed.
Lemma decided_lists v k l u sols : get_solutions v k l u = Ok sols ->
  ((forall G, srg (Z.to_nat v) k l u G -> exists m, In m sols /\ isomorphic (Z.to_nat v) G (mrows m))
   <-> ~ In (v, k, l, u) incomplete).
Proof.
  intros H. split.
  - intros HC Hin. destruct (incomplete_lists v k l u sols H Hin) as (G & HG & HN). destruct (HC G HG) as (m & Hm & HI). now apply (HN m).
  - intros Hn G HG. now apply (shipped_complete v k l u).
Qed.

(** ** classification *)
Lemma representatives_unique v ms reps R R' : representatives v ms reps -> In R reps -> In R' reps -> isomorphic v R R' -> R = R'.
Proof.
  intros (_ & HP & _) H1 H2 HI. destruct (ForallOrdPairs_In HP _ _ H1 H2) as [E|[E|E]]; auto; [contradiction|].
  exfalso. apply E. now apply iso_sym.
Qed.
Lemma classification v k l u sols : get_solutions v k l u = Ok sols -> ~ In (v, k, l, u) incomplete ->
  exists reps, representatives (Z.to_nat v) (map mrows sols) reps
    /\ In (v, k, l, u, Z.of_nat (length sols), Z.of_nat (length reps)) class_table
    /\ forall G, srg (Z.to_nat v) k l u G -> exists R, In R reps /\ isomorphic (Z.to_nat v) G R
         /\ forall R', In R' reps -> isomorphic (Z.to_nat v) G R' -> R' = R.
Proof.
  intros H Hs. destruct (shipped_representatives v k l u sols H) as (reps & HR & HT). exists reps. split; auto. split; auto.
  intros G HG. destruct (shipped_complete v k l u sols G H Hs HG) as (m & Hm & HI). pose proof HR as (_ & _ & R3).
  destruct (R3 (mrows m) (in_map mrows _ _ Hm)) as (R & HinR & HRm). exists R.
  assert (HGR : isomorphic (Z.to_nat v) G R) by (apply (iso_trans _ _ (mrows m)); auto; now apply iso_sym).
  split; auto. split; auto. intros R' HR' HGR'. apply (representatives_unique _ _ reps R' R HR); auto.
  apply (iso_trans _ _ G); auto. now apply iso_sym.
Qed.

(** ** which lists contain isomorphic matrices *)
Definition four_eqb (a b : Z * Z * Z * Z) : bool :=
  let '(a1, a2, a3, a4) := a in let '(b1, b2, b3, b4) := b in (a1 =? b1) && (a2 =? b2) && (a3 =? b3) && (a4 =? b4).
Lemma four_eqb_iff a b : four_eqb a b = true <-> a = b.
Proof.
  destruct a as [[[a1 a2] a3] a4], b as [[[b1 b2] b3] b4]. cbn [four_eqb]. rewrite !andb_true_iff, !Z.eqb_eq.
  split; [intros [[[-> ->] ->] ->]; reflexivity|intros E; injection E as -> -> -> ->; auto].
Qed.
(** two matrices of a list, the second made from the first by a relabelling;
    for lists without repetition the signatures of all matrices *)
Definition repeatsb (p : ((nat * Z * Z * Z) * list (list Z)) * (list nat * list (nat * list nat))) : bool :=
  let '(((v, k, l, u), ms), (_, maps)) := p in
  if existsb (four_eqb (Z.of_nat v, k, l, u)) repeating
  then existsb (fun i => let '(r, f) := nth i maps (0%nat, []) in
         negb (r =? i)%nat && (r <? length ms)%nat && packed_isob v (nth r ms []) (nth i ms []) f) (seq 0 (length ms))
  else forallb (packed_shapeb v) ms && distinct_Z (map (packed_signature v) ms).
Lemma repeatsb_true : forallb repeatsb (combine database class_data) = true.
Proof. vm_cast_no_check (eq_refl true). Qed.
Lemma repeating_lists v k l u sols : get_solutions v k l u = Ok sols ->
  ((exists m m', In m sols /\ In m' sols /\ m <> m' /\ isomorphic (Z.to_nat v) (mrows m) (mrows m')) <-> In (v, k, l, u) repeating).
Proof.
  intros H. pose proof (database_distinct_proof v k l u sols H) as ND.
  apply get_solutions_in in H. destruct H as ([p ms] & n & Hin & He & -> & ->). simpl in He. subst p. rewrite Nat2Z.id.
  pose proof class_data_ok as C. apply andb_true_iff in C. destruct C as [CL _].
  destruct (combine_In_l _ database class_data ltac:(lia) Hin) as ([reps maps] & Hc).
  pose proof repeatsb_true as T. rewrite forallb_forall in T. specialize (T _ Hc). cbv beta iota delta [repeatsb] in T.
  cbn [entry_solutions] in *. destruct (existsb _ repeating) eqn:E.
  - apply existsb_exists in E. destruct E as (x & Hx & Ex). apply four_eqb_iff in Ex. subst x. split; [auto|]. intros _.
    apply existsb_exists in T. destruct T as (i & Hi & T). apply in_seq in Hi. destruct (nth i maps (0%nat, [])) as [r f].
    apply andb_true_iff in T. destruct T as [T T3]. apply andb_true_iff in T. destruct T as [T1 T2]. apply packed_isob_ok in T3.
    set (g := fun rows => Mat n (map (unpack n) rows)) in *.
    exists (nth r (map g ms) (g [])), (nth i (map g ms) (g [])).
    split; [apply nth_In; rewrite map_length; lia|]. split; [apply nth_In; rewrite map_length; lia|]. split.
    + intros EQ. apply (proj1 (NoDup_nth (map g ms) (g [])) ND) in EQ; rewrite ?map_length; lia.
    + rewrite !map_nth. exact T3.
  - apply andb_true_iff in T. destruct T as [T1 T2]. pose proof (distinct_signatures n ms T1 T2) as P. split.
    + intros (m & m' & Hm & Hm' & Hne & HI). exfalso. apply in_map_iff in Hm, Hm'. destruct Hm as (a & <- & Ha), Hm' as (b & <- & Hb).
      cbn [mrows] in HI. destruct (ForallOrdPairs_In P _ _ (in_map (map (unpack n)) _ _ Ha) (in_map (map (unpack n)) _ _ Hb)) as [Q|[Q|Q]].
      * apply Hne. f_equal. exact Q.
      * contradiction.
      * apply Q. now apply iso_sym.
    + intros Hr. exfalso. enough (existsb (four_eqb (Z.of_nat n, k, l, u)) repeating = true) by congruence.
      apply existsb_exists. exists (Z.of_nat n, k, l, u). split; auto. now apply four_eqb_iff.
Qed.
