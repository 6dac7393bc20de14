(** exp.py, and what [maximize] does not achieve. *)
From Coq Require Import Sorting.Permutation.
From Verif Require Import Np ModelGauss Model ModelSort ModelUtil ModelDb ModelExp Spec QSpec SortSpec Lib Check Graph AnyFacts SolveFacts SolverProps.
From Verif Require Import SortFacts MaxFacts SortWitness MaxFix MaxIdem SortProps UtilProps DbProps Greatest.
From Coq Require Import ZifyBool ZifyNat.

Definition exp_t (i : nat) : list (list Z) :=
  match get_solutions 10 6 3 4 with
  | Ok sols => match complement (mrows (nth i sols (Mat 0 []))) with Ok t => t | _ => [] end
  | _ => []
  end.
Lemma exp_t_srg i : (i < 2)%nat -> srg 10 3 0 1 (exp_t i).
Proof. intros Hi. destruct i as [|[|i]]; [| |lia]; apply srgb_ok; vm_compute; reflexivity. Qed.
Lemma srg_symmetric v k l u M : srg v k l u M -> symmetric v M.
Proof. intros ((H1 & _ & H2 & _) & _). split; auto. Qed.

Lemma exp_script_eq argsort : argsorts argsort -> stable_upto 9 argsort -> exp_script argsort = exp_script argsort_stable.
Proof.
  intros H1 H2.
  assert (E : forall i, (i < 2)%nat -> maximize argsort (exp_t i) = maximize argsort_stable (exp_t i)).
  { intros i Hi. apply (maximize_same argsort argsort_stable 10); [auto|auto|apply argsort_by_ok|apply argsort_stable_ok|].
    apply (srg_symmetric 10 3 0 1). now apply exp_t_srg. }
  pose proof (E 0%nat ltac:(lia)) as E0. pose proof (E 1%nat ltac:(lia)) as E1. clear E.
  unfold exp_script.
  assert (EP : exists s0 s1, get_solutions 10 6 3 4 = Ok [s0; s1] /\ complement (mrows s0) = Ok (exp_t 0) /\ complement (mrows s1) = Ok (exp_t 1)).
  { eexists _, _. split; [vm_compute; reflexivity|]. split; vm_compute; reflexivity. }
  destruct EP as (s0 & s1 & Es & Ec0 & Ec1). rewrite Es. cbn [bind]. rewrite Ec0. cbn [bind]. rewrite Ec1. cbn [bind]. rewrite E0, E1. reflexivity.
Qed.
Lemma exp_proof argsort : argsorts argsort -> stable_upto 9 argsort -> exp_compare argsort = Ok [false; false].
Proof. intros H1 H2. unfold exp_compare. rewrite exp_script_eq by auto. vm_compute. reflexivity. Qed.
Lemma ok_inj {A} (x y : A) (r : res A) : r = Ok x -> r = Ok y -> x = y.
Proof. intros -> E. now injection E. Qed.
Definition exp_u : list (list Z) := match maximize argsort_stable (exp_t 0) with Ok N => N | _ => [] end.
Lemma exp_values_proof argsort : argsorts argsort -> stable_upto 9 argsort ->
  exists s0 s1 t0 t1 w v b, get_solutions 10 6 3 4 = Ok [s0; s1] /\ get_solutions 10 3 0 1 = Ok [v]
  /\ exp_script argsort = Ok ([t0; t1; w; w; mrows v], b)
  /\ (forall i j, (i < 10)%nat -> (j < 10)%nat -> i <> j -> cell t0 i j = 1 - cell (mrows s0) i j /\ cell t1 i j = 1 - cell (mrows s1) i j)
  /\ srg 10 3 0 1 t0 /\ srg 10 3 0 1 t1 /\ srg 10 3 0 1 w
  /\ isomorphic 10 t0 w /\ isomorphic 10 t1 w /\ isomorphic 10 w (mrows v)
  /\ w <> t0 /\ w <> t1 /\ w <> mrows v.
Proof.
  intros H1 H2. rewrite exp_script_eq by auto.
  assert (EP : exists s0 s1 v b, get_solutions 10 6 3 4 = Ok [s0; s1] /\ get_solutions 10 3 0 1 = Ok [v]
    /\ exp_script argsort_stable = Ok ([exp_t 0; exp_t 1; exp_u; exp_u; mrows v], b)
    /\ forallb (fun i => forallb (fun j => (i =? j)%nat || ((cell (exp_t 0) i j =? 1 - cell (mrows s0) i j)
        && (cell (exp_t 1) i j =? 1 - cell (mrows s1) i j))) (seq 0 10)) (seq 0 10) = true
    /\ list_eqb vec_eqb exp_u (mrows v) = false).
  { eexists _, _, _, _. split; [vm_compute; reflexivity|]. split; [vm_compute; reflexivity|].
    split; [vm_compute; reflexivity|]. split; vm_compute; reflexivity. }
  destruct EP as (s0 & s1 & v & b & E1 & E2 & E3 & E4 & E5).
  assert (Hu : srg 10 3 0 1 exp_u) by (apply srgb_ok; vm_compute; reflexivity).
  assert (EM : forall i, (i < 2)%nat -> maximize argsort_stable (exp_t i) = Ok exp_u).
  { intros i Hi. destruct i as [|[|i]]; [| |lia]; vm_compute; reflexivity. }
  assert (HI : forall i, (i < 2)%nat -> isomorphic 10 (exp_t i) exp_u).
  { intros i Hi. pose proof (EM i Hi) as E.
    destruct (maximize_proof argsort_stable 10 (exp_t i)) as [[_ (N & E' & _ & (f & Hf & _ & HC))]|[_ E']].
    - apply argsort_by_ok.
    - apply (srg_symmetric 10 3 0 1). now apply exp_t_srg.
    - pose proof (ok_inj _ _ _ E E') as EN. rewrite EN. exists f. auto.
    - exact (match eq_trans (eq_sym E) E' with eq_refl => I end). }
  exists s0, s1, (exp_t 0), (exp_t 1), exp_u, v, b. split; [exact E1|]. split; [exact E2|]. split; [exact E3|].
  split.
  { intros i j Hi Hj Hij. rewrite forallb_forall in E4. specialize (E4 i ltac:(apply in_seq; lia)).
    rewrite forallb_forall in E4. specialize (E4 j ltac:(apply in_seq; lia)).
    apply orb_true_iff in E4. destruct E4 as [E4|E4]; [apply Nat.eqb_eq in E4; contradiction|].
    apply andb_true_iff in E4. destruct E4 as [E4 E6]. apply Z.eqb_eq in E4, E6. auto. }
  split; [apply exp_t_srg; lia|]. split; [apply exp_t_srg; lia|]. split; [exact Hu|].
  split; [apply HI; lia|]. split; [apply HI; lia|]. split.
  { destruct (database_complete2_proof 10 3 0 1 [v] exp_u E2) as (m & [<-|[]] & Hm); [left; lia|exact Hu|exact Hm]. }
  split; [intros E; assert (F : list_eqb vec_eqb exp_u (exp_t 0) = false) by (vm_compute; reflexivity); rewrite E in F; revert F; vm_compute; discriminate|].
  split; [intros E; assert (F : list_eqb vec_eqb exp_u (exp_t 1) = false) by (vm_compute; reflexivity); rewrite E in F; revert F; vm_compute; discriminate|].
  intros E. rewrite <- E in E5. revert E5. vm_compute. discriminate.
Qed.
Lemma maximize_not_printed argsort : argsorts argsort -> stable_upto 9 argsort ->
  exists v k l u M N ms, srg v k l u M /\ (v = 10)%nat /\ maximize argsort M = Ok N
    /\ main_output (Z.of_nat v) k l u = Ok ms /\ ~ In (Mat v N) ms.
Proof.
  intros H1 H2. exists 10%nat, 3, 0, 1, (exp_t 0).
  assert (E : maximize argsort (exp_t 0) = maximize argsort_stable (exp_t 0)).
  { apply (maximize_same argsort argsort_stable 10); [auto|auto|apply argsort_by_ok|apply argsort_stable_ok|].
    apply (srg_symmetric 10 3 0 1). apply exp_t_srg. lia. }
  rewrite E. eexists _, _. split; [apply exp_t_srg; lia|]. split; [reflexivity|]. split; [vm_compute; reflexivity|].
  split; [vm_compute; reflexivity|]. simpl. intros [F|[]]. assert (D : nth 3 (mrows (Mat 10 
   (match maximize argsort_stable (exp_t 0) with Ok N => N | _ => [] end))) [] = nth 3 (mrows (match main_output 10 3 0 1 with Ok (m :: _) => m | _ => Mat 0 [] end)) []).
  { vm_compute. congruence. }
  revert D. vm_compute. discriminate.
Qed.
Lemma srg_u_nonneg v k l u G : (3 <= v)%nat -> 1 <= k < Z.of_nat v - 1 -> srg v k l u G -> 0 <= u.
Proof.
  intros Hv Hk HG. destruct (canonical_exists v G (proj1 HG)) as (f & Hf & Hc).
  apply (cs_u v k l u (relabel v f G)); auto; try lia. now apply relabel_srg.
Qed.
Lemma maximize_printed_iff argsort v k l u M : argsorts argsort -> stable_upto (v - 1) argsort ->
  (3 <= v <= 67)%nat -> 1 <= k < Z.of_nat v - 1 -> srg v k l u M ->
  exists N ms, maximize argsort M = Ok N /\ isomorphic v M N /\ main_output (Z.of_nat v) k l u = Ok ms
    /\ (In (Mat v N) ms <-> canonical v N).
Proof.
  intros H1 H2 Hv Hk HM. pose proof (srg_symmetric _ _ _ _ _ HM) as HS.
  destruct (maximize_proof argsort v M H1 HS) as [[_ (N & E & HN & HG)]|[H0 _]].
  - destruct HG as (f & Hf & _ & HC). assert (HI : isomorphic v M N) by (exists f; auto).
    assert (HNs : srg v k l u N).
    { assert (EN : N = relabel v f M).
      { destruct HN as [[L R] _]. apply (matrix_ext v v); [split; auto|apply build_shape|]. intros i j Hi Hj. rewrite HC, relabel_cell by auto. reflexivity. }
      rewrite EN. now apply relabel_srg. }
    pose proof (srg_u_nonneg v k l u M ltac:(lia) Hk HM) as Hu.
    destruct (srg_admissible v k l u M) as [Ha|]; auto; try lia.
    destruct (main_output_proof v k l u Ha) as (ms & out & E1 & E2 & HP & _); [lia|].
    exists N, out. split; [auto|]. split; [auto|]. split; [auto|].
    rewrite <- (yields_iff_canonical v k l u N ms) by (auto; lia).
    split; intros Hin; [apply (Permutation_in _ (Permutation_sym HP))|apply (Permutation_in _ HP)]; auto.
  - exfalso. pose proof HM as ((_ & HB & _ & HD) & Hdeg & _). pose proof (Hdeg 0%nat ltac:(lia)) as Hs. unfold degree in Hs.
    assert (E : sumn v (fun j => cell M 0 j) = sumn v (fun j => if (j =? 0)%nat then 0 else 1)).
    { apply sumn_ext. intros j Hj. destruct (Nat.eqb_spec j 0) as [->|]; [apply HD; lia|]. specialize (H0 j ltac:(lia)).
      destruct (HB 0%nat j); auto; try lia. }
    rewrite (sumn_except v 0 (fun _ => 1)), sumn_const in E by lia. lia.
Qed.
Lemma stability_matters : exists argsort v M N P, argsorts argsort /\ adjacency v M
  /\ maximize argsort M = Ok N /\ maximize argsort N = Ok P /\ P <> N.
Proof.
  exists argsort_reversed, 4%nat, path4. eexists _, _. split; [apply argsort_by_ok|]. split; [apply adjacencyb_ok; vm_compute; reflexivity|].
  split; [vm_compute; reflexivity|]. split; [vm_compute; reflexivity|]. vm_compute. discriminate.
Qed.
Lemma maximize_idem_proof argsort v M N : argsorts argsort -> stable_upto (v - 1) argsort -> adjacency v M ->
  maximize argsort M = Ok N -> maximize argsort N = Ok N.
Proof. intros H1 H2 (H3 & H4 & H5 & _). apply (maximize_idem argsort v); auto. split; auto. Qed.

(** ** complements of shipped matrices *)
Lemma shipped_complement v k l u sols sols' m : get_solutions v k l u = Ok sols ->
  (let '(v', k', l', u') := complement_vklu v k l u in get_solutions v' k' l' u' = Ok sols') -> v < 20 -> In m sols ->
  exists N m', complement (mrows m) = Ok N /\ In m' sols' /\ isomorphic (Z.to_nat v) N (mrows m').
Proof.
  intros E E' Hv Hin. destruct (database_sound_proof v k l u sols m E Hin) as [Hc Hs].
  assert (H0 : (0 < Z.to_nat v)%nat).
  { apply get_solutions_in in E. destruct E as (e & n & Hi & He & -> & _). rewrite Nat2Z.id.
    assert (T : forallb (fun e => (0 <? fst (fst (fst (fst e))))%nat) Database.database = true) by (vm_compute; reflexivity).
    rewrite forallb_forall in T. specialize (T e Hi). rewrite He in T. cbn [fst] in T. lia. }
  pose proof (complement_srg_proof (Z.to_nat v) k l u (mrows m) H0 Hs) as HC. rewrite Z2Nat.id in HC by lia.
  destruct (complement_vklu v k l u) as [[[v' k'] l'] u'] eqn:EC. destruct HC as (-> & N & EN & HN & _).
  destruct (database_complete2_proof v k' l' u' sols' N E') as (m' & Hm' & Hiso); auto. exists N, m'. auto.
Qed.
