(** Beyond 67 vertices the 64-bit column keys collide. *)
From Verif Require Import Np ModelGauss Model ModelSort ModelDb Spec DbProps SolveFacts.

(** the complement of 34 disjoint edges *)
Definition cocktail68 : list (list Z) :=
  map (unpack 68) (map (fun i => 2 ^ 68 - 1 - 2 ^ Z.of_nat (67 - i) - 2 ^ Z.of_nat i) (seq 0 68)).
Lemma cocktail68_srg : srg 68 66 64 66 cocktail68.
Proof. apply packed_srgb_ok. vm_compute. reflexivity. Qed.
Lemma cocktail68_missed : run_main 68 66 64 66 = Ok [].
Proof. vm_compute. reflexivity. Qed.
Lemma sharp_proof : exists v k l u G, (v = 68)%nat /\ 1 <= k /\ srg v k l u G /\ run_main (Z.of_nat v) k l u = Ok []
  /\ main_output (Z.of_nat v) k l u = Ok [].
Proof.
  exists 68%nat, 66, 64, 66, cocktail68. split; [reflexivity|]. split; [lia|]. split; [exact cocktail68_srg|].
  change (Z.of_nat 68) with 68. split; [exact cocktail68_missed|]. unfold main_output. now rewrite cocktail68_missed.
Qed.

(** 67 is the exact limit *)
Lemma exact_limit_proof : forall n, (3 <= n)%nat ->
  (forall v k l u G, (3 <= v <= n)%nat -> 1 <= k -> srg v k l u G ->
     exists ms m, run_main (Z.of_nat v) k l u = Ok ms /\ In m ms /\ isomorphic v G (mrows m)) <-> (n <= 67)%nat.
Proof.
  intros n Hn. split.
  - intros H. destruct (Nat.le_gt_cases n 67) as [?|G]; auto. exfalso.
    destruct (H 68%nat 66 64 66 cocktail68 ltac:(lia) ltac:(lia) cocktail68_srg) as (ms & m & E & Hin & _).
    change (Z.of_nat 68) with 68 in E. rewrite cocktail68_missed in E. assert (ms = []) as -> by congruence. destruct Hin.
  - intros H v k l u G Hv Hk HG. destruct (solve_complete v k l u G ltac:(lia) Hk HG) as (ms & m & E & Hin & _ & HI). eauto.
Qed.
