(** The in-place search is the search of [Model] (C92). *)
From Verif Require Import Np ModelGauss Model ModelHeap Spec HeapSpec Lib StepFacts Total TurnSpec Turns.
From Coq Require Import ZifyBool ZifyNat.

(** ** arrays *)
Lemma rd_new h x : rd (h ++ [x]) (length h) = x.
Proof. unfold rd. now rewrite app_nth2, Nat.sub_diag by lia. Qed.
Lemma rd_old h x p : (p < length h)%nat -> rd (h ++ [x]) p = rd h p.
Proof. intros H. unfold rd. now rewrite app_nth1. Qed.
Lemma wr_len h p x : length (wr h p x) = length h.
Proof. apply set_nth_length. Qed.
Lemma set_nth_same {A} (l : list A) : forall p x d, (p < length l)%nat -> nth p (set_nth p x l) d = x.
Proof. induction l as [|a l IH]; intros [|p] x d H; simpl in *; try lia; auto. apply IH. lia. Qed.
Lemma set_nth_other {A} (l : list A) : forall p p' x d, p <> p' -> nth p' (set_nth p x l) d = nth p' l d.
Proof. induction l as [|a l IH]; intros [|p] [|p'] x d H; simpl in *; try lia; auto. Qed.
Lemma rd_wr h p x : (p < length h)%nat -> rd (wr h p x) p = x.
Proof. apply set_nth_same. Qed.
Lemma rd_wr_other h p p' x : p <> p' -> rd (wr h p x) p' = rd h p'.
Proof. apply set_nth_other. Qed.
Lemma app_len (h : heap) x : length (h ++ [x]) = S (length h).
Proof. rewrite app_length. simpl. lia. Qed.

Definition foot (q : hquestion) : list nat := [hb q; hbounds q; hv (hans q)].
(** the three arrays exist and are three *)
Definition good (s : st) : Prop :=
  let q := snd s in
  (hb q < length (fst s))%nat /\ (hbounds q < length (fst s))%nat /\ (hv (hans q) < length (fst s))%nat
  /\ hb q <> hbounds q /\ hb q <> hv (hans q) /\ hbounds q <> hv (hans q).
Definition sight (s : st) : question := view (fst s) (snd s).
(** [s'] comes from [s] by writing to the arrays of the object and to new ones *)
Record ext (s s' : st) : Prop := {
  x_len : (length (fst s) <= length (fst s'))%nat;
  x_keep : forall p, (p < length (fst s))%nat -> ~ In p (foot (snd s)) -> rd (fst s') p = rd (fst s) p;
  x_foot : forall p, In p (foot (snd s')) -> In p (foot (snd s)) \/ (length (fst s) <= p)%nat;
  x_good : good s' }.
Lemma ext_refl s : good s -> ext s s.
Proof. intros H. constructor; auto. Qed.
Lemma ext_trans s s1 s2 : ext s s1 -> ext s1 s2 -> ext s s2.
Proof.
  intros [a b c d] [a' b' c' d']. constructor; auto; [lia| |].
  - intros p Hp Hn. rewrite b'; [apply b; auto|lia|]. intros Hi. apply c in Hi. destruct Hi; [auto|lia].
  - intros p Hp. apply c' in Hp. destruct Hp as [Hp|Hp]; [|right; lia]. apply c in Hp. tauto.
Qed.

Definition same_out (s : st) (o : out unit) (r : res question) : Prop :=
  ext s (fst o) /\ match r with
                   | Ok Q => snd o = Ok tt /\ sight (fst o) = Q
                   | NoSolution => snd o = NoSolution
                   | Raise e => snd o = Raise e
                   end.
Lemma post_check_id Q : match post_check Q with Ok Q' => Q' = Q | _ => True end.
Proof.
  unfold post_check. destruct (_ && _); [exact I|]. destruct (assert_ _); cbn [bind]; auto.
  destruct (_ && _); auto. destruct (answer_quota _); cbn [bind]; auto. destruct (any2 _ _ _); auto.
Qed.
Lemma same_checked s o r : same_out s o r -> same_out s (checked o) (Q' <- r ;; post_check Q').
Proof.
  intros [HX HR]. destruct o as [s' r']. cbn [fst snd] in *. unfold checked, obind. destruct r as [Q| |e]; cbn [bind].
  - destruct HR as [-> HQ]. change (view (fst s') (snd s')) with (sight s'). rewrite HQ. pose proof (post_check_id Q) as HP.
    destruct (post_check Q) as [Q'| |]; cbn [bind]; split; cbn [fst snd]; auto. subst Q'. auto.
  - subst r'. split; auto.
  - subst r'. split; auto.
Qed.
Lemma same_bind s o r f g : same_out s o r -> (forall s1, ext s s1 -> same_out s1 (f s1 tt) (g (sight s1))) ->
  same_out s (obind o f) (bind r g).
Proof.
  intros [HX HR] HF. destruct o as [s1 r']. cbn [fst snd] in *. destruct r as [Q| |e]; cbn [bind].
  - destruct HR as [-> <-]. cbn [obind]. destruct (HF s1 HX) as [HX2 HR2]. split; auto. now apply (ext_trans s s1).
  - subst r'. split; auto.
  - subst r'. split; auto.
Qed.

Ltac goodt := unfold good in *; cbn [fst snd hb hbounds hv hans set_A set_b set_quota set_bounds set_ans] in *; rewrite ?app_len, ?wr_len in *; repeat split; lia.
Ltac foott := unfold foot in *; cbn [fst snd hb hbounds hv hans set_A set_b set_quota set_bounds set_ans In] in *; rewrite ?app_len, ?wr_len in *; intuition lia.

(** ** the four steps *)
Lemma ext_app s x : good s -> ext s (fst s ++ [x], snd s).
Proof.
  destruct s as [h q]. intros H. constructor; cbn [fst snd]; rewrite ?app_len; auto.
  - intros p Hp _. now apply rd_old.
  - goodt.
Qed.
Lemma reduce_h_ok_body s : good s -> same_out s (reduce_col_body_h s) (reduce_col_body (sight s)).
Proof.
  intros HG. unfold reduce_col_body_h. destruct s as [h q]. unfold reduce_col_body, sight. cbn [fst snd].
  change (qA (view h q)) with (hA q).
  destruct (Nat.ltb_spec (mcols (hA q)) 2); [split; [now apply ext_refl|now split]|].
  destruct (unique_encode (hA q)) as [enc| |e] eqn:EE; cbn [bind]; [|split; [now apply ext_refl|reflexivity]..].
  destruct (Nat.ltb_spec (length (qbounds (view h q))) (mcols (hA q))); [split; [now apply ext_refl|reflexivity]|].
  cbv zeta. destruct (existsb _ _) eqn:EX; [split; [now apply ext_refl|reflexivity]|].
  set (v' := delete _ (av (qans (view h q)))). set (loc' := delete _ (aloc (qans (view h q)))).
  set (bd := map i8 _). set (A' := Mat _ (map _ _)).
  set (h1 := h ++ [v']). set (h2 := h1 ++ [bd]).
  assert (L1 : length h1 = S (length h)) by apply app_len. assert (L2 : length h2 = S (length h1)) by apply app_len.
  assert (Rbd : rd h2 (length h1) = bd) by apply rd_new.
  assert (Rv : rd h2 (length h) = v') by (unfold h2; rewrite rd_old by lia; apply rd_new).
  assert (Ro : forall p, (p < length h)%nat -> rd h2 p = rd h p) by (intros p Hp; unfold h2, h1; rewrite !rd_old; auto; rewrite app_len; lia).
  rewrite Rbd, Rv.
  assert (X1 : ext (h, q) (h2, set_A A' q)).
  { constructor; cbn [fst snd]; try lia; auto. goodt. }
  destruct (nonneg bd); cbn [bind assert_]; [|split; [exact X1|reflexivity]].
  assert (X2 : ext (h, q) (h2, set_bounds (length h1) (set_A A' q))).
  { constructor; cbn [fst snd]; try lia; auto; [|goodt]. intros p Hp. foott. }
  change (alen (qans (view h q))) with (hlen (hans q)). unfold mk_answer.
  match goal with |- context [assert_ (Nat.eqb ?a ?b)] => destruct (Nat.eqb a b) end; cbn [assert_ bind]; [|split; [exact X2|reflexivity]].
  match goal with |- context [match ?m with | Ok _ => _ | NoSolution => _ | Raise _ => _ end] => idtac end.
  assert (D : forall (c : res unit), (c = Ok tt \/ c = Raise AssertionError) ->
     same_out (h, q) (match (_ <- c ;; Ok (Ans v' loc' (hlen (hans q)))) with
        | Ok a => if answer_fits (hA (set_bounds (length h1) (set_A A' q))) a
                  then ((h2, set_ans (HAns (length h) loc' (hlen (hans q))) (set_bounds (length h1) (set_A A' q))), Ok tt)
                  else ((h2, set_bounds (length h1) (set_A A' q)), Raise AssertionError)
        | NoSolution => ((h2, set_bounds (length h1) (set_A A' q)), NoSolution)
        | Raise e => ((h2, set_bounds (length h1) (set_A A' q)), Raise e) end)
       (a' <- (_ <- c ;; Ok (Ans v' loc' (hlen (hans q)))) ;; _ <- assert_ (answer_fits A' a') ;;
          Ok (Qst A' (qb (view h q)) (qquota (view h q)) bd a'))).
  { intros c [-> | ->]; cbn [bind]; [|split; [exact X2|reflexivity]].
    cbn [hA set_bounds set_A]. destruct (answer_fits A' _); cbn [assert_ bind]; [|split; [exact X2|reflexivity]].
    split; cbn [fst snd].
    - constructor; cbn [fst snd]; try lia; auto; [|goodt]. intros p Hp. foott.
    - split; [reflexivity|]. unfold sight, view. cbn [fst snd hA hb hquota hbounds hans hv hloc hlen set_A set_bounds set_ans].
      rewrite Rbd, Rv, Ro by (apply HG). reflexivity. }
  apply D. destruct loc' as [|l0 t]; [now left|]. destruct (l0 =? 0); cbn [assert_ bind]; [|now right].
  destruct (forallb _ _); cbn [assert_ bind]; [|now right]. destruct (_ <? _); [now left|now right].
Qed.
Lemma reduce_h_ok s : good s -> same_out s (reduce_col_h s) (reduce_col (sight s)).
Proof. intros HG. now apply same_checked, reduce_h_ok_body. Qed.

Lemma eliminate_h_ok_body s : good s -> same_out s (eliminate_body_h s) (eliminate_body (sight s)).
Proof.
  intros HG. unfold eliminate_body_h. destruct s as [h q]. unfold eliminate_body, sight. cbn [fst snd view qA qb].
  destruct (Nat.eqb_spec (mcols (hA q)) 0); [split; [now apply ext_refl|now split]|].
  destruct (elim (hA q) (rd h (hb q))) as [[Ae be]| |e]; cbn [bind]; [|split; [now apply ext_refl|reflexivity]..].
  rewrite rd_new.
  assert (X1 : ext (h, q) (h ++ [be], set_A Ae q)).
  { constructor; cbn [fst snd]; rewrite ?app_len; auto; [|goodt]. intros p Hp _. now apply rd_old. }
  destruct (nonneg be); cbn [assert_ bind]; [|split; [exact X1|reflexivity]]. split; cbn [fst snd].
  - constructor; cbn [fst snd]; rewrite ?app_len; auto; [intros p Hp _; now apply rd_old| |goodt]. intros p Hp. foott.
  - split; [reflexivity|]. unfold sight, view. cbn [fst snd hA hb hquota hbounds hans hv hloc hlen set_A set_b].
    rewrite rd_new, !rd_old by apply HG. reflexivity.
Qed.
Lemma eliminate_h_ok s : good s -> same_out s (eliminate_h s) (eliminate (sight s)).
Proof. intros HG. now apply same_checked, eliminate_h_ok_body. Qed.

Lemma lub_h_ok pb pbd : pb <> pbd -> forall rows i h, (pbd < length h)%nat ->
  let h' := lower_upper_bound_h pb pbd i rows h in
  length h' = length h /\ (forall p, p <> pbd -> rd h' p = rd h p)
  /\ rd h' pbd = lower_upper_bound rows (skipn i (rd h pb)) (rd h pbd).
Proof.
  intros Hne. induction rows as [|row rows IH]; intros i h Hp; [now repeat split|]. cbn [lower_upper_bound_h].
  destruct (nth_error (rd h pb) i) as [x|] eqn:E.
  - destruct (IH (S i) (wr h pbd (tighten_row row x (rd h pbd))) ltac:(now rewrite wr_len)) as (L & K & R). cbv zeta.
    split; [now rewrite L, wr_len|]. split; [intros p Hpp; rewrite K by auto; apply rd_wr_other; auto|].
    rewrite R, rd_wr_other, rd_wr by auto. apply nth_error_split in E. destruct E as (l1 & l2 & E & El).
    rewrite E, <- El. rewrite !skipn_app, Nat.sub_diag.
    replace (S (length l1) - length l1)%nat with 1%nat by lia. rewrite (skipn_all2 (n:=S (length l1)) l1), skipn_all by lia. reflexivity.
  - cbv zeta. split; [auto|]. split; [auto|]. apply nth_error_None in E. rewrite skipn_all2 by auto. reflexivity.
Qed.
Lemma zeros_h_ok pv ul zbls : forall h, (pv < length h)%nat ->
  let h' := fold_left (fun h j => wr h pv (set_nth (nth j ul 0%nat) 0 (rd h pv))) zbls h in
  length h' = length h /\ (forall p, p <> pv -> rd h' p = rd h p)
  /\ rd h' pv = assign_all ul (map (fun j => (j, 0)) zbls) (rd h pv).
Proof.
  induction zbls as [|j zbls IH]; intros h Hp; [now repeat split|]. cbn [fold_left map assign_all]. cbv zeta.
  destruct (IH (wr h pv (set_nth (nth j ul 0%nat) 0 (rd h pv))) ltac:(now rewrite wr_len)) as (L & K & R).
  split; [now rewrite L, wr_len|]. split; [intros p Hpp; rewrite K by auto; apply rd_wr_other; auto|].
  rewrite R, rd_wr by auto. reflexivity.
Qed.
Lemma zero_h_ok_body s : good s -> same_out s (zero_in_b_body_h s) (zero_in_b_body (sight s)).
Proof.
  intros HG. unfold zero_in_b_body_h. destruct s as [h q]. unfold zero_in_b_body, sight. cbn [fst snd].
  pose proof HG as (Gb & Gd & Gv & N1 & N2 & N3). cbn [fst snd] in *.
  destruct (lub_h_ok (hb q) (hbounds q) N1 (mrows (hA q)) 0 h Gd) as (L1 & K1 & R1). cbv zeta.
  set (h1 := lower_upper_bound_h _ _ _ _ _) in *. rewrite (K1 (hv (hans q))), R1 by auto. cbn [skipn].
  cbn [view qA qb qbounds qans qquota av aloc alen]. unfold unknown_loc. cbn [av].
  set (bd := lower_upper_bound _ _ _) in *. set (ul := where_ is_unknown _).
  destruct (Nat.eqb (length ul) (length bd)); cbn [assert_ bind].
  2:{ split; [|reflexivity]. constructor; cbn [fst snd]; try lia; [|auto|goodt]. intros p _ Hn. apply K1. intros ->. apply Hn. simpl. auto. }
  set (zbls := zero_bound_loc bd). destruct (zeros_h_ok (hv (hans q)) ul zbls h1 ltac:(lia)) as (L2 & K2 & R2). cbv zeta in *.
  set (h2 := fold_left _ zbls h1) in *. rewrite rd_new. rewrite (K2 (hbounds q)), R1 by auto.
  set (A' := Mat _ (map (delete zbls) _)).
  assert (Kold : forall x p, (p < length h)%nat -> ~ In p (foot q) -> rd (h2 ++ [x]) p = rd h p).
  { intros x p Hp Hn. rewrite rd_old by lia. unfold foot in Hn. simpl in Hn. rewrite K2, K1 by intuition. reflexivity. }
  assert (Lx : forall x, length (h2 ++ [x]) = S (length h)) by (intros x; rewrite app_len; lia).
  destruct (nonneg (delete zbls bd)); cbn [assert_ bind].
  - split; cbn [fst snd].
    + constructor; cbn [fst snd]; rewrite ?Lx; auto.
      * intros p Hp. foott.
      * unfold good. cbn [fst snd hb hbounds hv hans set_A set_bounds]. rewrite Lx. repeat split; lia.
    + split; [reflexivity|]. unfold sight, view. cbn [fst snd hA hb hquota hbounds hans hv hloc hlen set_A set_bounds].
      rewrite rd_new, !rd_old by lia. rewrite R2, K2, !K1 by auto. reflexivity.
  - split; [|reflexivity]. constructor; cbn [fst snd]; rewrite ?Lx; auto.
    unfold good. cbn [fst snd hb hbounds hv hans set_A set_bounds]. rewrite Lx. repeat split; lia.
Qed.
Lemma zero_h_ok s : good s -> same_out s (zero_in_b_h s) (zero_in_b (sight s)).
Proof. intros HG. now apply same_checked, zero_h_ok_body. Qed.

Lemma assign_h_ok ul : forall rcs s, good s ->
  let b := rd (fst s) (hb (snd s)) in
  let subx := pick 0 (map fst rcs) b in
  let o := assign_h ul rcs s in
  length (fst (fst o)) = length (fst s)
  /\ (forall p, p <> hv (hans (snd s)) -> rd (fst (fst o)) p = rd (fst s) p)
  /\ foot (snd (fst o)) = foot (snd s)
  /\ match spend subx (hquota (snd s)) with
     | Ok z => snd o = Ok tt /\ snd (fst o) = set_quota z (snd s)
               /\ rd (fst (fst o)) (hv (hans (snd s))) = assign_all ul (map2 pair (map snd rcs) subx) (rd (fst s) (hv (hans (snd s))))
     | NoSolution => snd o = NoSolution
     | Raise e => snd o = Raise e
     end.
Proof.
  induction rcs as [|[r c] rcs IH]; intros [h q] HG; cbn [fst snd assign_h map].
  { cbn. repeat split; auto. now destruct q. }
  pose proof HG as (Gb & Gd & Gv & N1 & N2 & N3). cbn [fst snd] in *. cbv zeta.
  set (h1 := wr h (hv (hans q)) _). assert (L1 : length h1 = length h) by apply wr_len.
  assert (K1 : forall p, p <> hv (hans q) -> rd h1 p = rd h p) by (intros p Hp; apply rd_wr_other; auto).
  rewrite (K1 (hb q)) by auto. set (x := nth r (rd h (hb q)) 0). 
  change (pick 0 (r :: map fst rcs) (rd h (hb q))) with (x :: pick 0 (map fst rcs) (rd h (hb q))). cbn [spend map2 assign_all].
  destruct (0 <=? hquota q - x); cbn [assert_ bind].
  2:{ cbn [fst snd]. repeat split; auto. }
  assert (G1 : good (h1, set_quota (hquota q - x) q)) by goodt.
  specialize (IH _ G1). cbn [fst snd hb hquota hans set_quota] in IH. rewrite (K1 (hb q)) in IH by auto. cbv zeta in IH.
  destruct IH as (L & K & F & R). split; [lia|]. split; [intros p Hp; rewrite K by auto; auto|]. split; [exact F|].
  destruct (spend _ _) as [z| |]; auto. destruct R as (R1 & R2 & R3). split; [auto|]. split; [now rewrite R2|].
  rewrite R3. unfold h1. rewrite rd_wr by auto. reflexivity.
Qed.
Lemma only_h_ok_body s : good s -> same_out s (only_1_body_h s) (only_1_body (sight s)).
Proof.
  intros HG. unfold only_1_body_h. destruct s as [h q]. unfold only_1_body, only_1_with, sight. cbn [fst snd].
  pose proof HG as (Gb & Gd & Gv & N1 & N2 & N3). cbn [fst snd] in *. unfold unknown_loc.
  cbn [view qA qb qbounds qans qquota av aloc alen]. cbv zeta. set (ul := where_ is_unknown _).
  destruct (Nat.eqb (length ul) _); cbn [assert_ bind]; [|split; [now apply ext_refl|reflexivity]].
  set (rcs' := one_element_row_locs _). clearbody rcs'.
  destruct rcs' as [|rc0 rcs0]; [split; [now apply ext_refl|now split]|]. set (rcs := rc0 :: rcs0).
  set (bu := map i8 (matvec _ _)). set (subx := pick 0 (map fst rcs) _).
  destruct (existsb _ rcs); [split; [now apply ext_refl|reflexivity]|].
  destruct (hquota q <? zsum subx); [split; [now apply ext_refl|reflexivity]|].
  destruct (any2 Z.gtb bu _); [split; [now apply ext_refl|reflexivity]|].
  pose proof (assign_h_ok ul rcs (h, q) HG) as HA. cbn [fst snd] in HA. cbv zeta in HA. fold subx in HA.
  destruct (assign_h ul rcs (h, q)) as [[h1 q1] r1]. cbn [fst snd] in HA. destruct HA as (L & K & F & R).
  injection F as F1 F2 F3.
  assert (X1 : ext (h, q) (h1, q1)).
  { constructor; cbn [fst snd]; try lia.
    - intros p _ Hn. apply K. intros ->. apply Hn. simpl. auto.
    - intros p Hp. left. unfold foot in *. now rewrite F1, F2, F3 in Hp.
    - unfold good. cbn [fst snd]. rewrite F1, F2, F3, L. exact HG. }
  destruct (spend subx (hquota q)) as [z| |e]; cbn [bind].
  2:{ subst r1. split; [exact X1|reflexivity]. }
  2:{ subst r1. split; [exact X1|reflexivity]. }
  destruct R as (-> & -> & Rv). cbn [obind]. clear F1 F2 F3.
  cbn [hb hbounds hans hv hA set_quota] in *. rewrite rd_wr by lia. rewrite (K (hb q)) by auto.
  set (b' := map2 _ _ bu). set (h2 := wr h1 (hb q) b'). assert (L2 : length h2 = length h1) by apply wr_len.
  assert (K2 : forall p, p <> hb q -> rd h2 p = rd h1 p) by (intros p Hp; apply rd_wr_other; auto).
  assert (R2 : rd h2 (hb q) = b') by (apply rd_wr; lia).
  assert (X2 : ext (h, q) (h2, set_quota z q)).
  { constructor; cbn [fst snd]; try lia; [|auto|].
    - intros p Hp Hn. unfold foot in Hn. simpl in Hn. rewrite K2, K by intuition. reflexivity.
    - unfold good. cbn [fst snd set_quota hb hbounds hans]. rewrite L2, L. exact HG. }
  destruct (nonneg b'); cbn [assert_ bind]; [|split; [exact X2|reflexivity]].
  rewrite rd_new. rewrite (K2 (hbounds q)), (K (hbounds q)) by auto.
  set (bd := delete _ (rd h (hbounds q))). set (A' := Mat _ _).
  assert (Kx : forall p, (p < length h)%nat -> ~ In p (foot q) -> rd (h2 ++ [bd]) p = rd h p).
  { intros p Hp Hn. rewrite rd_old by lia. unfold foot in Hn. simpl in Hn. rewrite K2, K by intuition. reflexivity. }
  assert (Lx : length (h2 ++ [bd]) = S (length h)) by (rewrite app_len; lia).
  destruct (nonneg bd); cbn [assert_ bind].
  - split; cbn [fst snd].
    + constructor; cbn [fst snd]; rewrite ?Lx; auto.
      * intros p Hp. unfold foot in *. cbn [set_bounds set_A set_quota hb hbounds hans hv In] in *. intuition lia.
      * unfold good. cbn [fst snd hb hbounds hv hans set_A set_bounds set_quota]. rewrite Lx. repeat split; lia.
    + split; [reflexivity|]. unfold sight, view. cbn [fst snd hA hb hquota hbounds hans hv hloc hlen set_A set_bounds set_quota].
      rewrite rd_new, !rd_old by lia. rewrite R2, K2, Rv by auto. reflexivity.
  - split; [|reflexivity]. constructor; cbn [fst snd]; rewrite ?Lx; auto.
    unfold good. cbn [fst snd hb hbounds hv hans set_A set_bounds set_quota]. rewrite Lx. repeat split; lia.
Qed.
Lemma only_h_ok s : good s -> same_out s (only_1_h s) (only_1_element_in_row (sight s)).
Proof. intros HG. now apply same_checked, only_h_ok_body. Qed.

(** ** the loop *)
Definition same_sum (s : st) (t : st + res (out unit)) (t' : question + res question) : Prop :=
  match t, t' with
  | inl s', inl Q' => ext s s' /\ sight s' = Q'
  | inr (Ok o), inr r => same_out s o r
  | _, _ => False
  end.
Lemma copy_res Q : match question_copy Q with Ok D => D = Q | _ => True end.
Proof.
  unfold question_copy, answer_copy, mk_answer, mk_question. destruct (assert_ (Nat.eqb _ _)) as [[]| |]; cbn [bind]; auto.
  match goal with |- context [_ <- ?c ;; Ok (Ans _ _ _)] => destruct c as [[]| |] end; cbn [bind]; auto.
  repeat match goal with |- context [assert_ ?b] => destruct (assert_ b) as [[]| |]; cbn [bind]; auto end.
  destruct Q as [A b q bd [v loc len]]. reflexivity.
Qed.
Lemma copy_h_ok h q : good (h, q) ->
  let o := copy_h h q in
  ext (h, q) (fst o, q) /\ view (fst o) q = view h q
  /\ match question_copy (view h q) with
     | Ok _ => exists d, snd o = Ok d /\ (forall s', ext (fst o, q) s' -> view (fst s') d = view h q)
     | NoSolution => snd o = NoSolution
     | Raise e => snd o = Raise e
     end.
Proof.
  intros HG. pose proof HG as (Gb & Gd & Gv & N1 & N2 & N3). cbn [fst snd] in *. unfold copy_h. cbv zeta.
  set (h1 := h ++ [_]). set (h2 := h1 ++ [_]). set (h3 := h2 ++ [_]). cbn [fst snd].
  assert (L1 : length h1 = S (length h)) by apply app_len. assert (L2 : length h2 = S (length h1)) by apply app_len.
  assert (L3 : length h3 = S (length h2)) by apply app_len.
  assert (K1 : forall p, (p < length h)%nat -> rd h1 p = rd h p) by (intros; now apply rd_old).
  assert (K2 : forall p, (p < length h1)%nat -> rd h2 p = rd h1 p) by (intros; now apply rd_old).
  assert (K3 : forall p, (p < length h2)%nat -> rd h3 p = rd h2 p) by (intros; now apply rd_old).
  assert (Rb : rd h3 (length h) = rd h (hb q)) by (rewrite K3, K2 by lia; apply rd_new).
  assert (Rd : rd h3 (length h1) = rd h (hbounds q)) by (rewrite K3 by lia; unfold h2; rewrite rd_new; apply K1; lia).
  assert (Rv : rd h3 (length h2) = rd h (hv (hans q))) by (unfold h3; rewrite rd_new, K2, K1 by lia; reflexivity).
  assert (KK : forall p, (p < length h)%nat -> rd h3 p = rd h p) by (intros; rewrite K3, K2, K1 by lia; reflexivity).
  assert (HV : view h3 q = view h q) by (unfold view; now rewrite !KK by lia).
  assert (G3 : good (h3, q)) by (unfold good; cbn [fst snd]; repeat split; lia).
  split; [constructor; cbn [fst snd]; auto; lia|]. split; [exact HV|]. rewrite HV.
  destruct (question_copy (view h q)) as [Q'| |]; cbn [bind]; auto.
  eexists. split; [reflexivity|]. intros s' [_ XK _ _]. cbn [fst snd] in XK.
  unfold view. cbn [hA hb hquota hbounds hans hv hloc hlen].
  rewrite !XK, Rb, Rd, Rv; auto; try lia; unfold foot; simpl; lia.
Qed.
Lemma refine_step_ok s : good s -> same_sum s (refine_step_h s) (refine_step (sight s)).
Proof.
  intros HG. destruct s as [h q]. unfold refine_step_h, refine_step, sight. cbn [fst snd].
  destruct (copy_h_ok h q HG) as (XC & VC & RC). cbv zeta in *. destruct (copy_h h q) as [h1 rc]. cbn [fst snd] in *.
  pose proof (copy_res (view h q)) as HD.
  destruct (question_copy (view h q)) as [D| |e]; cbn [bind].
  2,3: subst rc; split; [exact XC|reflexivity].
  subst D. destruct RC as (d & -> & Hd).
  assert (HS : same_out (h1, q) (obind (reduce_col_h (h1, q)) (fun s1 _ => obind (eliminate_h s1) (fun s2 _ => obind (zero_in_b_h s2) (fun s3 _ => only_1_h s3))))
     (Q1 <- reduce_col (view h q) ;; Q2 <- eliminate Q1 ;; Q3 <- zero_in_b Q2 ;; only_1_element_in_row Q3)).
  { rewrite <- VC. change (view h1 q) with (sight (h1, q)). apply same_bind.
    - apply reduce_h_ok. apply XC.
    - intros s1 X1. apply same_bind; [apply eliminate_h_ok; apply X1|]. intros s2 X2.
      apply same_bind; [apply zero_h_ok; apply X2|]. intros s3 X3. apply only_h_ok. apply X3. }
  destruct (obind _ _) as [s' r']. destruct HS as [HX HR]. cbn [fst snd] in *.
  assert (X' : ext (h, q) s') by now apply (ext_trans _ (h1, q)).
  assert (HB : (Q1 <- reduce_col (view h q) ;; Q2 <- eliminate Q1 ;; Q3 <- zero_in_b Q2 ;; Q4 <- only_1_element_in_row Q3 ;; Ok (Q4, question_eqb Q4 (view h q)))
     = (Q4 <- (Q1 <- reduce_col (view h q) ;; Q2 <- eliminate Q1 ;; Q3 <- zero_in_b Q2 ;; only_1_element_in_row Q3) ;; Ok (Q4, question_eqb Q4 (view h q)))).
  { destruct (reduce_col _) as [Q1| |]; cbn [bind]; auto. destruct (eliminate Q1) as [Q2| |]; cbn [bind]; auto.
    destruct (zero_in_b Q2) as [Q3| |]; cbn [bind]; auto. }
  rewrite HB. destruct (Q1 <- _ ;; _) as [Q4| |e]; cbn [bind].
  - destruct HR as [-> HV]. change (view (fst s') (snd s')) with (sight s'). rewrite HV, (Hd s' HX).
    destruct (question_eqb _ _); cbn [same_sum]; (split; [exact X'|]); [split; auto|auto].
  - subst r'. split; auto.
  - subst r'. split; auto.
Qed.
Lemma iter2_ok s0 : forall n s Q, ext s0 s -> sight s = Q -> same_sum s0 (iter2 n refine_step_h s) (iter2 n refine_step Q).
Proof.
  induction n as [|n IH]; intros s Q HX <-; cbn [iter2].
  - pose proof (refine_step_ok s (x_good _ _ HX)) as H. destruct (refine_step_h s) as [s'|[[s' r']| |]], (refine_step (sight s)) as [Q'|r]; cbn [same_sum] in *; try contradiction.
    + destruct H. split; auto. now apply (ext_trans s0 s).
    + destruct H as [H1 H2]. split; auto. now apply (ext_trans s0 s).
  - pose proof (IH s _ HX eq_refl) as H. destruct (iter2 n refine_step_h s) as [s'|[o| |]], (iter2 n refine_step (sight s)) as [Q'|r]; cbn [same_sum] in *; try tauto.
    destruct H as [H1 H2]. apply IH; auto.
Qed.
Lemma refine_ok s : good s ->
  match refine_h s with
  | Ok o => same_out s o (refine (sight s))
  | NoSolution => False
  | Raise e => e = OutOfFuel /\ refine (sight s) = Raise OutOfFuel
  end.
Proof.
  intros HG. unfold refine_h, refine, while_. pose proof (iter2_ok s (mcols (hA (snd s)) + 3) s _ (ext_refl s HG) eq_refl) as H.
  change (mcols (qA (sight s))) with (mcols (hA (snd s))).
  destruct (iter2 _ refine_step_h s) as [s'|[o| |]], (iter2 _ refine_step (sight s)) as [Q'|r]; cbn [same_sum] in *; tauto.
Qed.

(** ** forking *)
Definition inside (h : heap) (q : hquestion) : Prop := forall p, In p (foot q) -> (p < length h)%nat.
Lemma good_iff h q : good (h, q) <-> inside h q /\ NoDup (foot q).
Proof.
  unfold good, inside, foot. cbn [fst snd]. split.
  - intros (a & b & c & d & e & f). split; [intros p [<-|[<-|[<-|[]]]]; auto|].
    repeat constructor; simpl; intuition.
  - intros [H N]. inversion N as [|? ? n1 N1]; subst. inversion N1 as [|? ? n2 N2]; subst. simpl in n1, n2.
    repeat split; try (apply H; simpl; tauto); intuition.
Qed.
Lemma view_same h h' q : (forall p, In p (foot q) -> rd h' p = rd h p) -> view h' q = view h q.
Proof. intros H. unfold view. rewrite !H by (unfold foot; simpl; tauto). reflexivity. Qed.
Lemma mk_question_some A b z bd a : match mk_question A b z bd (Some a) with Ok Q => Q = Qst A b z bd a | _ => True end.
Proof.
  unfold mk_question. repeat match goal with |- context [assert_ ?b] => destruct (assert_ b) as [[]| |]; cbn [bind]; auto end.
Qed.
Definition grows (h h' : heap) : Prop := (length h <= length h')%nat /\ forall p, (p < length h)%nat -> rd h' p = rd h p.
Lemma grows_app h h' x : grows h h' -> grows h (h' ++ [x]).
Proof. intros [a b]. split; [rewrite app_len; lia|]. intros p Hp. rewrite rd_old by lia. auto. Qed.
Lemma grows_trans h h1 h2 : grows h h1 -> grows h1 h2 -> grows h h2.
Proof. intros [a b] [c d]. split; [lia|]. intros p Hp. rewrite d by lia. auto. Qed.
Lemma fork_one_ok q m h x : good (h, q) ->
  let o := fork_one_h q m h x in
  grows h (fst o) /\
  match fork_one (view h q) m x with
  | Ok None => snd o = Ok None
  | Ok (Some Q) => exists c, snd o = Ok (Some c) /\ view (fst o) c = Q /\ good (fst o, c) /\ (forall p, In p (foot c) -> (length h <= p)%nat)
  | NoSolution => snd o = NoSolution
  | Raise e => snd o = Raise e
  end.
Proof.
  intros HG. pose proof HG as (Gb & Gd & Gv & N1 & N2 & N3). cbn [fst snd] in *.
  unfold fork_one_h, fork_one. cbv zeta. cbn [view qA qb qbounds qans qquota].
  destruct (existsb _ _); [split; [split; auto|reflexivity]|]. set (nb := map2 _ _ _).
  set (h1 := h ++ [_]). assert (L1 : length h1 = S (length h)) by apply app_len.
  assert (R1 : rd h1 (length h) = rd h (hv (hans q))) by apply rd_new.
  assert (K1 : forall p, (p < length h)%nat -> rd h1 p = rd h p) by (intros; now apply rd_old).
  assert (W1 : grows h h1) by (split; [lia|auto]).
  rewrite R1. unfold answer_copy. cbn [view qans av aloc alen].
  assert (HM : match mk_answer (rd h (hv (hans q))) (hloc (hans q)) (hlen (hans q)) with Ok a => a = Ans (rd h (hv (hans q))) (hloc (hans q)) (hlen (hans q)) | _ => True end).
  { unfold mk_answer. destruct (assert_ (Nat.eqb _ _)) as [[]| |]; cbn [bind]; auto.
    match goal with |- context [_ <- ?c ;; Ok (Ans _ _ _)] => destruct c as [[]| |] end; cbn [bind]; auto. }
  destruct (mk_answer _ _ _) as [a| |]; cbn [bind fst snd]; [|split; auto..]. subst a. cbn [av aloc alen].
  rewrite (K1 (hv (hans q))) by auto. unfold unknown_loc. cbn [av].
  set (v' := set_nth _ x _). set (h2 := wr h1 (length h) v'). assert (L2 : length h2 = length h1) by apply wr_len.
  assert (R2 : rd h2 (length h) = v') by (apply rd_wr; lia).
  assert (W2 : grows h h2). { split; [lia|]. intros p Hp. unfold h2. rewrite rd_wr_other by lia. auto. }
  set (h3 := h2 ++ [nb]). assert (L3 : length h3 = S (length h2)) by apply app_len.
  assert (W3 : grows h h3) by now apply grows_app. rewrite (proj2 W3 (hbounds q)) by auto.
  set (nbd := delete [m] _). set (h4 := h3 ++ [nbd]). assert (L4 : length h4 = S (length h3)) by apply app_len.
  assert (W4 : grows h h4) by now apply grows_app. split; [exact W4|].
  assert (Rd : rd h4 (length h3) = nbd) by apply rd_new.
  assert (Rb : rd h4 (length h2) = nb) by (unfold h4; rewrite rd_old by lia; apply rd_new).
  assert (Rv : rd h4 (length h) = v') by (unfold h4; rewrite rd_old by lia; unfold h3; rewrite rd_old by lia; exact R2).
  rewrite Rb, Rd, Rv. set (A' := Mat _ _).
  pose proof (mk_question_some A' nb (hquota q - x) nbd (Ans v' (hloc (hans q)) (hlen (hans q)))) as HQ.
  destruct (mk_question _ _ _ _ _) as [Q| |]; cbn [bind]; auto. subst Q.
  eexists. split; [reflexivity|]. split; [|split].
  - unfold view. cbn [hA hb hquota hbounds hans hv hloc hlen]. now rewrite Rb, Rd, Rv.
  - unfold good. cbn [fst snd hb hbounds hans hv]. repeat split; lia.
  - intros p. unfold foot. cbn [hb hbounds hans hv In]. lia.
Qed.
Definition children (os : list (option question)) : list question :=
  flat_map (fun o => match o with Some q => [q] | None => [] end) os.
Lemma fork_all_ok q m : forall vals h, good (h, q) ->
  let o := fork_all_h q m h vals in
  grows h (fst o) /\
  match mapM (fork_one (view h q) m) vals with
  | Ok os => exists qs, snd o = Ok qs /\ map (view (fst o)) qs = children os
      /\ (forall c, In c qs -> inside (fst o) c /\ forall p, In p (foot c) -> (length h <= p)%nat) /\ NoDup (flat_map foot qs)
  | NoSolution => snd o = NoSolution
  | Raise e => snd o = Raise e
  end.
Proof.
  induction vals as [|x vals IH]; intros h HG; cbn [fork_all_h mapM].
  { split; [split; auto|]. exists []. split; [reflexivity|]. split; [reflexivity|]. split; [intros c []|constructor]. }
  destruct (fork_one_ok q m h x HG) as [W1 R1]. cbv zeta in *. destruct (fork_one_h q m h x) as [h1 r1]. cbn [fst snd] in *.
  assert (HV : view h1 q = view h q).
  { apply view_same. intros p Hp. apply W1. apply good_iff in HG. now apply HG. }
  assert (HG1 : good (h1, q)).
  { apply good_iff in HG. apply good_iff. split; [|apply HG]. intros p Hp. destruct W1. apply HG in Hp. lia. }
  destruct (IH h1 HG1) as [W2 R2]. rewrite HV in R2. destruct (fork_all_h q m h1 vals) as [h2 r2]. cbn [fst snd] in *.
  assert (W : grows h h2) by now apply (grows_trans h h1).
  destruct (fork_one _ m x) as [o| |e]; cbn [bind].
  2,3: subst r1; split; auto.
  assert (E1 : exists o', r1 = Ok o' /\ match o with
      | None => o' = None
      | Some Q => exists c, o' = Some c /\ view h1 c = Q /\ good (h1, c) /\ (forall p, In p (foot c) -> (length h <= p)%nat) end).
  { destruct o as [Q|]; [destruct R1 as (c & E & R); exists (Some c); split; auto; exists c; auto|exists None; auto]. }
  destruct E1 as (o' & -> & R1'). clear R1.
  destruct (mapM _ vals) as [os| |e]; cbn [bind].
  2,3: subst r2; split; auto.
  destruct R2 as (qs & -> & EV & HC & ND). split; [exact W|]. cbn [fst snd].
  destruct o as [Q|].
  - destruct R1' as (c & -> & EVc & Gc & Fc). exists (c :: qs). split; [reflexivity|]. apply good_iff in Gc. destruct Gc as [Ic Nc]. split; [|split].
    + cbn [map children flat_map app]. f_equal; [|exact EV]. rewrite <- EVc. apply view_same. intros p Hp. apply W2. now apply Ic.
    + intros c' [<-|Hc'].
      * split; [|exact Fc]. intros p Hp. destruct W2. apply Ic in Hp. lia.
      * destruct (HC c' Hc') as [a b]. split; [exact a|]. intros p Hp. apply b in Hp. destruct W1. lia.
    + cbn [flat_map]. apply NoDup_app_intro; auto. intros p Hp Hp'. apply in_flat_map in Hp'. destruct Hp' as (c' & Hc' & Hp').
      apply (HC c' Hc') in Hp'. apply Ic in Hp. lia.
  - subst o'. exists qs. split; [reflexivity|]. split; [exact EV|]. split; [|exact ND].
    intros c' Hc'. destruct (HC c' Hc') as [a b]. split; [exact a|]. intros p Hp. apply b in Hp. destruct W1. lia.
Qed.
Lemma fork_ok h q : good (h, q) ->
  let o := fork_h h q in
  grows h (fst o) /\
  match fork_enum (view h q) with
  | Ok Qs => exists qs, snd o = Ok qs /\ map (view (fst o)) qs = Qs
      /\ (forall c, In c qs -> inside (fst o) c /\ forall p, In p (foot c) -> (length h <= p)%nat) /\ NoDup (flat_map foot qs)
  | NoSolution => snd o = NoSolution
  | Raise e => snd o = Raise e
  end.
Proof.
  intros HG. unfold fork_h, fork_enum. cbv zeta. change (qbounds (view h q)) with (rd h (hbounds q)). change (qquota (view h q)) with (hquota q).
  destruct (post_check (view h q)) as [?| |]; cbn [bind]; [|split; [split; auto|reflexivity]..].
  destruct (assert_ _) as [[]| |]; cbn [bind]; [|split; [split; auto|reflexivity]..].
  destruct (argmin _) as [m| |]; cbn [bind]; [|split; [split; auto|reflexivity]..].
  destruct (fork_all_ok q m (fork_enum_values (hquota q) (rd h (hbounds q)) m) h HG) as [W R]. cbv zeta in *. split; [exact W|].
  destruct (mapM _ _) as [os| |]; cbn [bind]; auto.
Qed.

(** ** the stack *)
Definition feet (w : store) (l : list nat) : list nat := flat_map (fun i => foot (obj w i)) l.
Section S.
Variables (w0 : store) (i0 : nat).
Hypothesis Hi0 : (i0 < length (objs w0))%nat.
Hypothesis G0 : good (arrs w0, obj w0 i0).
Record inv (w : store) (stack : list nat) (Qs : list question) : Prop := {
  v_seen : map (seen w) stack = Qs;
  v_ids : forall i, In i stack -> (i < length (objs w))%nat /\ (i = i0 \/ (length (objs w0) <= i)%nat);
  v_in : forall p, In p (feet w stack) -> (p < length (arrs w))%nat;
  v_nd : NoDup (feet w stack);
  v_len : (length (arrs w0) <= length (arrs w))%nat /\ (length (objs w0) <= length (objs w))%nat;
  v_own : forall p, In p (feet w stack) -> In p (foot (obj w0 i0)) \/ (length (arrs w0) <= p)%nat;
  v_arrs : forall p, (p < length (arrs w0))%nat -> ~ In p (foot (obj w0 i0)) -> rd (arrs w) p = rd (arrs w0) p;
  v_objs : forall j, (j < length (objs w0))%nat -> j <> i0 -> obj w j = obj w0 j }.
(** the caller's object, once it has been taken from the stack *)
Definition root (w : store) (stack : list nat) : Prop :=
  ~ In i0 stack /\ (forall p, In p (foot (obj w i0)) -> (p < length (arrs w))%nat /\ ~ In p (feet w stack)) /\ NoDup (foot (obj w i0))
  /\ forall o, refine_h (arrs w0, obj w0 i0) = Ok o -> obj w i0 = snd (fst o) /\ seen w i0 = sight (fst o).
Lemma inv_init : inv w0 [i0] [seen w0 i0].
Proof.
  apply good_iff in G0. destruct G0 as [GI GN]. constructor; auto; unfold feet; cbn [flat_map]; rewrite ?app_nil_r; auto.
  intros i [<-|[]]. auto.
Qed.
Lemma obj_set w h i q j : (i < length (objs w))%nat -> obj (Store h (set_nth i q (objs w))) j = if Nat.eqb j i then q else obj w j.
Proof.
  intros Hi. unfold obj. cbn [objs]. destruct (Nat.eqb_spec j i) as [->|Hn]; [now apply set_nth_same|apply set_nth_other; auto].
Qed.
Lemma feet_same w w' l : (forall j, In j l -> obj w' j = obj w j) -> feet w' l = feet w l.
Proof. intros H. unfold feet. induction l as [|j l IH]; auto. cbn [flat_map]. rewrite H by (simpl; auto). f_equal. apply IH. intros; apply H; simpl; auto. Qed.
Lemma in_feet w l i p : In i l -> In p (foot (obj w i)) -> In p (feet w l).
Proof. intros. apply in_flat_map. eauto. Qed.
Lemma nodup_app_inv {A} (a b : list A) : NoDup (a ++ b) -> NoDup a /\ NoDup b /\ forall x, In x a -> ~ In x b.
Proof.
  induction a as [|x a IH]; cbn [app]; intros H; [repeat split; auto; constructor|]. inversion H; subst. destruct (IH H3) as (a1 & a2 & a3).
  split; [constructor; auto; intros Hx; apply H2; apply in_or_app; auto|]. split; auto.
  intros y [<-|Hy] Hb; [apply H2; apply in_or_app; auto|now apply (a3 y)].
Qed.
Lemma inv_good w i rest Qs : inv w (i :: rest) Qs -> good (arrs w, obj w i).
Proof.
  intros I. apply good_iff. split.
  - intros p Hp. apply (v_in _ _ _ I). now apply (in_feet w _ i); [left|].
  - pose proof (v_nd _ _ _ I) as H. unfold feet in H. cbn [flat_map] in H. now apply nodup_app_inv in H.
Qed.
Lemma after_refine w i rest Q Qs h q : inv w (i :: rest) (Q :: Qs) -> ((w = w0 /\ i = i0 /\ rest = []) \/ root w (i :: rest)) ->
  ext (arrs w, obj w i) (h, q) -> (exists r, refine_h (arrs w, obj w i) = Ok ((h, q), r)) ->
  let w1 := Store h (set_nth i q (objs w)) in
  inv w1 rest Qs /\ root w1 rest /\ obj w1 i = q.
Proof.
  intros I HR [XL XK XF XG] HV w1. cbn [fst snd] in *.
  pose proof (v_nd _ _ _ I) as ND. unfold feet in ND. cbn [flat_map] in ND. apply nodup_app_inv in ND. destruct ND as (ND1 & ND2 & ND3). fold (feet w rest) in *.
  destruct (v_ids _ _ _ I i (or_introl eq_refl)) as [Hi Hi'].
  assert (HO : forall j, obj w1 j = if Nat.eqb j i then q else obj w j) by (intros j; now apply obj_set).
  assert (Hr : forall j, In j rest -> j <> i).
  { intros j Hj ->. apply (ND3 (hb (obj w i))); [simpl; auto|]. apply (in_feet w rest i); simpl; auto. }
  assert (HOr : forall j, In j rest -> obj w1 j = obj w j).
  { intros j Hj. rewrite HO. destruct (Nat.eqb_spec j i); [now apply Hr in Hj|reflexivity]. }
  assert (HF : feet w1 rest = feet w rest) by now apply feet_same.
  assert (Hin : forall p, In p (feet w rest) -> In p (feet w (i :: rest))) by (intros p Hp; unfold feet; cbn [flat_map]; apply in_or_app; auto).
  assert (HK : forall p, In p (feet w rest) -> rd h p = rd (arrs w) p).
  { intros p Hp. apply XK; [now apply (v_in _ _ _ I), Hin|]. intros Hp'. now apply (ND3 p). }
  assert (HI : inv w1 rest Qs).
  { constructor; cbn [arrs objs w1].
    - pose proof (v_seen _ _ _ I) as E. cbn [map] in E. injection E as _ E. rewrite <- E. apply map_ext_in. intros j Hj. unfold seen. rewrite HOr by auto.
      apply view_same. intros p Hp. apply HK. now apply (in_feet w rest j).
    - intros j Hj. rewrite set_nth_length. apply (v_ids _ _ _ I). now right.
    - intros p. rewrite HF. intros Hp. apply Hin, (v_in _ _ _ I) in Hp. lia.
    - now rewrite HF.
    - rewrite set_nth_length. pose proof (v_len _ _ _ I). lia.
    - intros p. rewrite HF. intros Hp. now apply Hin, (v_own _ _ _ I) in Hp.
    - intros p Hp Hn. rewrite XK; [now apply (v_arrs _ _ _ I)|pose proof (v_len _ _ _ I); lia|].
      intros Hp'. apply (in_feet w (i :: rest) i) in Hp'; [|now left]. apply (v_own _ _ _ I) in Hp'. destruct Hp'; [auto|lia].
    - intros j Hj Hn. rewrite HO. destruct (Nat.eqb_spec j i) as [->|]; [lia|]. now apply (v_objs _ _ _ I). }
  split; [exact HI|]. split; [|rewrite HO; now rewrite Nat.eqb_refl].
  apply good_iff in XG. destruct XG as [XI XN].
  destruct HR as [(-> & -> & ->)|(R1 & R2 & RN & R3)].
  - split; [auto|]. rewrite HO, Nat.eqb_refl. split; [intros p Hp; split; [now apply XI|auto]|]. split; [exact XN|].
    intros o Ho. destruct HV as [r HV]. rewrite HV in Ho. injection Ho as <-. unfold seen. rewrite HO, Nat.eqb_refl. auto.
  - assert (Hne : i0 <> i) by (intros ->; apply R1; now left).
    assert (HOi : obj w1 i0 = obj w i0) by (rewrite HO; destruct (Nat.eqb_spec i0 i); [easy|reflexivity]).
    split; [intros Hx; apply R1; now right|]. rewrite HOi. split; [|split; [exact RN|]].
    + intros p Hp. destruct (R2 p Hp) as [a b]. cbn [arrs w1]. split; [lia|]. rewrite HF. intros Hx. now apply b, Hin.
    + intros o Ho. destruct (R3 o Ho) as [Ra Rb]. split; [exact Ra|]. rewrite <- Rb. unfold seen. rewrite HOi. apply view_same. intros p Hp. destruct (R2 p Hp) as [a b].
      apply XK; auto. intros Hx. apply b. apply (in_feet w _ i); [now left|auto].
Qed.
Lemma flat_map_seq qs : forall (pre post : list hquestion) h, flat_map (fun j => foot (obj (Store h (pre ++ qs ++ post)) j)) (seq (length pre) (length qs)) = flat_map foot qs.
Proof.
  induction qs as [|q qs IH]; intros pre post h; [reflexivity|]. cbn [length seq flat_map]. f_equal.
  - unfold obj. cbn [objs]. rewrite app_nth2, Nat.sub_diag by lia. reflexivity.
  - specialize (IH (pre ++ [q]) post h). rewrite app_length in IH. cbn [length] in IH. rewrite Nat.add_1_r, <- app_assoc in IH. exact IH.
Qed.
Lemma map_seq_seen qs : forall (pre post : list hquestion) h, map (seen (Store h (pre ++ qs ++ post))) (seq (length pre) (length qs)) = map (view h) qs.
Proof.
  induction qs as [|q qs IH]; intros pre post h; [reflexivity|]. cbn [length seq map]. f_equal.
  - unfold seen, obj. cbn [objs arrs]. rewrite app_nth2, Nat.sub_diag by lia. reflexivity.
  - specialize (IH (pre ++ [q]) post h). rewrite app_length in IH. cbn [length] in IH. rewrite Nat.add_1_r, <- app_assoc in IH. exact IH.
Qed.
Lemma after_fork w rest Qs h2 qs : inv w rest Qs -> root w rest -> (i0 < length (objs w))%nat -> grows (arrs w) h2 ->
  (forall c, In c qs -> inside h2 c /\ forall p, In p (foot c) -> (length (arrs w) <= p)%nat) -> NoDup (flat_map foot qs) ->
  let w2 := Store h2 (objs w ++ qs) in let stack := rev (seq (length (objs w)) (length qs)) ++ rest in
  inv w2 stack (rev (map (view h2) qs) ++ Qs) /\ root w2 stack.
Proof.
  intros I (R1 & R2 & RN & R3) Hlt [WL WK] HC ND w2 stack.
  assert (HO : forall j, (j < length (objs w))%nat -> obj w2 j = obj w j) by (intros j Hj; unfold obj, w2; cbn [objs]; now apply app_nth1).
  assert (HOr : forall j, In j rest -> obj w2 j = obj w j) by (intros j Hj; apply HO; now apply (v_ids _ _ _ I)).
  assert (HF : feet w2 rest = feet w rest) by now apply feet_same.
  assert (HFs : feet w2 (seq (length (objs w)) (length qs)) = flat_map foot qs).
  { unfold feet, w2. pose proof (flat_map_seq qs (objs w) [] h2) as E. now rewrite app_nil_r in E. }
  assert (HP : Permutation (feet w2 stack) (flat_map foot qs ++ feet w rest)).
  { unfold stack, feet. rewrite flat_map_app. fold (feet w2 rest). rewrite HF. apply Permutation_app_tail.
    rewrite <- HFs. unfold feet. apply Permutation_flat_map. symmetry. apply Permutation_rev. }
  assert (HPin : forall p, In p (feet w2 stack) -> In p (flat_map foot qs) \/ In p (feet w rest)).
  { intros p Hp. apply (Permutation_in _ HP) in Hp. now apply in_app_or in Hp. }
  assert (HQ : forall p, In p (flat_map foot qs) -> (length (arrs w) <= p < length h2)%nat).
  { intros p Hp. apply in_flat_map in Hp. destruct Hp as (c & Hc & Hp). destruct (HC c Hc) as [a b]. split; [now apply b|now apply a]. }
  pose proof (v_len _ _ _ I) as [VL1 VL2].
  split.
  - constructor; unfold w2; cbn [arrs objs].
    + unfold stack. rewrite map_app, map_rev. f_equal.
      * f_equal. pose proof (map_seq_seen qs (objs w) [] h2) as E. now rewrite app_nil_r in E.
      * rewrite <- (v_seen _ _ _ I). apply map_ext_in. intros j Hj. unfold seen. rewrite HOr by auto. apply view_same. intros p Hp. apply WK.
        apply (v_in _ _ _ I). now apply (in_feet w rest j).
    + intros j Hj. rewrite app_length. apply in_app_or in Hj. destruct Hj as [Hj|Hj].
      * apply in_rev, in_seq in Hj. lia.
      * apply (v_ids _ _ _ I) in Hj. lia.
    + intros p Hp. destruct (HPin p Hp) as [H|H]; [now apply HQ|]. apply (v_in _ _ _ I) in H. lia.
    + apply (Permutation_NoDup (Permutation_sym HP)). apply NoDup_app_intro; auto; [apply (v_nd _ _ _ I)|].
      intros p Hp Hp'. apply HQ in Hp. apply (v_in _ _ _ I) in Hp'. lia.
    + rewrite app_length. lia.
    + intros p Hp. destruct (HPin p Hp) as [H|H]; [apply HQ in H; right; lia|now apply (v_own _ _ _ I)].
    + intros p Hp Hn. rewrite WK by lia. now apply (v_arrs _ _ _ I).
    + intros j Hj Hn. rewrite HO by lia. now apply (v_objs _ _ _ I).
  - split; [|split; [|split; [now rewrite HO|]]].
    + intros Hx. apply in_app_or in Hx. destruct Hx as [Hx|Hx]; [apply in_rev, in_seq in Hx; lia|auto].
    + rewrite HO by auto. intros p Hp. destruct (R2 p Hp) as [a b]. unfold w2. cbn [arrs]. split; [lia|].
      intros Hx. destruct (HPin p Hx) as [H|H]; [apply HQ in H; lia|auto].
    + intros o Ho. destruct (R3 o Ho) as [Ra Rb]. rewrite HO by auto. split; [exact Ra|]. rewrite <- Rb. unfold seen. rewrite HO by auto. apply view_same. intros p Hp. apply WK. now apply R2.
Qed.

Record fin (w : store) : Prop := {
  f_len : (length (arrs w0) <= length (arrs w))%nat /\ (length (objs w0) <= length (objs w))%nat;
  f_arrs : forall p, (p < length (arrs w0))%nat -> ~ In p (foot (obj w0 i0)) -> rd (arrs w) p = rd (arrs w0) p;
  f_objs : forall j, (j < length (objs w0))%nat -> j <> i0 -> obj w j = obj w0 j;
  f_good : good (arrs w, obj w i0);
  f_root : forall o, refine_h (arrs w0, obj w0 i0) = Ok o -> obj w i0 = snd (fst o) /\ seen w i0 = sight (fst o) }.
Lemma inv_fin w stack Qs : inv w stack Qs -> root w stack -> fin w.
Proof. intros [] (_ & Hp & HN & H). constructor; auto. apply good_iff. split; [intros p; apply Hp|exact HN]. Qed.

Definition same_turn (x : (store * list nat * list (list Z)) + res (store * res (list (list Z))))
  (y : (list question * list (list Z)) + res (list (list Z))) : Prop :=
  match x, y with
  | inl (w, stack, ys), inl (Qs, ys') => ys' = ys /\ inv w stack Qs /\ ((w = w0 /\ stack = [i0]) \/ root w stack)
  | inr (Ok (w, r)), inr r' => r = r' /\ fin w
  | inr (Raise OutOfFuel), inr (Raise OutOfFuel) => True
  | _, _ => False
  end.
Lemma turn_ok w stack ys Qs : inv w stack Qs -> (w = w0 /\ stack = [i0]) \/ root w stack ->
  same_turn (question_step_h (w, stack, ys)) (question_step (Qs, ys)).
Proof.
  intros I HR. pose proof (v_seen _ _ _ I) as E. destruct stack as [|i rest]; cbn [map] in E; subst Qs.
  { cbn [question_step_h question_step same_turn]. split; [reflexivity|]. destruct HR as [[_ HR]|HR]; [discriminate|]. now apply (inv_fin w [] _ I). }
  cbn [question_step_h question_step]. pose proof (inv_good _ _ _ _ I) as HG.
  pose proof (refine_ok _ HG) as HF. change (sight (arrs w, obj w i)) with (seen w i) in HF.
  destruct (refine_h (arrs w, obj w i)) as [[[h q] r]| |e] eqn:ERH; [|destruct HF|destruct HF as [-> ->]; exact Logic.I].
  destruct HF as [HX HS]. cbn [fst snd] in *.
  assert (HR' : (w = w0 /\ i = i0 /\ rest = []) \/ root w (i :: rest)).
  { destruct HR as [[-> E]|HR]; [left; injection E as -> ->; auto|auto]. }
  assert (HV : exists r, refine_h (arrs w, obj w i) = Ok ((h, q), r)) by (rewrite ERH; eauto).
  destruct (after_refine w i rest _ _ h q I HR' HX HV) as (I1 & R1 & O1). cbv zeta in *. set (w1 := Store h _) in *.
  destruct (refine (seen w i)) as [Q'| |e].
  2:{ subst r. cbn [same_turn]. auto. }
  2:{ subst r. cbn [same_turn]. split; auto. now apply (inv_fin w1 rest _ I1). }
  destruct HS as [-> HS]. assert (ES : seen w1 i = Q') by (unfold seen; rewrite O1; exact HS). rewrite ES.
  assert (Hlt : (i0 < length (objs w1))%nat) by (pose proof (v_len _ _ _ I1); lia).
  destruct (answer_unknown (qans Q')).
  - rewrite O1. change (arrs w1) with h. destruct (fork_ok h q (x_good _ _ HX)) as [W FK]. cbv zeta in *.
    change (view h q) with (sight (h, q)) in FK. rewrite HS in FK.
    destruct (fork_h h q) as [h2 r2]. cbn [fst snd] in *. destruct (fork_enum Q') as [Qs| |e].
    + destruct FK as (qs & -> & EV & HC & ND). cbn [same_turn]. split; [reflexivity|].
      destruct (after_fork w1 rest _ h2 qs I1 R1 Hlt W HC ND) as [I2 R2]. rewrite EV in I2. auto.
    + subst r2. cbn [same_turn]. split; [reflexivity|].
      destruct (after_fork w1 rest _ h2 [] I1 R1 Hlt W ltac:(intros c []) ltac:(constructor)) as [I2 R2]. cbn [length seq rev app map] in *. rewrite app_nil_r in *. auto.
    + subst r2. cbn [same_turn]. split; [reflexivity|].
      destruct (after_fork w1 rest _ h2 [] I1 R1 Hlt W ltac:(intros c []) ltac:(constructor)) as [I2 R2]. cbn [length seq rev app map] in *. rewrite app_nil_r in *.
      now apply (inv_fin _ _ _ I2).
  - destruct (binarize (qans Q')) as [x| |e]; cbn [same_turn]; split; auto. now apply (inv_fin w1 rest _ I1).
Qed.
Lemma turns_ok : forall n w stack ys Qs, inv w stack Qs -> (w = w0 /\ stack = [i0]) \/ root w stack ->
  same_turn (iter2 n question_step_h (w, stack, ys)) (iter2 n question_step (Qs, ys)).
Proof.
  induction n as [|n IH]; intros w stack ys Qs I HR; cbn [iter2]; [now apply turn_ok|].
  pose proof (IH w stack ys Qs I HR) as H.
  destruct (iter2 n question_step_h _) as [[[w1 stack1] ys1]|[[w1 r1]| |e1]], (iter2 n question_step (Qs, ys)) as [[Qs1 ys1']|r1']; cbn [same_turn] in H; try contradiction; auto.
  - destruct H as (-> & I1 & R1). now apply IH.
  - destruct e1; contradiction.
Qed.
Lemma run_ok : match solve_question_h w0 i0 with
  | Ok (w, r) => r = solve_question (seen w0 i0) /\ fin w
  | NoSolution => False
  | Raise e => e = OutOfFuel /\ solve_question (seen w0 i0) = Raise OutOfFuel
  end.
Proof.
  unfold solve_question_h, solve_question, while_. pose proof (turns_ok (question_fuel (seen w0 i0)) w0 [i0] [] _ inv_init (or_introl (conj eq_refl eq_refl))) as H.
  destruct (iter2 _ question_step_h _) as [[[w1 stack1] ys1]|[[w1 r1]| |e1]], (iter2 _ question_step _) as [[Qs1 ys1']|r1']; cbn [same_turn] in H; try contradiction; auto.
  - destruct e1; contradiction.
  - destruct e1; try contradiction. destruct r1' as [| |e]; try contradiction. destruct e; try contradiction. auto.
Qed.
End S.

Theorem in_place_proof w i : separate w i -> solve_question (seen w i) <> Raise OutOfFuel ->
  exists w', solve_question_h w i = Ok (w', solve_question (seen w i))
  /\ (forall p, (p < length (arrs w))%nat -> p <> hb (obj w i) -> p <> hbounds (obj w i) -> p <> hv (hans (obj w i)) -> rd (arrs w') p = rd (arrs w) p)
  /\ (forall j, (j < length (objs w))%nat -> j <> i -> obj w' j = obj w j)
  /\ separate w' i
  /\ (forall Q', refine (seen w i) = Ok Q' -> seen w' i = Q').
Proof.
  intros [Hi HG] HF. pose proof (run_ok w i Hi HG) as H. destruct (solve_question_h w i) as [[w' r]| |e]; [|destruct H|tauto].
  destruct H as [-> [Hl Ha Ho Hg Hr]]. exists w'. split; [reflexivity|]. split; [|split; [exact Ho|split; [split; [lia|exact Hg]|]]].
  2:{ intros Q' HQ. pose proof (refine_ok (arrs w, obj w i) HG) as HO. change (sight (arrs w, obj w i)) with (seen w i) in HO. rewrite HQ in HO.
    destruct (refine_h (arrs w, obj w i)) as [o| |e]; [|destruct HO|destruct HO; discriminate]. destruct (Hr o eq_refl) as [_ ->]. apply HO. }
  intros p Hp n1 n2 n3. apply Ha; auto. unfold foot. simpl. intuition.
Qed.

(** ** calling it again (C93) *)
Lemma vec_eqb_eq a b : vec_eqb a b = true -> a = b.
Proof. apply list_eqb_spec. intros x y. apply Z.eqb_eq. Qed.
Lemma question_eqb_eq p q : question_eqb p q = true -> p = q.
Proof.
  destruct p as [A b z bd [v loc len]], q as [A' b' z' bd' [v' loc' len']]. unfold question_eqb, answer_eqb. cbn [qA qb qquota qbounds qans av aloc alen].
  rewrite !Bool.andb_true_iff. intros ((((H1 & H2) & H3) & H4) & ((H5 & H6) & H7)). apply mat_eqb_spec in H1. apply vec_eqb_eq in H2, H4, H5, H6.
  apply Z.eqb_eq in H3, H7. now subst.
Qed.
Lemma refine_step_stop Q Q' : refine_step Q = inr (Ok Q') -> Q' = Q.
Proof.
  unfold refine_step. pose proof (copy_res Q) as HD. destruct (question_copy Q) as [D| |]; cbn [bind]; try discriminate. subst D.
  destruct (reduce_col Q) as [Q1| |]; cbn [bind]; try discriminate. destruct (eliminate Q1) as [Q2| |]; cbn [bind]; try discriminate.
  destruct (zero_in_b Q2) as [Q3| |]; cbn [bind]; try discriminate. destruct (only_1_element_in_row Q3) as [Q4| |]; cbn [bind]; try discriminate.
  destruct (question_eqb Q4 Q) eqn:E; [|discriminate]. intros H. injection H as <-. now apply question_eqb_eq.
Qed.
Lemma loops_stop n : forall s Q', loops refine_step n s (Ok Q') -> refine_step Q' = inr (Ok Q').
Proof.
  induction n as [|n IH]; intros s Q' H; inversion H; subst; [|eauto].
  match goal with E : refine_step s = _ |- _ => pose proof (refine_step_stop _ _ E); subst; exact E end.
Qed.
Lemma iter2_stop {S R} (step : S -> S + R) s r : step s = inr r -> forall n, iter2 n step s = inr r.
Proof. intros H. induction n as [|n IH]; cbn [iter2]; [exact H|]. now rewrite IH. Qed.
Lemma refine_fixed Q Q' : refine Q = Ok Q' -> refine Q' = Ok Q'.
Proof.
  unfold refine, while_. intros H. pose proof (iter2_prefix refine_step (mcols (qA Q) + 3) Q) as HP.
  destruct (iter2 _ refine_step Q) as [|r]; [discriminate|]. subst r. destruct HP as [n HP]. apply loops_stop in HP.
  now rewrite (iter2_stop _ _ _ HP).
Qed.
Theorem refined_same_proof Q Q' : loose Q -> refine Q = Ok Q' -> refine Q' = Ok Q' /\ solve_question Q' = solve_question Q.
Proof.
  intros HL HR. pose proof (refine_fixed _ _ HR) as HR'. split; [exact HR'|].
  assert (HL' : loose Q') by now apply (refine_any Q HL).
  destruct (question_turns_proof Q HL) as (n & HT & _). unfold solve_question at 1.
  apply (while_loops _ _ _ n); [apply quiet_fuel; now apply (solve_question_any Q')|].
  assert (HS : question_step ([Q'], []) = question_step ([Q], [])) by (cbn [question_step]; now rewrite HR, HR').
  inversion HT; subst; [apply loops_end|eapply loops_turn]; try (rewrite HS; eassumption). assumption.
Qed.
Theorem again_proof w i w' r : separate w i -> loose (seen w i) -> (exists Q', refine (seen w i) = Ok Q') ->
  solve_question_h w i = Ok (w', r) -> exists w'', solve_question_h w' i = Ok (w'', r).
Proof.
  intros HS HL [Q' HR] H. destruct (in_place_proof w i HS (quiet_fuel _ (solve_question_any _ HL))) as (w1 & E & _ & _ & HS' & HQ).
  rewrite E in H. injection H as <- <-. specialize (HQ Q' HR).
  assert (HL' : loose Q') by now apply (refine_any _ HL).
  destruct (in_place_proof w1 i HS') as (w2 & E2 & _).
  - rewrite HQ. apply quiet_fuel. now apply solve_question_any.
  - exists w2. rewrite E2, HQ. f_equal. f_equal. now apply refined_same_proof.
Qed.
Lemma sane_loose Q : sane Q -> loose Q.
Proof. intros (a & b & c & d & e & f & g). now constructor. Qed.
Theorem in_place_sane w i : separate w i -> sane (seen w i) ->
  exists w', solve_question_h w i = Ok (w', solve_question (seen w i)).
Proof.
  intros HS HL. apply sane_loose in HL. destruct (in_place_proof w i HS (quiet_fuel _ (solve_question_any _ HL))) as (w' & E & _). eauto.
Qed.
Theorem again_sane w i Q' w' r : separate w i -> sane (seen w i) -> refine (seen w i) = Ok Q' ->
  solve_question_h w i = Ok (w', r) -> exists w'', solve_question_h w' i = Ok (w'', r).
Proof. intros HS HL HR HW. apply (again_proof w i w' r HS (sane_loose _ HL)); eauto. Qed.
Theorem refined_same_sane Q Q' : sane Q -> refine Q = Ok Q' -> refine Q' = Ok Q' /\ solve_question Q' = solve_question Q.
Proof. intros HL. apply refined_same_proof. now apply sane_loose. Qed.

Theorem used_up_separate : separate used_up 0.
Proof. unfold separate. cbn. lia. Qed.
Theorem used_up_sane : sane (seen used_up 0).
Proof.
  unfold sane. cbn. split.
    - intros row [<-|[<-|[<-|[]]]]; (split; [reflexivity|]); intros x Hx; unfold bit; cbn in Hx; lia.
    - split; [reflexivity|]. split; [intros x Hx; cbn in Hx; lia|]. split; [reflexivity|]. split; [intros x Hx; cbn in Hx; lia|]. split; [lia|reflexivity].
Qed.
Theorem again_refuted_proof :
  ~ (forall w i w' r, separate w i -> sane (seen w i) -> solve_question_h w i = Ok (w', r) ->
       exists w'', solve_question_h w' i = Ok (w'', r)).
Proof.
  intros H.
  pose proof used_up_separate as HS. pose proof used_up_sane as HL.
  pose (w' := match solve_question_h used_up 0 with Ok (w', _) => w' | _ => used_up end).
  assert (E : solve_question_h used_up 0 = Ok (w', Ok [])) by (vm_compute; reflexivity).
  destruct (H _ _ _ _ HS HL E) as [w'' E2].
  assert (E3 : match solve_question_h w' 0 with Ok (_, r) => r | _ => NoSolution end = Ok [[1; 0; 0]]) by (vm_compute; reflexivity).
  rewrite E2 in E3. discriminate.
Qed.
Theorem used_up_answers : solve_question (seen used_up 0) = Ok []
  /\ exists w' w'', solve_question_h used_up 0 = Ok (w', Ok []) /\ solve_question_h w' 0 = Ok (w'', Ok [[1; 0; 0]]).
Proof.
  split; [vm_compute; reflexivity|].
  exists (match solve_question_h used_up 0 with Ok (w', _) => w' | _ => used_up end).
  eexists. split; vm_compute; reflexivity.
Qed.

(** ** after an exception (C94) *)
Definition leaves (f : question -> res question) (s : st) (o : out unit) : Prop :=
  snd o = NoSolution ->
  match f (sight s) with
  | NoSolution => sight (fst o) = sight s
  | Ok Q1 => post_check Q1 = NoSolution /\ sight (fst o) = Q1
  | Raise _ => False
  end.
Lemma leaves_checked f s o : same_out s o (f (sight s)) -> (snd o = NoSolution -> fst o = s) -> leaves f s (checked o).
Proof.
  intros [HX HR] HN. destruct o as [s' r]. cbn [fst snd] in *. unfold leaves, checked, obind.
  destruct (f (sight s)) as [Q1| |e].
  - destruct HR as [-> HQ]. cbn [fst snd]. change (view (fst s') (snd s')) with (sight s'). rewrite HQ.
    destruct (post_check Q1); cbn [bind]; try discriminate. auto.
  - subst r. cbn [fst snd]. intros _. now rewrite HN.
  - subst r. cbn [snd]. discriminate.
Qed.
Lemma reduce_leaves s : good s -> leaves reduce_col_body s (reduce_col_h s).
Proof.
  intros HG. apply leaves_checked; [now apply reduce_h_ok_body|]. destruct s as [h q]. unfold reduce_col_body_h. cbv zeta.
  destruct (_ <? _)%nat; cbn [fst snd]; auto. destruct (unique_encode _); cbn [fst snd]; auto.
  destruct (_ <? _)%nat; cbn [fst snd]; auto. destruct (existsb _ _); cbn [fst snd]; auto.
  destruct (nonneg _); cbn [fst snd]; [|discriminate]. 
  unfold mk_answer. match goal with |- context [assert_ (Nat.eqb ?a ?b)] => destruct (Nat.eqb a b) end; cbn [assert_ bind fst snd]; [|discriminate].
  match goal with |- context [match ?l with [] => Ok tt | _ => _ end] => destruct l as [|l0 t] end; cbn [bind].
  - destruct (answer_fits _ _); cbn [fst snd]; discriminate.
  - destruct (l0 =? 0); cbn [assert_ bind fst snd]; [|discriminate]. destruct (forallb _ _); cbn [assert_ bind fst snd]; [|discriminate].
    destruct (_ <? _); cbn [assert_ bind fst snd]; [|discriminate]. destruct (answer_fits _ _); cbn [fst snd]; discriminate.
Qed.
Lemma eliminate_leaves s : good s -> leaves eliminate_body s (eliminate_h s).
Proof.
  intros HG. apply leaves_checked; [now apply eliminate_h_ok_body|]. destruct s as [h q]. unfold eliminate_body_h.
  destruct (Nat.eqb _ _); cbn [fst snd]; auto. destruct (elim _ _) as [[Ae be]| |]; cbn [fst snd]; auto. cbv zeta.
  destruct (nonneg _); cbn [fst snd]; discriminate.
Qed.
Lemma zero_leaves s : good s -> leaves zero_in_b_body s (zero_in_b_h s).
Proof.
  intros HG. apply leaves_checked; [now apply zero_h_ok_body|]. destruct s as [h q]. unfold zero_in_b_body_h. cbv zeta.
  destruct (Nat.eqb _ _); cbn [fst snd]; [|discriminate]. destruct (nonneg _); cbn [fst snd]; discriminate.
Qed.
Lemma assign_no ul : forall rcs s, snd (assign_h ul rcs s) <> NoSolution.
Proof.
  induction rcs as [|[r c] rcs IH]; intros [h q]; cbn [assign_h snd]; [discriminate|]. cbv zeta. destruct (0 <=? _); [apply IH|discriminate].
Qed.
Lemma only_leaves s : good s -> leaves only_1_body s (only_1_h s).
Proof.
  intros HG. apply leaves_checked; [now apply only_h_ok_body|]. destruct s as [h q]. unfold only_1_body_h. cbv zeta.
  destruct (Nat.eqb _ _); cbn [fst snd]; [|discriminate]. destruct (one_element_row_locs _) as [|rc rcs]; cbn [fst snd]; [discriminate|].
  destruct (existsb _ _); cbn [fst snd]; auto. destruct (_ <? _); cbn [fst snd]; auto. destruct (any2 _ _ _); cbn [fst snd]; auto.
  match goal with |- context [assign_h ?a ?b ?c] => pose proof (assign_no a b c) as HA; destruct (assign_h a b c) as [[h1 q1] r1] end.
  cbn [snd] in HA. destruct r1 as [[]| |]; [|easy|cbn [obind snd]; discriminate]. cbn [obind].
  destruct (nonneg _); [|discriminate]. destruct (nonneg _); discriminate.
Qed.
Lemma gives_up_bind s o f g rest (nexth : st -> out unit) : same_out s o (g (sight s)) -> leaves f s o ->
  (forall Q, g Q = (Q' <- f Q ;; post_check Q')) ->
  (forall s1, ext s s1 -> snd (nexth s1) = NoSolution -> gives_up rest (sight s1) (sight (fst (nexth s1)))) ->
  snd (obind o (fun s1 _ => nexth s1)) = NoSolution ->
  gives_up (f :: rest) (sight s) (sight (fst (obind o (fun s1 _ => nexth s1)))).
Proof.
  intros [HX HR] HL HG HN. destruct o as [s1 r]. unfold leaves in HL. cbn [fst snd] in *. rewrite HG in HR. cbn [gives_up].
  destruct (f (sight s)) as [Q1| |e]; cbn [bind] in HR.
  - pose proof (post_check_id Q1) as HP. destruct (post_check Q1) as [Q2| |e] eqn:EP.
    + subst Q2. destruct HR as [-> <-]. cbn [obind]. now apply HN.
    + subst r. cbn [obind fst snd]. intros _. now apply HL.
    + subst r. cbn [obind fst snd]. discriminate.
  - subst r. cbn [obind fst snd]. intros _. now apply HL.
  - subst r. cbn [obind fst snd]. discriminate.
Qed.
Lemma assert_no {A} b (f : unit -> res A) : (forall x, f x <> NoSolution) -> bind (assert_ b) f <> NoSolution.
Proof. destruct b; cbn [assert_ bind]; [auto|discriminate]. Qed.
Lemma copy_no Q : question_copy Q <> NoSolution.
Proof.
  unfold question_copy, answer_copy, mk_answer, mk_question.
  destruct (Nat.eqb _ _); cbn [assert_ bind]; [|discriminate].
  destruct (aloc (qans Q)) as [|l0 t] eqn:E; cbn [bind].
  - do 5 (apply assert_no; intros _). cbn [bind]. discriminate.
  - destruct (l0 =? 0); cbn [assert_ bind]; [|discriminate]. destruct (forallb _ _); cbn [assert_ bind]; [|discriminate].
    destruct (_ <? _); cbn [assert_ bind]; [|discriminate]. do 5 (apply assert_no; intros _). cbn [bind]. discriminate.
Qed.
Lemma obind_unit (o : out unit) : obind o (fun s _ => (s, Ok tt)) = o.
Proof. destruct o as [s [[]| |]]; reflexivity. Qed.
Lemma turn_leaves s : good s -> match refine_step_h s with
  | inr (Ok (s', NoSolution)) => gives_up bodies (sight s) (sight s')
  | _ => True
  end.
Proof.
  intros HG. destruct s as [h q]. unfold refine_step_h. cbn [fst snd].
  destruct (copy_h_ok h q HG) as (XC & VC & RC). cbv zeta in *.
  destruct (copy_h h q) as [h1 rc]. cbn [fst snd] in *. pose proof (copy_no (view h q)) as HC.
  destruct (question_copy (view h q)) as [D| |e]; [|easy|subst rc; exact Logic.I].
  destruct RC as (d & -> & _).
  assert (HS : let o := obind (reduce_col_h (h1, q)) (fun s1 _ => obind (eliminate_h s1) (fun s2 _ => obind (zero_in_b_h s2) (fun s3 _ => only_1_h s3))) in
    snd o = NoSolution -> gives_up bodies (sight (h1, q)) (sight (fst o))).
  { cbv zeta. unfold bodies.
    apply (gives_up_bind (h1, q) _ reduce_col_body reduce_col); [apply reduce_h_ok; apply XC|apply reduce_leaves; apply XC|reflexivity|].
    intros s1 X1.
    apply (gives_up_bind s1 _ eliminate_body eliminate); [apply eliminate_h_ok; apply X1|apply eliminate_leaves; apply X1|reflexivity|].
    intros s2 X2.
    apply (gives_up_bind s2 _ zero_in_b_body zero_in_b); [apply zero_h_ok; apply X2|apply zero_leaves; apply X2|reflexivity|].
    intros s3 X3. rewrite <- (obind_unit (only_1_h s3)).
    apply (gives_up_bind s3 _ only_1_body only_1_element_in_row [] (fun s => (s, Ok tt))); [apply only_h_ok; apply X3|apply only_leaves; apply X3|reflexivity|].
    intros s4 _. cbn [snd]. discriminate. }
  cbv zeta in HS. destruct (obind _ _) as [s' r']. cbn [fst snd] in HS. change (sight (h, q)) with (view h q). rewrite <- VC.
  destruct r' as [[]| |]; [destruct (question_eqb _ _)|now apply HS|]; exact Logic.I.
Qed.
Inductive turns_to : question -> question -> Prop :=
| to_here Q : turns_to Q Q
| to_next Q P P' : turns_to Q P -> refine_step P = inl P' -> turns_to Q P'.
Lemma turns_left Q P : turns_to Q P -> forall X, left_half_refined P X -> left_half_refined Q X.
Proof. induction 1 as [|Q P P' H IH E]; intros X HX; [exact HX|]. apply IH. now apply (left_later P P'). Qed.
Lemma iter2_leaves Q0 : forall n s, good s -> turns_to Q0 (sight s) ->
  match iter2 n refine_step_h s with
  | inl s' => good s' /\ turns_to Q0 (sight s')
  | inr (Ok (s', NoSolution)) => left_half_refined Q0 (sight s')
  | _ => True
  end.
Proof.
  induction n as [|n IH]; intros s HG HT; cbn [iter2].
  - pose proof (turn_leaves s HG) as HL. pose proof (refine_step_ok s HG) as HS. destruct (refine_step_h s) as [s'|[[s' [| |]]| |]]; try exact Logic.I.
    + destruct (refine_step (sight s)) as [Q'|] eqn:E; [|contradiction]. destruct HS as [HX HE]. split; [apply HX|]. apply (to_next Q0 (sight s)); [exact HT|]. now rewrite HE.
    + apply (turns_left _ _ HT). now apply left_now.
  - pose proof (IH s HG HT) as H. destruct (iter2 n refine_step_h s) as [s'|r]; [|exact H]. destruct H as [H1 H2]. now apply IH.
Qed.
Lemma refine_no_answers Q : sane Q -> refine Q = NoSolution -> solve_question Q = Ok [].
Proof.
  intros HL HR. apply sane_loose in HL. destruct (question_turns_proof Q HL) as (n & HT & _).
  assert (E1 : question_step ([Q], []) = inl ([], [])) by (cbn [question_step]; now rewrite HR).
  inversion HT; subst; [congruence|]. match goal with H : question_step ([Q], []) = inl ?a, L : loops _ _ ?a _ |- _ => rewrite E1 in H; injection H as <-; inversion L; subst end.
  - match goal with H : question_step ([], []) = inr _ |- _ => cbn in H; congruence end.
  - match goal with H : question_step ([], []) = inl _ |- _ => cbn in H; discriminate end.
Qed.
Theorem half_refined_proof w i w' r : separate w i -> sane (seen w i) -> refine (seen w i) = NoSolution ->
  solve_question_h w i = Ok (w', r) -> r = Ok [] /\ left_half_refined (seen w i) (seen w' i).
Proof.
  intros HS HL HR HW. pose proof HS as [Hi HG].
  pose proof (run_ok w i Hi HG) as H. rewrite HW in H. destruct H as [-> HF]. split; [now apply refine_no_answers|].
  pose proof (refine_ok (arrs w, obj w i) HG) as HO. change (sight (arrs w, obj w i)) with (seen w i) in HO. rewrite HR in HO.
  destruct (refine_h (arrs w, obj w i)) as [o| |e] eqn:EH; [|destruct HO|destruct HO; discriminate]. destruct (f_root _ _ _ HF o EH) as [_ ->].
  destruct HO as [HX HN]. destruct o as [s' r']. cbn [fst snd] in *. subst r'.
  unfold refine_h, while_ in EH. pose proof (iter2_leaves (seen w i) (mcols (hA (snd (arrs w, obj w i))) + 3) (arrs w, obj w i) HG (to_here _)) as HI.
  destruct (iter2 _ refine_step_h _) as [|r0]; [discriminate|]. subst r0. exact HI.
Qed.
(** a step that raises [NoSolution] *)
Theorem step_leaves_proof h q : let s := (h, q) in
  (hb q < length h)%nat -> (hbounds q < length h)%nat -> (hv (hans q) < length h)%nat ->
  hb q <> hbounds q -> hb q <> hv (hans q) -> hbounds q <> hv (hans q) ->
  forall f g, In (f, g) [(reduce_col_h, reduce_col_body); (eliminate_h, eliminate_body); (zero_in_b_h, zero_in_b_body); (only_1_h, only_1_body)] ->
  forall s', f s = (s', NoSolution) ->
  match g (view h q) with
  | NoSolution => view (fst s') (snd s') = view h q
  | Ok Q1 => post_check Q1 = NoSolution /\ view (fst s') (snd s') = Q1
  | Raise _ => False
  end.
Proof.
  intros s a b c d e f0 f g HI s' E. assert (HG : good s) by (unfold good; cbn [fst snd s]; tauto).
  assert (HL : leaves g s (f s)).
  { destruct HI as [HI|[HI|[HI|[HI|[]]]]]; injection HI as <- <-; [now apply reduce_leaves|now apply eliminate_leaves|now apply zero_leaves|now apply only_leaves]. }
  rewrite E in HL. exact (HL eq_refl).
Qed.

(** ** the whole program (C95) *)
Definition wgrows (w w' : store) : Prop :=
  grows (arrs w) (arrs w') /\ (length (objs w) <= length (objs w'))%nat /\ forall j, (j < length (objs w))%nat -> obj w' j = obj w j.
Lemma wgrows_refl w : wgrows w w.
Proof. repeat split; auto. Qed.
Lemma wgrows_trans a b c : wgrows a b -> wgrows b c -> wgrows a c.
Proof.
  intros (g1 & l1 & o1) (g2 & l2 & o2). split; [now apply (grows_trans _ (arrs b))|]. split; [lia|]. intros j Hj. rewrite o2 by lia. auto.
Qed.
Definition agrees {A} (w : store) (o : store * res A) (r : res A) : Prop := wgrows w (fst o) /\ snd o = r.
Lemma advance_h_ok w m : agrees w (advance_h w m) (advance m).
Proof.
  unfold advance_h, advance. destruct (solved m); cbn [negb assert_ bind]; [split; [apply wgrows_refl|reflexivity]|].
  unfold from_matrix_h. destruct (from_matrix m) as [Q| |e]; [|split; [apply wgrows_refl|reflexivity]..].
  cbv zeta. set (n := length (arrs w)). set (o := HQ _ _ _ _ _). set (w1 := Store _ _). set (i := length (objs w)).
  assert (Ho : obj w1 i = o) by (unfold obj, w1, i; cbn [objs]; rewrite app_nth2, Nat.sub_diag by lia; reflexivity).
  assert (R : forall j, (j < 3)%nat -> rd (arrs w1) (n + j) = nth j [qb Q; qbounds Q; av (qans Q)] []).
  { intros j Hj. unfold rd, w1. cbn [arrs]. unfold n. rewrite app_nth2 by lia. f_equal. lia. }
  assert (HV : seen w1 i = Q).
  { unfold seen. rewrite Ho. unfold view, o. cbn [hA hb hquota hbounds hans hv hloc hlen].
    rewrite (R 1%nat), (R 2%nat) by lia. pose proof (R 0%nat ltac:(lia)) as R0. rewrite Nat.add_0_r in R0. rewrite R0. cbn [nth].
    destruct Q as [A b z bd [v loc len]]. reflexivity. }
  assert (L1 : length (arrs w1) = (n + 3)%nat) by (unfold w1; cbn [arrs]; rewrite app_length; reflexivity).
  assert (L2 : length (objs w1) = S i) by (unfold w1; cbn [objs]; rewrite app_length; cbn [length]; lia).
  assert (W1 : wgrows w w1).
  { unfold w1. split; [split|split]; cbn [arrs objs].
    - rewrite app_length. lia.
    - intros p Hp. unfold rd. now apply app_nth1.
    - rewrite app_length. lia.
    - intros j Hj. unfold obj. cbn [objs]. now apply app_nth1. }
  assert (G : good (arrs w1, obj w1 i)).
  { rewrite Ho. unfold good, o. cbn [fst snd hb hbounds hans hv]. rewrite L1. lia. }
  pose proof (run_ok w1 i ltac:(lia) G) as H. rewrite HV in H. unfold run_question.
  assert (W2 : forall w2, fin w1 i w2 -> wgrows w w2).
  { intros w2 [[fl fo] fa fj _ _]. destruct W1 as ((g1 & g2) & g3 & g4). split; [split|split]; try lia.
    - intros p Hp. rewrite fa; [now apply g2|lia|]. rewrite Ho. unfold foot, o. cbn [hb hbounds hans hv In]. unfold n. lia.
    - intros j Hj. rewrite fj; [now apply g4|lia|unfold i; lia]. }
  destruct (solve_question_h w1 i) as [[w2 r]| |e].
  - destruct H as [-> HF]. apply W2 in HF. destruct (solve_question Q) as [xs| |e]; cbn [bind]; split; auto.
  - destruct H.
  - destruct H as [-> ->]. cbn [bind]. split; auto.
Qed.
Lemma advance_all_ok l : forall w, agrees w (advance_all_h w l) (advance_all l).
Proof.
  unfold advance_all. induction l as [|m l IH]; intros w; cbn [advance_all_h mapM]; [split; [apply wgrows_refl|reflexivity]|].
  destruct (advance_h_ok w m) as [W1 E1]. destruct (advance_h w m) as [w1 r1]. cbn [fst snd] in *. subst r1.
  destruct (advance m) as [xs| |e]; cbn [bind]; [|split; auto..].
  destruct (IH w1) as [W2 E2]. destruct (advance_all_h w1 l) as [w2 r2]. cbn [fst snd] in *.
  assert (W : wgrows w w2) by now apply (wgrows_trans w w1).
  destruct (mapM advance l) as [ls| |e]; cbn [bind] in *; subst r2; split; auto.
Qed.
Lemma solve_loop_ok : forall fuel w lst ys, agrees w (solve_loop_h fuel w lst ys) (solve_loop fuel lst ys).
Proof.
  induction fuel as [|fuel IH]; intros w lst ys; destruct lst as [|m lst]; cbn [solve_loop_h solve_loop]; try (split; [apply wgrows_refl|reflexivity]).
  destruct (advance_all_ok (lst_undone (m :: lst)) w) as [W1 E1]. destruct (advance_all_h w _) as [w1 r1]. cbn [fst snd] in *. subst r1.
  destruct (advance_all _) as [lst'| |e]; cbn [bind]; [|split; auto..].
  destruct (IH w1 lst' (ys ++ lst_done (m :: lst))) as [W2 E2]. split; [now apply (wgrows_trans w w1)|exact E2].
Qed.
Lemma solve_h_ok w m : agrees w (solve_h w m) (solve m).
Proof.
  unfold solve_h, solve. destruct (advance_h_ok w m) as [W1 E1]. destruct (advance_h w m) as [w1 r1]. cbn [fst snd] in *. subst r1.
  destruct (advance m) as [lst| |e]; cbn [bind]; [|split; auto..].
  destruct (advance_all_ok (lst_undone lst) w1) as [W2 E2]. destruct (advance_all_h w1 _) as [w2 r2]. cbn [fst snd] in *. subst r2.
  assert (W : wgrows w w2) by now apply (wgrows_trans w w1).
  destruct (advance_all _) as [lst'| |e]; cbn [bind]; [|split; auto..].
  destruct (solve_loop_ok (mcols m - mnrows m) w2 lst' (lst_done lst)) as [W3 E3]. split; [now apply (wgrows_trans w w2)|exact E3].
Qed.
Theorem program_proof w v k l u : exists w', run_main_h w v k l u = (w', run_main v k l u)
  /\ (forall p, (p < length (arrs w))%nat -> rd (arrs w') p = rd (arrs w) p)
  /\ (forall j, (j < length (objs w))%nat -> obj w' j = obj w j).
Proof.
  assert (H : agrees w (run_main_h w v k l u) (run_main v k l u)).
  { unfold run_main_h, run_main. destruct (assert_srg v k l u) as [[]| |]; cbn [bind]; [|split; [apply wgrows_refl|reflexivity]..].
    destruct (seed v k l u) as [m| |]; cbn [bind]; [apply solve_h_ok|split; [apply wgrows_refl|reflexivity]..]. }
  destruct (run_main_h w v k l u) as [w' r]. destruct H as [((_ & H1) & _ & H2) H]. cbn [fst snd] in *. exists w'. subst r. auto.
Qed.
Theorem solve_twice_proof w m : exists w' w'', solve_h w m = (w', solve m) /\ solve_h w' m = (w'', solve m).
Proof.
  pose proof (solve_h_ok w m) as [_ H]. destruct (solve_h w m) as [w' r]. cbn [snd] in H. subst r.
  pose proof (solve_h_ok w' m) as [_ H]. destruct (solve_h w' m) as [w'' r] eqn:E. cbn [snd] in H. subst r. exists w', w''. auto.
Qed.
