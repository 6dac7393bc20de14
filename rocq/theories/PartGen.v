(** [partition.enum] and [fork.enum] value by value. *)
From Verif Require Import Np ModelGauss Model Spec QSpec Lib PartProps QuestionProps ForkFacts ModelGen GenProps ModelPart.
From Coq Require Import ZifyBool ZifyNat Sorting.Sorted.

(** ** srg/partition.py *)
Fixpoint runs (xs : list (list Z)) (r : event (list Z) * parting) : Prop :=
  match xs with
  | [] => r = (Stopped, PartEnded)
  | x :: xs' => exists g', r = (Yielded x, g') /\ runs xs' (part_next g')
  end.
Lemma runs_stream xs : forall g n, runs xs (part_next g) -> nexts part_next n g = stream_of xs [] n.
Proof.
  induction xs as [|x xs IH]; intros g n H; (destruct n as [|n]; [reflexivity|]); cbn [runs] in H.
  - cbn [nexts]. rewrite H, stream_nil. cbn [repeat]. f_equal. now apply nexts_stopped.
  - destruct H as (g' & E & H). cbn [nexts]. rewrite E, stream_cons. f_equal. now apply IH.
Qed.
Lemma runs_inner s v vs others zs : runs zs (part_loop (part_begin others) s others vs) ->
  forall ts r, runs ts r ->
  runs (map (cons v) ts ++ zs)
    (let (e, inner') := r in
     match e with
     | Yielded t => (Yielded (v :: t), PartAmong s v vs others inner')
     | Stopped => part_loop (part_begin others) s others vs
     | Raised e => (Raised e, PartEnded)
     | RaisedNoSolution => (RaisedNoSolution, PartEnded)
     end).
Proof.
  intros Hz. induction ts as [|t ts IH]; intros r H; cbn [runs] in H.
  - now rewrite H.
  - destruct H as (g' & E & H). rewrite E. cbn [map app runs]. eexists. split; [reflexivity|]. exact (IH _ H).
Qed.
Lemma runs_loop s others (f : Z -> list (list Z)) vs :
  (forall v, In v vs -> runs (f (s - v)) (part_begin others (s - v))) ->
  runs (flat_map (fun v => map (cons v) (f (s - v))) vs) (part_loop (part_begin others) s others vs).
Proof.
  induction vs as [|v vs IH]; intros H; [reflexivity|].
  exact (runs_inner s v vs others _ (IH (fun w Hw => H w (or_intror Hw))) _ _ (H v (or_introl eq_refl))).
Qed.
Lemma runs_begin bounds : bounds <> [] -> forall s, 0 <= s -> runs (partition_enum bounds s) (part_begin bounds s).
Proof.
  induction bounds as [|b others IH]; intros Hb s Hs; [easy|].
  cbn [part_begin]. destruct (Z.ltb_spec s 0); [lia|]. destruct others as [|b' others].
  - cbn [partition_enum]. destruct (s <=? b); [|reflexivity]. now exists PartEnded.
  - apply (runs_loop s (b' :: others) (partition_enum (b' :: others))). intros v Hv. apply IH; [easy|].
    apply in_zrange in Hv. lia.
Qed.
Lemma part_generator_proof s bounds : 0 <= s -> bounds <> [] ->
  exists l, (forall n, nexts part_next n (PartBegin s bounds) = stream_of l [] n) /\ StronglySorted lex_lt l
    /\ forall t, In t l <->
         length t = length bounds /\ (forall i, (i < length bounds)%nat -> 0 <= nth i t 0 <= nth i bounds 0) /\ zsum t = s.
Proof.
  intros Hs Hb. exists (partition_enum bounds s). split; [|split; [apply partition_sorted|]].
  - intros n. apply runs_stream. now apply runs_begin.
  - intros t. now apply partition_in.
Qed.
Lemma part_refused_proof s bounds : s < 0 \/ bounds = [] ->
  forall n, nexts part_next (S n) (PartBegin s bounds) = Raised AssertionError :: repeat Stopped n.
Proof.
  intros H n. cbn [nexts part_next].
  assert (E : part_begin bounds s = (Raised AssertionError, PartEnded)).
  { destruct bounds; cbn [part_begin]; destruct (Z.ltb_spec s 0); auto. destruct H; [lia|easy]. }
  rewrite E. f_equal. now apply nexts_stopped.
Qed.
Lemma part_list_proof s bounds l : partition_enum_api s bounds = Ok l ->
  forall n, nexts part_next n (PartBegin s bounds) = stream_of l [] n.
Proof.
  unfold partition_enum_api. destruct (Z.leb_spec 0 s); cbn [assert_ bind]; [|easy].
  destruct (Nat.leb_spec 1 (length bounds)); cbn [assert_ bind]; [|easy].
  intros E n. injection E as <-. apply runs_stream, runs_begin; auto. now destruct bounds.
Qed.

(** ** srg/fork.py *)
Lemma use_stream quota vals : forall n g, use_next g = use_among quota vals ->
  nexts use_next n g = stream_of (map (fun q => (q, quota - q)) vals) [] n.
Proof.
  induction vals as [|q vals IH]; intros n g H; (destruct n as [|n]; [reflexivity|]); cbn [nexts use_among] in *; rewrite H; cbn [map].
  - rewrite stream_nil. cbn [repeat]. f_equal. now apply nexts_stopped.
  - rewrite stream_cons. f_equal. now apply IH.
Qed.
Lemma use_generator_proof quota bounds loc : (loc < length bounds)%nat ->
  exists l, (forall n, nexts use_next n (UseBegin quota bounds loc) = stream_of l [] n)
    /\ StronglySorted (fun x y => fst x < fst y) l
    /\ forall q r, In (q, r) l <->
         q + r = quota /\ 0 <= q <= nth loc bounds 0 /\ r <= zsum bounds - nth loc bounds 0.
Proof.
  intros Hl. destruct (fork_values_proof quota bounds loc Hl) as (Hin & Hs).
  exists (map (fun q => (q, quota - q)) (fork_enum_values quota bounds loc)). split; [|split].
  - intros n. apply use_stream. cbn [use_next]. rewrite (nth_error_nth' bounds 0 Hl). reflexivity.
  - revert Hs. generalize (fork_enum_values quota bounds loc). induction 1 as [|x l H IH HF]; cbn [map]; constructor; auto.
    apply Forall_map. exact HF.
  - intros q r. rewrite in_map_iff. split.
    + intros (q' & E & H). injection E as -> <-. apply Hin in H. lia.
    + intros (E & H). exists q. split; [f_equal; lia|]. apply Hin. lia.
Qed.
Lemma use_refused_proof quota bounds loc : (length bounds <= loc)%nat ->
  forall n, nexts use_next (S n) (UseBegin quota bounds loc) = Raised IndexError :: repeat Stopped n.
Proof.
  intros H n. cbn [nexts use_next]. rewrite (proj2 (nth_error_None bounds loc) H). f_equal. now apply nexts_stopped.
Qed.
