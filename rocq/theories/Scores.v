(** * The VSIDS scores stay comparable

    Scores start at 0 and are only incremented and halved; as IEEE doubles they stay
    non-negative and never become NaN, so they are totally ordered by [<] and exceed the
    start value -1 of the search for the maximum. *)

From Coq Require Import Floats.SpecFloat.
From Verif Require Import Spec Outcome State ModelCounter ModelHeur ModelLearn Base Trail Reduce
  Counter CounterUndo Propagate Choose.

Definition nonneg (x : spec_float) : Prop :=
  match x with
  | S754_zero _ => True
  | S754_infinity s => s = false
  | S754_nan => False
  | S754_finite s _ _ => s = false
  end.

Definition mnn (r : shr_record) : Prop := 0 <= shr_m r.

Lemma shr_1_nn r : mnn r -> mnn (shr_1 r).
Proof.
  unfold mnn. destruct r as [m r s]. simpl. destruct m as [|[p|p|]|p]; simpl; lia.
Qed.

Lemma iter_pos_nn p r : mnn r -> mnn (SpecFloat.iter_pos shr_1 p r).
Proof.
  revert r. induction p as [p IH|p IH|]; intros r H; simpl; auto using shr_1_nn.
Qed.

Lemma shr_nn r e n : mnn r -> mnn (fst (shr r e n)).
Proof. intro H. destruct n; simpl; auto. apply iter_pos_nn; auto. Qed.

Lemma shr_fexp_nn p em m e l : 0 <= m -> mnn (fst (shr_fexp p em m e l)).
Proof.
  intro H. unfold shr_fexp. apply shr_nn. unfold mnn.
  destruct l as [|[| |]]; simpl; auto.
Qed.

Lemma round_aux_nn p em m e l : 0 <= m -> nonneg (binary_round_aux p em false m e l).
Proof.
  intro H. unfold binary_round_aux.
  pose proof (shr_fexp_nn p em m e l H) as H1.
  destruct (shr_fexp p em m e l) as (r, e'). simpl in H1.
  assert (H2 : 0 <= round_nearest_even (shr_m r) (loc_of_shr_record r)).
  { unfold mnn in H1. unfold round_nearest_even.
    destruct (loc_of_shr_record r) as [|[| |]]; try lia. destruct (Z.even (shr_m r)); lia. }
  pose proof (shr_fexp_nn p em _ e' loc_Exact H2) as H3.
  destruct (shr_fexp p em _ e' loc_Exact) as (r', e''). simpl in H3.
  destruct (shr_m r') eqn:Em; simpl; auto.
  - destruct (e'' <=? em - p); simpl; auto.
  - unfold mnn in H3. lia.
Qed.

Lemma add_one_nn x : nonneg x -> nonneg (f64_add x f64_one).
Proof.
  intro H. unfold f64_add, f64_one. destruct x as [s|s| |s m e]; try (simpl in *; auto; fail).
  simpl in H. subst s. unfold SFadd. cbn [cond_Zopp].
  set (a := fst (shl_align m e _)). set (b := fst (shl_align _ _ _)).
  change (Z.pos a + Z.pos b) with (Z.pos (a + b)). unfold binary_normalize, binary_round.
  destruct (shl_align (a + b) _ _) as (mz, ez). apply round_aux_nn. lia.
Qed.

Lemma half_nn x : nonneg x -> nonneg (f64_div x f64_two).
Proof.
  intro H. unfold f64_div, f64_two. destruct x as [s|s| |s m e]; try (simpl in *; auto; fail).
  - simpl in *. subst; auto.
  - simpl in H. subst s. unfold SFdiv. simpl xorb.
    destruct (SFdiv_core_binary _ _ _ _ _ _) as ((q, e'), lz) eqn:E.
    apply round_aux_nn. unfold SFdiv_core_binary in E.
    set (m2 := Z.pos 4503599627370496) in *.
    set (m' := match _ with Z0 => _ | Zpos _ => _ | Zneg _ => _ end) in E.
    assert (Hm : 0 <= m').
    { subst m'. destruct (e - -51 - _); try lia. rewrite Z.shiftl_nonneg. lia. }
    pose proof (Z_div_pos m' m2) as D. unfold Z.div in D.
    destruct (Z.div_eucl m' m2) as (q', r'). injection E as <- _ _.
    apply D; auto. subst m2; lia.
Qed.

(** [<] on non-negative scores. *)
Lemma ltb_mone x : nonneg x -> SFltb f64_mone x = true.
Proof. destruct x as [s|s| |s m e]; simpl; intro H; try subst s; auto; tauto. Qed.

Lemma ltb_irrefl x : SFltb x x = false.
Proof.
  destruct x as [[]|[]| |[] m e]; unfold SFltb; simpl; auto;
  rewrite Z.compare_refl; rewrite ?Pos.compare_cont_refl; auto.
Qed.

Lemma ltb_trans_neg x y z : nonneg x -> nonneg y -> nonneg z ->
  SFltb x y = true -> SFltb x z = false -> SFltb y z = false.
Proof.
  unfold SFltb.
  destruct x as [sx|sx| |sx mx ex], y as [sy|sy| |sy my ey], z as [sz|sz| |sz mz ez]; simpl;
    intros X Y Z; try tauto; subst; try (intros; congruence).
  destruct (Z.compare_spec ex ey), (Z.compare_spec ex ez), (Z.compare_spec ey ez); subst;
    try lia; try (intros; congruence);
  try change (Pos.compare_cont Eq mx my) with (Pos.compare mx my);
  try change (Pos.compare_cont Eq mx mz) with (Pos.compare mx mz);
  try change (Pos.compare_cont Eq my mz) with (Pos.compare my mz);
  destruct (Pos.compare_spec mx my), (Pos.compare_spec mx mz), (Pos.compare_spec my mz);
    try (intros; congruence); try (exfalso; lia).
Qed.

Lemma ltb_false_trans x y z : nonneg x -> nonneg y -> nonneg z ->
  SFltb x y = false -> SFltb y z = false -> SFltb x z = false.
Proof.
  unfold SFltb.
  destruct x as [sx|sx| |sx mx ex], y as [sy|sy| |sy my ey], z as [sz|sz| |sz mz ez]; simpl;
    intros X Y Z; try tauto; subst; try (intros; congruence).
  destruct (Z.compare_spec ex ey), (Z.compare_spec ex ez), (Z.compare_spec ey ez); subst;
    try lia; try (intros; congruence);
  try change (Pos.compare_cont Eq mx my) with (Pos.compare mx my);
  try change (Pos.compare_cont Eq mx mz) with (Pos.compare mx mz);
  try change (Pos.compare_cont Eq my mz) with (Pos.compare my mz);
  destruct (Pos.compare_spec mx my), (Pos.compare_spec mx mz), (Pos.compare_spec my mz);
    try (intros; congruence); try (exfalso; lia).
Qed.

(** ** The literal with the highest score *)

Definition scores_ok (s : state) : Prop := forall l, nonneg (vs s l).

Lemma vsids_fold_nn s xs b : scores_ok s -> nonneg (fst b) ->
  let r := fold_left (vsids_try s) xs b in
  nonneg (fst r) /\ (r = b \/ In (snd r) xs /\ fst r = vs s (snd r)) /\
  SFltb (fst r) (fst b) = false /\
  forall x, In x xs -> SFltb (fst r) (vs s x) = false.
Proof.
  intro S. revert b. induction xs as [|x xs IH]; intros b B; simpl.
  - split; auto. split; auto. split; [apply ltb_irrefl|]. intros x [].
  - remember (vsids_try s b x) as b' eqn:Eb. unfold vsids_try in Eb.
    destruct (SFltb (fst b) (vs s x)) eqn:E; subst b'.
    + destruct (IH (vs s x, x) (S x)) as (I1 & I2 & I3 & I4). simpl in I3.
      set (r := fold_left (vsids_try s) xs (vs s x, x)) in *.
      split; auto. split; [|split].
      * right. destruct I2 as [I2|(I2 & I2')]; [rewrite I2|]; simpl; auto.
      * destruct (SFltb (fst r) (fst b)) eqn:F; auto.
        pose proof (ltb_trans_neg _ _ _ I1 B (S x) F I3). congruence.
      * intros y [<-|Hy]; auto.
    + destruct (IH b B) as (I1 & I2 & I3 & I4).
      set (r := fold_left (vsids_try s) xs b) in *.
      split; auto. split; [|split; auto].
      * destruct I2 as [I2|(I2 & I2')]; auto.
      * intros y [<-|Hy]; auto. apply (ltb_false_trans _ (fst b)); auto.
Qed.

Lemma vsids_fold s xs l0 : scores_ok s ->
  let r := fold_left (vsids_try s) xs (f64_mone, l0) in
  (xs = [] /\ snd r = l0) \/
  (In (snd r) xs /\ forall x, In x xs -> SFltb (vs s (snd r)) (vs s x) = false).
Proof.
  intro S. destruct xs as [|x xs]; [left; auto|right].
  simpl. remember (vsids_try s (f64_mone, l0) x) as b' eqn:Eb. unfold vsids_try in Eb. simpl fst in Eb.
  rewrite ltb_mone in Eb by auto. subst b'.
  destruct (vsids_fold_nn s xs (vs s x, x) S (S x)) as (I1 & I2 & I3 & I4). simpl in I3.
  set (r := fold_left (vsids_try s) xs (vs s x, x)) in *.
  destruct I2 as [I2|(I2 & I2')]; [rewrite I2 in *|]; simpl.
  - split; auto. intros y [<-|Hy]; auto.
  - split; auto. rewrite <- I2'. intros y [<-|Hy]; auto.
Qed.

Definition cand_lits (t : trail) (f : Z -> Z -> list lit) : list lit :=
  flat_map (fun a => f (fst a) (snd a)) (filter (candidate t) (atoms_from t 0)).

Definition both (v d : Z) : list lit := [mkLit v d true; mkLit v d false].
Definition onlypos (v d : Z) : list lit := [mkLit v d true].

Lemma choose_vsids_fold s :
  choose_vsids s = snd (fold_left (vsids_try s) (cand_lits (tr s) both) (f64_mone, mkLit (-1) (-1) false)).
Proof.
  unfold choose_vsids, cand_lits. f_equal. generalize (f64_mone, mkLit (-1) (-1) false).
  induction (atoms_from (tr s) 0) as [|a xs IH]; intro b; simpl; auto.
  unfold vsids_step at 2. destruct (candidate (tr s) a); rewrite IH; auto.
Qed.

Lemma choose_vsids_pos_fold s :
  choose_vsids_pos s = snd (fold_left (vsids_try s) (cand_lits (tr s) onlypos) (f64_mone, mkLit (-1) (-1) true)).
Proof.
  unfold choose_vsids_pos, cand_lits. f_equal. generalize (f64_mone, mkLit (-1) (-1) true).
  induction (atoms_from (tr s) 0) as [|a xs IH]; intro b; simpl; auto.
  unfold vsids_pos_step at 2. destruct (candidate (tr s) a); rewrite IH; auto.
Qed.

Lemma in_cand_lits t f l : 0 <= NV t -> DOM t 0 = 0 ->
  (In l (cand_lits t f) <-> exists v d, open_atom t v d /\ In l (f v d)).
Proof.
  intros N D. unfold cand_lits. rewrite in_flat_map. split.
  - intros ((v, d) & H & Hl). apply filter_In in H. destruct H as (H1 & H2).
    exists v, d. split; auto. apply candidate_iff in H2. split; [apply in_atoms0; auto|auto].
  - intros (v & d & (R & V & U) & Hl). exists (v, d). split; auto. apply filter_In.
    split; [apply in_atoms0; auto|apply candidate_iff; auto].
Qed.

Lemma choose_vsids_spec s :
  0 <= NV (tr s) -> DOM (tr s) 0 = 0 -> scores_ok s ->
  (lvar (choose_vsids s) = -1 /\ forall v d, ~ open_atom (tr s) v d) \/
  (open_atom (tr s) (lvar (choose_vsids s)) (lval (choose_vsids s)) /\
   forall l, open_atom (tr s) (lvar l) (lval l) -> SFltb (vs s (choose_vsids s)) (vs s l) = false).
Proof.
  intros N D S. rewrite choose_vsids_fold.
  destruct (vsids_fold s (cand_lits (tr s) both) (mkLit (-1) (-1) false) S) as [(E & ->)|(I & M)].
  - left. split; auto. intros v d O. cut (In (mkLit v d true) (cand_lits (tr s) both)).
    { rewrite E. intros []. }
    apply in_cand_lits; auto. exists v, d. split; simpl; auto.
  - right. apply in_cand_lits in I; auto. destruct I as (v & d & O & I). split.
    + destruct I as [<-|[<-|[]]]; auto.
    + intros l Ol. apply M. apply in_cand_lits; auto. exists (lvar l), (lval l). split; auto.
      destruct l as [v' d' []]; simpl; auto.
Qed.

Lemma choose_vsids_pos_spec s :
  0 <= NV (tr s) -> DOM (tr s) 0 = 0 -> scores_ok s ->
  (lvar (choose_vsids_pos s) = -1 /\ forall v d, ~ open_atom (tr s) v d) \/
  (open_atom (tr s) (lvar (choose_vsids_pos s)) (lval (choose_vsids_pos s)) /\
   leq (choose_vsids_pos s) = true /\
   forall v d, open_atom (tr s) v d ->
     SFltb (vs s (choose_vsids_pos s)) (vs s (mkLit v d true)) = false).
Proof.
  intros N D S. rewrite choose_vsids_pos_fold.
  destruct (vsids_fold s (cand_lits (tr s) onlypos) (mkLit (-1) (-1) true) S) as [(E & ->)|(I & M)].
  - left. split; auto. intros v d O. cut (In (mkLit v d true) (cand_lits (tr s) onlypos)).
    { rewrite E. intros []. }
    apply in_cand_lits; auto. exists v, d. split; simpl; auto.
  - right. apply in_cand_lits in I; auto. destruct I as (v & d & O & I). split.
    + destruct I as [<-|[]]; auto.
    + split; [destruct I as [<-|[]]; auto|]. intros v' d' Ol. apply M. apply in_cand_lits; auto.
      exists v', d'. split; auto. simpl; auto.
Qed.

(** Updates keep the scores non-negative. *)

Lemma scores_bump s l : scores_ok s -> scores_ok (bump s l).
Proof.
  intros H x. unfold bump. simpl. unfold updl. destruct (lit_eqb x l); auto.
  apply add_one_nn; auto.
Qed.

Lemma scores_halve s l : scores_ok s -> scores_ok (halve s l).
Proof.
  intros H x. unfold halve. simpl. unfold updl. destruct (lit_eqb x l); auto.
  apply half_nn; auto.
Qed.

Lemma bump_tr s l : tr (bump s l) = tr s. Proof. reflexivity. Qed.

(** Everything but the scores. *)
Definition only_vs (s s' : state) : Prop := exists v, s' = set_vs s v.

Lemma only_vs_refl s : only_vs s s.
Proof. exists (vs s). destruct s; reflexivity. Qed.
Lemma only_vs_trans s1 s2 s3 : only_vs s1 s2 -> only_vs s2 s3 -> only_vs s1 s3.
Proof. intros (v & ->) (w & ->). exists w. reflexivity. Qed.

Lemma bump_others_ok s v d : only_vs s (bump_others s v d) /\ (scores_ok s -> scores_ok (bump_others s v d)).
Proof.
  unfold bump_others. generalize (zrange 0 (DOM (tr s) v)) as js.
  intro js. revert s. induction js as [|j js IH]; intro s; simpl.
  - split; auto. apply only_vs_refl.
  - destruct (j =? d); auto. destruct (IH (bump s (mkLit v j true))) as (I1 & I2). split.
    + refine (only_vs_trans _ _ _ _ I1). eexists; reflexivity.
    + intro H. apply I2. apply scores_bump; auto.
Qed.

Lemma decay_ok c s : only_vs s (decay c s) /\ (scores_ok s -> scores_ok (decay c s)).
Proof.
  unfold decay. destruct (heur c); try (split; auto; apply only_vs_refl).
  - generalize (atoms_from (tr s) 0) as js. intro js. revert s.
    induction js as [|j js IH]; intro s; simpl.
    + split; auto. apply only_vs_refl.
    + destruct (IH (halve (halve s (mkLit (fst j) (snd j) true)) (mkLit (fst j) (snd j) false))) as (I1 & I2). split.
      * refine (only_vs_trans _ _ _ _ I1). eexists; reflexivity.
      * intro H. apply I2. apply scores_halve, scores_halve; auto.
  - generalize (atoms_from (tr s) 0) as js. intro js. revert s.
    induction js as [|j js IH]; intro s; simpl.
    + split; auto. apply only_vs_refl.
    + destruct (IH (halve s (mkLit (fst j) (snd j) true))) as (I1 & I2). split.
      * refine (only_vs_trans _ _ _ _ I1). eexists; reflexivity.
      * intro H. apply I2. apply scores_halve; auto.
Qed.
