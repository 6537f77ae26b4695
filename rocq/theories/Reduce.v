(** * reduceTheory, for an arbitrary way of updating the clauses

    The counter-based and the watched-literal search share the control structure of
    reduceTheory / watchedReduceTheory; they differ in what is done to the clauses when one
    atom gets assigned.  The facts about the trail are proved here once for both. *)

From Verif Require Import Spec Outcome State ModelCounter ModelLearn Base Trail.

(** Fields that assigning atoms does not touch. *)
Record fr (s s' : state) : Prop := mkFr {
  fr_cl : cl s' = cl s;
  fr_vs : vs s' = vs s;
  fr_level : level s' = level s;
  fr_backtracks : backtracks s' = backtracks s;
  fr_decisions : decisions s' = decisions s;
  fr_units : units s' = units s;
  fr_restarts : restarts s' = restarts s;
  fr_tick : tick s' = tick s;
  fr_conflict : conflict s = true -> conflict s' = true
}.

Lemma fr_refl s : fr s s.
Proof. split; auto. Qed.

Lemma fr_trans s1 s2 s3 : fr s1 s2 -> fr s2 s3 -> fr s1 s3.
Proof. intros [] []; split; try congruence; auto. Qed.

Lemma fr_push s l : fr s (push_dst s l).
Proof. split; auto. Qed.

(** Assigned atoms lie within the current level and stack. *)
Definition bounded (s : state) : Prop :=
  forall v d, range (tr s) v d -> ASG (tr s) v d <> Un ->
    0 <= ALEV (tr s) v d <= level s /\ 0 <= AIDX (tr s) v d < Z.of_nat (length (DST (tr s))).

Lemma TB_TD_bounded s ex : TB (tr s) (level s) ex -> TD (tr s) -> bounded s.
Proof.
  intros H D v d R A. split; [apply H; auto|].
  destruct (td_atom _ D v d R A) as (i & f & F1 & F2 & _).
  apply nth_error_lt in F1. lia.
Qed.

Lemma bounded_push s l : bounded s -> bounded (push_dst s l).
Proof.
  intros H v d R A. destruct (H v d R A) as (H1 & H2). split; auto.
  simpl. rewrite app_length. simpl. lia.
Qed.

(** Atoms assigned on the way from [t] to [t'] have level [lev]. *)
Definition newlev (t : trail) (lev : Z) (t' : trail) : Prop :=
  forall v d, ASG t v d = Un -> ASG t' v d <> Un -> ALEV t' v d = lev.

Lemma newlev_refl t lev : newlev t lev t.
Proof. intros v d H1 H2; congruence. Qed.

Lemma newlev_trans t1 t2 t3 lev :
  newlev t1 lev t2 -> newlev t2 lev t3 -> ext t2 t3 -> newlev t1 lev t3.
Proof.
  intros H1 H2 E v d U A. destruct (ASG t2 v d) eqn:A2; [apply H2; auto| |];
  rewrite (ext_lev _ _ E) by congruence; apply H1; congruence.
Qed.

Lemma newlev_mark t lev r v d a : newlev t lev (markT t lev r v d a).
Proof.
  intros v' d' U A. simpl in *.
  destruct (upd2_cases (ASG t) v d a v' d') as [(-> & -> & E)|(N & E)].
  - apply upd2_same.
  - rewrite E in A. congruence.
Qed.

Lemma newlev_first t lev r l : newlev t lev (firstT t lev r l).
Proof. exact (newlev_mark (pushT t l) lev r (lvar l) (lval l) (pol (leq l))). Qed.

(** The total assignment [a] respects the domains / agrees with what is assigned in [t]. *)
Definition legalT (a : assignment) (t : trail) : Prop :=
  forall v, 1 <= v <= NV t -> 0 <= a v < Z.max 2 (DOM t v).
Definition agree (a : assignment) (t : trail) : Prop :=
  forall v d, range t v d ->
    (ASG t v d = Pos -> a v = d) /\ (ASG t v d = Neg -> a v <> d).

Lemma agree_mark a t lev r v d av :
  agree a t -> (av = Pos -> a v = d) -> (av = Neg -> a v <> d) ->
  agree a (markT t lev r v d av).
Proof.
  intros H H1 H2 v' d' R. simpl.
  destruct (upd2_cases (ASG t) v d av v' d') as [(-> & -> & ->)|(N & ->)]; auto.
Qed.

Lemma agree_first a t lev r l : agree a t -> lit_holds a l -> agree a (firstT t lev r l).
Proof.
  intros H Hl. unfold firstT. apply agree_mark; auto; unfold lit_holds in Hl; destruct (leq l); simpl; auto; try discriminate.
Qed.

(** What may be said in advance about the reason of a literal about to be assigned. *)
Definition pre_reason (t : trail) (cls : list clause) (lev : Z) (r : reason) (l : lit) : Prop :=
  match r with
  | RDec => 1 <= lev /\ forall g, In g (DST t) -> llev t g < lev
  | RCls n => exists R, nth_error cls n = Some R /\ In l R /\
                (forall x, In x R -> x <> l -> lrange t x /\ lit_false t x = true) /\
                (0 < lev -> exists x, In x R /\ x <> l /\ llev t x = lev)
  | REnt => leq l = true /\
            (forall d, range t (lvar l) d -> d <> lval l -> ASG t (lvar l) d = Neg) /\
            exists d, range t (lvar l) d /\ d <> lval l /\ ALEV t (lvar l) d = lev
  | RUndef => False
  end.

Lemma firstT_reason t cls lev r l :
  TD t -> ASG t (lvar l) (lval l) = Un -> pre_reason t cls lev r l ->
  reason_ok (firstT t lev r l) cls (length (DST t)) l.
Proof.
  intros D U P. pose proof (firstT_ext t lev r l U) as E.
  assert (Lx : forall v d, range t v d -> ASG t v d <> Un ->
                 AIDX (firstT t lev r l) v d < Z.of_nat (length (DST t))).
  { intros v d R A. rewrite (ext_idx _ _ E) by auto.
    destruct (td_atom _ D v d R A) as (i & f & F1 & F2 & _).
    apply nth_error_lt in F1. lia. }
  unfold reason_ok.
  assert (Cl : CID (firstT t lev r l) (lvar l) (lval l) = r) by (simpl; apply upd2_same).
  assert (Ll : llev (firstT t lev r l) l = lev) by (unfold llev; simpl; apply upd2_same).
  rewrite Cl, Ll. destruct r as [| |n|]; simpl in P; auto.
  - destruct P as (P1 & P2). split; auto. intros j g Hj Hg.
    apply (ext_nth_back t) in Hg; auto.
    destruct (td_dst _ D _ _ Hg) as (_ & Tg & _).
    rewrite (ext_llev t) by (auto; apply lit_true_un; auto).
    apply P2. eapply nth_error_In; eauto.
  - destruct P as (P1 & P2 & d & Rd & Nd & Ld). split; auto. split.
    + intros d0 R0 N0. apply (ext_range t) in R0; auto.
      split; [rewrite (ext_asg _ _ E); auto; rewrite P2; auto; congruence|].
      apply Lx; auto. rewrite P2; auto; congruence.
    + exists d. split; [apply (ext_range t); auto|]. split; auto.
      rewrite (ext_lev _ _ E); auto. rewrite P2; auto; congruence.
  - destruct P as (R & HR & HlR & P1 & P2). exists R. repeat split; auto.
    + apply (ext_false t); auto. apply P1; auto.
    + apply Lx; [apply P1; auto|]. apply lit_false_as. apply P1; auto.
    + intro L. destruct (P2 L) as (x & Hx1 & Hx2 & Hx3). exists x; repeat split; auto.
      rewrite (ext_llev t); auto. apply lit_false_un. apply P1; auto.
Qed.

(** TR after adding one stack entry and extending. *)
Lemma TR_extend t t' cls l :
  TD t -> TR t cls -> ext t t' -> DST t' = DST t ++ [l] ->
  reason_ok t' cls (length (DST t)) l -> TR t' cls.
Proof.
  intros D T E S R i f Hf. rewrite S in Hf. apply nth_error_snoc in Hf.
  destruct Hf as [(_ & Hf)|(-> & ->)]; auto.
  apply (reason_ok_ext t); auto.
Qed.

Lemma check_entail_some t v e :
  check_entail t v = Some e ->
  0 <= e < DOM t v /\ ASG t v e = Un /\
  forall d, 0 <= d < DOM t v -> d <> e -> ASG t v d <> Un.
Proof.
  unfold check_entail.
  assert (G : forall js found, NoDup js -> entail_loop t v js found = Some e ->
     match found with
     | Some f => e = f /\ forall d, In d js -> ASG t v d <> Un
     | None => In e js /\ ASG t v e = Un /\ forall d, In d js -> d <> e -> ASG t v d <> Un
     end).
  { induction js as [|j js IH]; intros found ND H; simpl in H.
    - subst found. split; auto.
    - inversion ND as [|? ? Nj ND']; subst.
      destruct (ASG t v j) eqn:A.
      + destruct found as [f|]; [discriminate|].
        apply (IH (Some j)) in H; auto. destruct H as (-> & H). repeat split; auto.
        * left; auto.
        * intros d [->|Hd]; auto; try congruence.
      + apply (IH found) in H; auto. destruct found as [f|].
        * destruct H as (-> & H). split; auto. intros d [->|Hd]; auto; try congruence.
        * destruct H as (H1 & H2 & H3). split; [right; auto|]. split; auto.
          intros d [->|Hd]; auto; try congruence.
      + apply (IH found) in H; auto. destruct found as [f|].
        * destruct H as (-> & H). split; auto. intros d [->|Hd]; auto; try congruence.
        * destruct H as (H1 & H2 & H3). split; [right; auto|]. split; auto.
          intros d [->|Hd]; auto; try congruence. }
  intro H. apply (G _ None) in H; [|apply nodup_zrange].
  destruct H as (H1 & H2 & H3). rewrite in_zrange in H1. split; [lia|]. split; auto.
  intros d Hd. apply H3. apply in_zrange. lia.
Qed.

Lemma check_entail_none t v d :
  check_entail t v = None -> 0 <= d < DOM t v -> ASG t v d = Un ->
  exists d', 0 <= d' < DOM t v /\ d' <> d /\ ASG t v d' = Un.
Proof.
  unfold check_entail.
  assert (G : forall js found, NoDup js -> entail_loop t v js found = None ->
     match found with
     | Some f => exists d', In d' js /\ ASG t v d' = Un
     | None => forall d, In d js -> ASG t v d = Un ->
                 exists d', In d' js /\ d' <> d /\ ASG t v d' = Un
     end).
  { induction js as [|j js IH]; intros found ND H; simpl in H.
    - subst found. intros d0 [].
    - inversion ND as [|? ? Nj ND']; subst.
      destruct (ASG t v j) eqn:A.
      + destruct found as [f|].
        * exists j. split; auto. left; auto.
        * apply (IH (Some j)) in H; auto. destruct H as (d' & Hd & Ud).
          intros d0 [->|Hd0] U0.
          -- exists d'. split; [right; auto|]. split; auto. intro; subst; auto.
          -- exists j. split; [left; auto|]. split; auto. intro; subst; auto.
      + apply (IH found) in H; auto. destruct found as [f|].
        * destruct H as (d' & Hd & Ud). exists d'; split; auto. right; auto.
        * intros d0 [->|Hd0] U0; [congruence|].
          destruct (H d0 Hd0 U0) as (d' & X1 & X2 & X3). exists d'; split; auto. right; auto.
      + apply (IH found) in H; auto. destruct found as [f|].
        * destruct H as (d' & Hd & Ud). exists d'; split; auto. right; auto.
        * intros d0 [->|Hd0] U0; [congruence|].
          destruct (H d0 Hd0 U0) as (d' & X1 & X2 & X3). exists d'; split; auto. right; auto. }
  intros H Hd Ud. pose proof (G _ None (nodup_zrange _ _) H) as H'; simpl in H'. clear H; rename H' into H.
  destruct (H d) as (d' & X1 & X2 & X3); auto.
  { apply in_zrange. lia. }
  apply in_zrange in X1. exists d'. split; [lia|auto].
Qed.

(** Number of unassigned atoms. *)
Definition unass (t : trail) : nat :=
  countb (fun a => match ASG t (fst a) (snd a) with Un => true | _ => false end) (atoms_from t 1).

Lemma atoms_from_ext t t' lo : NV t' = NV t -> DOM t' = DOM t -> atoms_from t' lo = atoms_from t lo.
Proof. unfold atoms_from. intros -> ->; auto. Qed.

Lemma in_atoms1 t v d : In (v, d) (atoms_from t 1) <-> range t v d.
Proof. rewrite in_atoms_from. unfold range. lia. Qed.

Lemma countb_lt {A} (f g : A -> bool) l x :
  (forall y, In y l -> f y = true -> g y = true) -> In x l -> f x = false -> g x = true ->
  (countb f l < countb g l)%nat.
Proof.
  induction l as [|y l IH]; intros H Hx Fx Gx; [destruct Hx|].
  rewrite !countb_cons. destruct Hx as [->|Hx].
  - rewrite Fx, Gx. assert (countb f l <= countb g l)%nat; [|lia].
    apply countb_le. intros z Hz; apply H; right; auto.
  - assert (countb f l < countb g l)%nat by (apply IH; auto; intros z Hz; apply H; right; auto).
    pose proof (H y (or_introl eq_refl)). destruct (f y), (g y); try lia.
Qed.

Lemma ext_unass_le t t' : ext t t' -> (unass t' <= unass t)%nat.
Proof.
  intro E. unfold unass. rewrite (atoms_from_ext t t') by apply E. apply countb_le.
  intros (v & d) _; simpl. destruct (ASG t v d) eqn:A; auto;
  rewrite (ext_asg _ _ E), A by congruence; auto.
Qed.

Lemma ext_unass_lt t t' v d :
  ext t t' -> range t v d -> ASG t v d = Un -> ASG t' v d <> Un -> (unass t' < unass t)%nat.
Proof.
  intros E R U A. unfold unass. rewrite (atoms_from_ext t t') by apply E.
  apply countb_lt with (v, d); simpl.
  - intros (v' & d') _; simpl. destruct (ASG t v' d') eqn:A'; auto;
    rewrite (ext_asg _ _ E), A' by congruence; auto.
  - apply in_atoms1; auto.
  - destruct (ASG t' v d); congruence.
  - rewrite U; auto.
Qed.

(** ** The generic procedure *)

Section Gen.
Variable assign : state -> Z -> Z -> aval -> outcome state.
Variable J : state -> Prop.

Definition assign_post (s : state) (v d : Z) (a : aval) (s' : state) : Prop :=
  tr s' = markT (tr s) (level s) (uclause s) v d a /\ fr s s' /\
  uclause s' = uclause s /\ entails s' = entails s.

Hypothesis assign_ok : forall s v d a,
  J s -> bounded s -> 0 <= level s -> DOM (tr s) 0 = 0 ->
  (1 <= length (DST (tr s)))%nat ->
  range (tr s) v d -> ASG (tr s) v d = Un -> a <> Un ->
  exists s', assign s v d a = Ok s' /\ assign_post s v d a s' /\ J s'.
Hypothesis J_push : forall s l, J s -> J (push_dst s l).
Hypothesis J_ent : forall s n, J s -> J (set_entails s n).
Hypothesis J_ucl : forall s r, J s -> J (set_uclause s r).

Definition gexclude (v : Z) (s : state) (i : Z) : outcome state :=
  if conflict s then Ok s
  else match ASG (tr s) v i with
       | Un => assign s v i Neg
       | _ => Ok s
       end.
Definition gpos (s : state) (v d : Z) : outcome state :=
  do* chk (tr s) (mkLit v d true) in
  let s := push_dst s (mkLit v d true) in
  let* s := assign s v d Pos in
  let* s := foldM (gexclude v) (zrange 0 d) s in
  foldM (gexclude v) (zrange (d + 1) (DOM (tr s) v - (d + 1))) s.
Definition gneg (s : state) (v d : Z) : outcome state :=
  do* chk (tr s) (mkLit v d false) in
  let s := push_dst s (mkLit v d false) in
  let* s := assign s v d Neg in
  match check_entail (tr s) v with
  | Some e =>
      let s := set_entails s (entails s + 1) in
      let s := set_uclause s REnt in
      gpos s v e
  | None => Ok s
  end.
Definition greduce (s : state) (l : lit) : outcome state :=
  if leq l then gpos s (lvar l) (lval l) else gneg s (lvar l) (lval l).

(** Assigning the first literal. *)
Lemma gfirst s l (ex ex' : Z -> Prop) :
  J s -> TB (tr s) (level s) ex -> TD (tr s) -> 0 <= level s ->
  lrange (tr s) l -> ASG (tr s) (lvar l) (lval l) = Un -> VAL (tr s) (lvar l) = -1 ->
  (forall w, ex w -> ex' w) -> ex' (lvar l) ->
  exists s', assign (push_dst s l) (lvar l) (lval l) (pol (leq l)) = Ok s' /\
    J s' /\ fr s s' /\ uclause s' = uclause s /\ entails s' = entails s /\
    tr s' = firstT (tr s) (level s) (uclause s) l /\
    TB (tr s') (level s) ex' /\ TD (tr s') /\ ext (tr s) (tr s').
Proof.
  intros HJ H D L R U V Hx Hxv.
  destruct (assign_ok (push_dst s l) (lvar l) (lval l) (pol (leq l)))
    as (s' & E & (P1 & P2 & P3 & P4) & J'); auto.
  - apply bounded_push. eapply TB_TD_bounded; eauto.
  - apply H.
  - simpl. rewrite app_length; simpl; lia.
  - apply pol_un.
  - exists s'. split; auto. simpl in *.
    assert (Et : tr s' = firstT (tr s) (level s) (uclause s) l) by exact P1.
    split; auto. split; [eapply fr_trans; [apply fr_push|eauto]|].
    split; auto. split; auto. split; auto. rewrite Et.
    split; [|split].
    + eapply firstT_TB; eauto.
    + eapply firstT_TD; eauto.
    + apply firstT_ext; auto.
Qed.

(** Invariant of the domain loops. *)
Record loopI (s0 : state) (v w : Z) (ex : Z -> Prop) (pre : list Z) (s : state) : Prop := mkLoopI {
  li_J : J s;
  li_fr : fr s0 s;
  li_uc : uclause s = uclause s0;
  li_en : entails s = entails s0;
  li_ext : ext (tr s0) (tr s);
  li_new : newlev (tr s0) (level s0) (tr s);
  li_agree : forall a, a v = w -> agree a (tr s0) -> agree a (tr s);
  li_dst : DST (tr s) = DST (tr s0);
  li_TB : TB (tr s) (level s0) ex;
  li_TD : TD (tr s);
  li_top : top_is (tr s) (level s0) (uclause s0) v w;
  li_pre : conflict s = false -> forall i, In i pre -> ASG (tr s) v i <> Un
}.

Lemma gloop s0 v w (ex : Z -> Prop) js pre s :
  0 <= level s0 -> ex v -> (forall i, In i js -> range (tr s0) v i) ->
  loopI s0 v w ex pre s ->
  exists s', foldM (gexclude v) js s = Ok s' /\ loopI s0 v w ex (pre ++ js) s'.
Proof.
  intros L Hxv Hjs HI.
  apply foldM_ind with (P := fun p s1 => loopI s0 v w ex (pre ++ p) s1).
  - rewrite app_nil_r; auto.
  - intros p i suf s1 Ejs I1. rewrite app_assoc.
    assert (Ri : range (tr s0) v i) by (apply Hjs; rewrite Ejs; apply in_or_app; right; left; auto).
    unfold gexclude. destruct (conflict s1) eqn:C1.
    + exists s1. split; auto. destruct I1. split; auto. congruence.
    + destruct (ASG (tr s1) v i) eqn:A1.
      * pose proof I1 as [i1 i2 i3 i4 i5 inw iag i6 i7 i8 i9 i10].
        pose proof (fr_level _ _ i2) as Lv.
        destruct (assign_ok s1 v i Neg) as (s2 & E2 & (P1 & P2 & P3 & P4) & J2); auto.
        -- apply (TB_TD_bounded s1 ex); auto. rewrite Lv; auto.
        -- lia.
        -- apply i7.
        -- destruct i9 as (ds & i9 & _). rewrite i9, app_length. simpl; lia.
        -- apply (ext_range (tr s0)); auto.
        -- congruence.
        -- exists s2. split; auto.
           assert (Ri1 : range (tr s1) v i) by (apply (ext_range (tr s0)); auto).
           assert (Ex : ext (tr s1) (tr s2)) by (rewrite P1; apply ext_mark; auto).
           rewrite Lv, i3 in P1.
           split; auto.
           ++ eapply fr_trans; eauto.
           ++ congruence.
           ++ congruence.
           ++ eapply ext_trans; eauto.
           ++ apply (newlev_trans _ (tr s1)); auto. rewrite P1. apply newlev_mark.
           ++ intros a Ha Hg. rewrite P1. apply agree_mark; auto; [discriminate|].
              intros _ Ea. destruct i9 as (ds & _ & _ & _ & i9). assert (i = w) by congruence.
              subst i. congruence.
           ++ rewrite P1; simpl; auto.
           ++ rewrite P1. apply negT_TB; auto.
           ++ rewrite P1. eapply negT_TD; eauto.
           ++ eapply top_is_ext; eauto. rewrite P1; auto.
           ++ intros C2 j Hj. apply in_app_or in Hj. destruct Hj as [Hj|[<-|[]]].
              ** rewrite (ext_asg _ _ Ex); apply i10; auto.
              ** rewrite P1; simpl. rewrite upd2_same. congruence.
      * exists s1. split; auto. destruct I1. split; auto.
        intros C2 j Hj. apply in_app_or in Hj. destruct Hj as [Hj|[<-|[]]]; auto. congruence.
      * exists s1. split; auto. destruct I1. split; auto.
        intros C2 j Hj. apply in_app_or in Hj. destruct Hj as [Hj|[<-|[]]]; auto. congruence.
Qed.

Lemma gpos_ok s v d (ex : Z -> Prop) :
  J s -> TB (tr s) (level s) ex -> TD (tr s) -> 0 <= level s ->
  range (tr s) v d -> ASG (tr s) v d = Un -> VAL (tr s) v = -1 ->
  exists s', gpos s v d = Ok s' /\ J s' /\ fr s s' /\ uclause s' = uclause s /\
    entails s' = entails s /\ ext (tr s) (tr s') /\ newlev (tr s) (level s) (tr s') /\ TD (tr s') /\
    TB (tr s') (level s) (fun u => conflict s' = true \/ ex u /\ u <> v) /\
    DST (tr s') = DST (tr s) ++ [mkLit v d true] /\ ASG (tr s') v d = Pos /\
    (forall cls, TR (tr s) cls ->
       pre_reason (tr s) cls (level s) (uclause s) (mkLit v d true) -> TR (tr s') cls) /\
    (forall a, agree a (tr s) -> a v = d -> agree a (tr s')).
Proof.
  intros HJ H D L R U V. unfold gpos.
  rewrite chk_ok by (auto; apply H). cbn [bind].
  destruct (gfirst s (mkLit v d true) ex (fun u => ex u \/ u = v))
    as (s1 & E1 & J1 & F1 & U1 & N1 & T1 & B1 & D1 & X1); auto.
  simpl in E1. rewrite E1. cbn [bind].
  assert (I0 : loopI s1 v d (fun u => ex u \/ u = v) [] s1).
  { split; auto using fr_refl, ext_refl, newlev_refl.
    - rewrite (fr_level _ _ F1). auto.
    - exists (DST (tr s)). rewrite T1; simpl. rewrite !upd2_same, (fr_level _ _ F1), U1.
      repeat split; auto. }
  assert (Rs1 : forall i, range (tr s1) v i <-> range (tr s) v i) by (intro; apply ext_range; auto).
  assert (L1 : 0 <= level s1) by (rewrite (fr_level _ _ F1); auto).
  destruct (gloop s1 v d (fun u => ex u \/ u = v) (zrange 0 d) [] s1) as (s2 & E2 & I2); auto.
  { intros i Hi. apply in_zrange in Hi. apply Rs1. unfold range in *. lia. }
  rewrite E2. cbn [bind].
  assert (Dm : DOM (tr s2) v = DOM (tr s) v).
  { rewrite (ext_dom _ _ (li_ext _ _ _ _ _ _ I2)), (ext_dom _ _ X1); auto. }
  rewrite Dm.
  destruct (gloop s1 v d (fun u => ex u \/ u = v) (zrange (d + 1) (DOM (tr s) v - (d + 1)))
              ([] ++ zrange 0 d) s2) as (s3 & E3 & I3); auto.
  { intros i Hi. apply in_zrange in Hi. apply Rs1. unfold range in *. lia. }
  exists s3. split; auto. destruct I3 as [i1 i2 i3 i4 i5 inw iag i6 i7 i8 i9 i10].
  assert (X : ext (tr s) (tr s3)) by (eapply ext_trans; eauto).
  assert (S3 : DST (tr s3) = DST (tr s) ++ [mkLit v d true]) by (rewrite i6, T1; auto).
  assert (P3 : ASG (tr s3) v d = Pos) by (destruct i9 as (ds & _ & _ & _ & ?); auto).
  split; auto. split; [eapply fr_trans; eauto|]. split; [congruence|]. split; [congruence|].
  split; auto.
  split.
  { apply (newlev_trans _ (tr s1)); auto.
    - rewrite T1. apply newlev_first.
    - rewrite (fr_level _ _ F1) in inw. auto. }
  split; auto. split.
  - rewrite (fr_level _ _ F1) in i7.
    destruct (conflict s3) eqn:C3.
    + eapply TB_weaken; eauto.
    + eapply TB_finish_pos with (v := v) (w := d); eauto.
      * intros u [Hu|Hu]; auto. destruct (Z.eq_dec u v); auto.
      * apply (ext_range (tr s)); auto.
      * destruct i9 as (ds & _ & i9 & _ & _). rewrite i9. apply F1.
      * intros i Ri. apply (ext_range (tr s)) in Ri; auto.
        destruct (Z.eq_dec i d) as [->|Ni]; [congruence|].
        apply i10; auto. apply in_or_app. destruct Ri as (_ & Ri).
        destruct (Z.lt_ge_cases i d); [left|right]; apply in_zrange; lia.
  - split; auto. split; auto. split.
    2: { intros a Ha Hv. apply iag; auto. rewrite T1. apply agree_first; auto. }
    intros cls HT HP.
    eapply TR_extend with (t := tr s); eauto.
    assert (Y : reason_ok (tr s1) cls (length (DST (tr s))) (mkLit v d true)).
    { rewrite T1. apply firstT_reason; auto. }
    apply (reason_ok_ext (tr s1)); auto.
    rewrite T1; simpl. apply nth_error_snoc_last.
Qed.

Lemma gneg_ok s v d :
  J s -> TB (tr s) (level s) (fun _ => False) -> TD (tr s) -> 0 <= level s ->
  range (tr s) v d -> ASG (tr s) v d = Un -> VAL (tr s) v = -1 ->
  exists s', gneg s v d = Ok s' /\ J s' /\ fr s s' /\ ext (tr s) (tr s') /\ newlev (tr s) (level s) (tr s') /\ TD (tr s') /\
    TB (tr s') (level s) (fun u => conflict s' = true) /\ ASG (tr s') v d = Neg /\
    (forall cls, TR (tr s) cls ->
       pre_reason (tr s) cls (level s) (uclause s) (mkLit v d false) -> TR (tr s') cls) /\
    (forall a, legalT a (tr s) -> agree a (tr s) -> a v <> d -> agree a (tr s')).
Proof.
  intros HJ H D L R U V. unfold gneg.
  rewrite chk_ok by (auto; apply H). cbn [bind].
  destruct (gfirst s (mkLit v d false) (fun _ => False) (fun u => u = v))
    as (s1 & E1 & J1 & F1 & U1 & N1 & T1 & B1 & D1 & X1); auto.
  { intros w []. }
  simpl in E1. rewrite E1. cbn [bind].
  assert (A1 : ASG (tr s1) v d = Neg) by (rewrite T1; simpl; apply upd2_same).
  assert (V1 : VAL (tr s1) v = -1) by (rewrite T1; simpl; auto).
  assert (TR1 : forall cls, TR (tr s) cls ->
       pre_reason (tr s) cls (level s) (uclause s) (mkLit v d false) -> TR (tr s1) cls).
  { intros cls HT HP. eapply TR_extend with (t := tr s) (l := mkLit v d false); eauto.
    - rewrite T1; auto.
    - rewrite T1. apply firstT_reason; auto. }
  destruct (check_entail (tr s1) v) as [e|] eqn:CE.
  - apply check_entail_some in CE. destruct CE as (Re & Ue & Oth).
    assert (Re1 : range (tr s1) v e).
    { split; auto. rewrite (ext_nv _ _ X1). apply R. }
    assert (Rd1 : range (tr s1) v d) by (apply (ext_range (tr s)); auto).
    set (s2 := set_uclause (set_entails s1 (entails s1 + 1)) REnt).
    destruct (gpos_ok s2 v e (fun u => u = v)) as (s3 & E3 & J3 & F3 & U3 & N3 & X3 & W3 & D3 & B3 & S3 & P3 & R3 & G3);
      auto.
    { unfold s2; auto. }
    { simpl. rewrite (fr_level _ _ F1); auto. }
    { simpl. rewrite (fr_level _ _ F1); auto. }
    exists s3. split; auto. split; auto.
    change (tr s2) with (tr s1) in *. change (level s2) with (level s1) in *.
    split.
    { eapply fr_trans; [eauto|]. destruct F3; split; auto. }
    split; [eapply ext_trans; eauto|].
    split.
    { apply (newlev_trans _ (tr s1)); auto.
      - rewrite T1. apply newlev_first.
      - rewrite (fr_level _ _ F1) in W3. auto. }
    split; auto.
    rewrite (fr_level _ _ F1) in B3. split.
    { eapply TB_weaken; eauto. simpl. intros u [Hu|[Hu Nu]]; auto; contradiction. }
    split; [rewrite (ext_asg _ _ X3); auto; congruence|].
    split.
    2: { intros a La Ha Hv.
         assert (Ag : agree a (tr s1)) by (rewrite T1; apply agree_first; auto).
         apply G3; auto. destruct (Z.eq_dec (a v) e) as [|Ne]; auto. exfalso.
         assert (Rav : range (tr s1) v (a v)).
         { apply (ext_range (tr s)); auto. split; [apply R|]. specialize (La v (proj1 R)).
           assert (2 <= DOM (tr s) v) by (destruct R as (_ & R0); rewrite (ext_dom _ _ X1) in Re; assert (d <> e) by (intros ->; rewrite T1 in Ue; simpl in Ue; rewrite upd2_same in Ue; discriminate); lia).
           lia. }
         destruct (Ag v (a v) Rav) as (Ag1 & Ag2).
         destruct (ASG (tr s1) v (a v)) eqn:Aav.
         - apply (Oth (a v)); auto. apply Rav.
         - apply (noval_nopos _ _ _ v (a v) B1); auto.
         - apply Ag2; auto. }
    intros cls HT HP. apply R3; auto. simpl. split; auto. split.
    + intros d0 R0 N0. destruct (ASG (tr s1) v d0) eqn:A0; auto.
      * exfalso. apply (Oth d0); auto. apply R0.
      * exfalso. apply (noval_nopos _ _ _ v d0 B1); auto.
    + exists d. split; auto. split; [congruence|].
      rewrite T1; simpl. rewrite upd2_same. symmetry. rewrite T1 in *. apply F1.
  - exists s1. split; auto. split; auto. split; auto. split; auto.
    split; [rewrite T1; apply newlev_first|]. split; auto.
    split; [|split; [|split; [auto|intros a _ Ha Hv; rewrite T1; apply agree_first; auto]]].
    2: auto.
    destruct (Z.lt_ge_cases (DOM (tr s) v) 2) as [Sm|Lg].
    { eapply TB_finish_small with (v := v); eauto. rewrite T1. exact Sm. }
    destruct (tb_two _ _ _ H v (level s)) as (d1 & d2 & N12 & R1 & R2 & O1 & O2).
    { apply R. }
    { exact Lg. }
    { right; auto. }
    { intros d0 R0 P0. exfalso. apply (noval_nopos _ _ _ v d0 H); auto. }
    assert (OU : forall x, range (tr s) v x -> openat (tr s) (level s) v x -> ASG (tr s) v x = Un).
    { intros x Rx [O|O]; auto. destruct (ASG (tr s) v x) eqn:A; auto;
      assert (0 <= ALEV (tr s) v x <= level s) by (apply (tb_as _ _ _ H); auto; congruence); lia. }
    apply OU in O1; auto. apply OU in O2; auto.
    assert (Y : exists x, range (tr s1) v x /\ ASG (tr s1) v x = Un).
    { assert (Z1 : forall x, x <> d -> ASG (tr s1) v x = ASG (tr s) v x).
      { intros x Nx. rewrite T1; simpl. apply upd2_other; auto. }
      destruct (Z.eq_dec d1 d) as [->|N1d].
      - exists d2. split; [apply (ext_range (tr s)); auto|]. rewrite Z1; auto.
      - exists d1. split; [apply (ext_range (tr s)); auto|]. rewrite Z1; auto. }
    destruct Y as (x & Rx & Ux).
    destruct (check_entail_none _ _ x CE) as (y & Ry & Nyx & Uy); auto; [apply Rx|].
    eapply TB_finish_neg with (v := v) (d1 := x) (d2 := y); eauto.
    split; [apply Rx|auto].
Qed.

Lemma greduce_ok s l :
  J s -> TB (tr s) (level s) (fun _ => False) -> TD (tr s) -> 0 <= level s ->
  lrange (tr s) l -> ASG (tr s) (lvar l) (lval l) = Un -> VAL (tr s) (lvar l) = -1 ->
  exists s', greduce s l = Ok s' /\ J s' /\ fr s s' /\ ext (tr s) (tr s') /\ newlev (tr s) (level s) (tr s') /\ TD (tr s') /\
    TB (tr s') (level s) (fun u => conflict s' = true) /\ lit_true (tr s') l = true /\
    (unass (tr s') < unass (tr s))%nat /\
    (forall cls, TR (tr s) cls ->
       pre_reason (tr s) cls (level s) (uclause s) l -> TR (tr s') cls) /\
    (forall a, legalT a (tr s) -> agree a (tr s) -> lit_holds a l -> agree a (tr s')).
Proof.
  intros HJ H D L R U V. destruct l as [v d e]; unfold greduce; simpl in *. destruct e.
  - destruct (gpos_ok s v d (fun _ => False)) as (s' & E & J' & F & _ & _ & X & W & D' & B & _ & P & T & G); auto.
    exists s'. do 6 (split; [assumption|]). split; [|split; [|split; [|split; [assumption|intros; apply G; auto]]]].
    + eapply TB_weaken; [exact B|]; simpl; intuition.
    + unfold lit_true; simpl. rewrite P; auto.
    + apply (ext_unass_lt _ _ v d); auto; congruence.
  - destruct (gneg_ok s v d) as (s' & E & J' & F & X & W & D' & B & P & T & G); auto.
    exists s'. do 7 (split; [assumption|]). split; [|split; [|split; [assumption|intros; apply G; auto]]].
    + unfold lit_true; simpl. rewrite P; auto.
    + apply (ext_unass_lt _ _ v d); auto; congruence.
Qed.

End Gen.

(** The value of a variable is unset if one of its atoms is unassigned and all is consistent. *)
Lemma un_noval t lev v d :
  TB t lev (fun _ => False) -> range t v d -> ASG t v d = Un -> VAL t v = -1.
Proof.
  intros H R U. destruct (Z.eq_dec (VAL t v) (-1)) as [E|E]; auto. exfalso.
  destruct (tb_val _ _ _ H v) as (R0 & P0); auto; [apply R|].
  destruct (Z.eq_dec d (VAL t v)) as [->|N]; [congruence|].
  destruct (tb_neg _ _ _ H v (VAL t v) d) as (X & _); auto. congruence.
Qed.
