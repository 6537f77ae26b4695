(** * The decision stack and propagation: proofs *)

From Verif Require Import Spec WideSpec Outcome State ModelCounter ModelHeur ModelLearn ModelWatch
  ModelSearch ModelBuild Base Trail Reduce Counter Propagate Watch WatchProp Analyze Learn Chrono Choose Nc Wl Init Solve SolveWl Fuel Runs
  Frame Steps StepSpec Reach StepFacts TrailSpec.

Local Open Scope Z_scope.

Lemma excludes_lit g x : lvar g = lvar x ->
  (lval g = lval x /\ leq g <> leq x \/ lval g <> lval x /\ leq g = true /\ leq x = true) -> excludes g x.
Proof.
  intros V H a A B. apply (falsifies_sound a g x); auto. apply falsifies_iff. auto.
Qed.

(** An assigned atom has an entry on the stack. *)
Lemma entry_of t v d : TD t -> range t v d -> ASG t v d <> Un ->
  exists i f, nth_error (DST t) i = Some f /\ AIDX t v d = Z.of_nat i /\ llev t f = ALEV t v d /\
    excludes f (mkLit v d (match ASG t v d with Pos => false | _ => true end)) /\
    (ASG t v d = Pos -> f = mkLit v d true).
Proof.
  intros D R A. destruct (td_atom _ D v d R A) as (i & f & H1 & H2 & H3 & H4 & _ & H5).
  exists i, f. split; auto. split; auto. split; auto. split.
  - apply excludes_lit; auto. destruct H5 as [->|(H5 & H6 & H7)]; simpl.
    + left. split; auto. destruct (ASG t v d); discriminate.
    + right. rewrite H5. auto.
  - intro P. destruct H5 as [->|(H5 & _)]; [rewrite P; auto|congruence].
Qed.

Lemma false_entry t x : TD t -> lrange t x -> lit_false t x = true ->
  exists i f, nth_error (DST t) i = Some f /\ lidx t x = Z.of_nat i /\ llev t f = llev t x /\ excludes f x.
Proof.
  intros D R F. destruct (entry_of t (lvar x) (lval x) D R (lit_false_as _ _ F)) as (i & f & H1 & H2 & H3 & H4 & _).
  exists i, f. split; auto. split; auto. split; auto.
  apply lit_false_asg in F. rewrite F in H4. destruct x as [v d e]; simpl in *. destruct e; auto.
Qed.

Lemma nth_split_before {A} (l : list A) i f pre post g j :
  l = pre ++ f :: post -> i = length pre -> nth_error l j = Some g -> (j < i)%nat -> In g pre.
Proof.
  intros -> -> H J. rewrite nth_error_app1 in H by auto. eapply nth_error_In; eauto.
Qed.

Lemma mid_nth {A} (pre : list A) f post : nth_error (pre ++ f :: post) (length pre) = Some f.
Proof. rewrite nth_error_app2, Nat.sub_diag; auto. Qed.

Section Facts.
Variables (p : problem) (s : state).
Let t := tr s.
Hypothesis NVp : NV t = nvars p.
Hypothesis DOMp : forall v, DOM t v = domsize p v.
Hypothesis B : TB t (level s) (fun _ => conflict s = true).
Hypothesis D : TD t.

Lemma decl v d : declared p v d <-> range t v d.
Proof. apply declared_range; auto. Qed.

Lemma stacked_of : stacked p s.
Proof.
  split.
  - apply NoDup_nth_error. intros i j Hi E.
    destruct (nth_error (DST t) i) as [f|] eqn:F; [|apply nth_error_None in F; unfold t in F; lia].
    assert (G : nth_error (DST t) j = Some f) by (unfold t in *; congruence).
    destruct (td_dst _ D i f F) as (_ & _ & X). destruct (td_dst _ D j f G) as (_ & _ & Y). lia.
  - intros f Hf. apply In_nth_error in Hf. destruct Hf as (i & Hi).
    destruct (td_dst _ D i f Hi) as (R & T & _). split; [apply decl; auto|]. split; [apply true_iff; auto|].
    apply (tb_as _ _ _ B); auto. apply lit_true_as; auto.
  - intros pre f post E. assert (N : nth_error (DST t) (length pre) = Some f) by (unfold t; rewrite E; apply mid_nth).
    split; [apply (td_dst _ D _ _ N)|]. intros g Hg. apply In_nth_error in Hg. destruct Hg as (j & Hj).
    pose proof (nth_error_lt _ _ _ Hj) as L.
    apply (td_mono _ D j (length pre)); auto; [|lia]. unfold t. rewrite E, nth_error_app1; auto.
  - intros v d R A. apply decl in R. destruct (entry_of t v d D R) as (i & f & H1 & _ & _ & _ & H5); [unfold t; congruence|].
    rewrite <- (H5 A). eapply nth_error_In; eauto.
  - intros v d R A. apply decl in R. destruct (entry_of t v d D R) as (i & f & H1 & _ & H3 & H4 & _); [unfold t; congruence|].
    unfold t in *. rewrite A in H4. exists f. split; [eapply nth_error_In; eauto|]. split; auto.
  - intros v d R A. apply (tb_un _ _ _ B); auto. apply decl; auto.
Qed.

Lemma valued_of : wf p -> valued p s.
Proof.
  intro W2. split.
  - intros v d R. pose proof R as R'. apply decl in R'. split; intro A; [apply (tb_pos _ _ _ B); auto|].
    destruct (tb_val _ _ _ B v) as (_ & P).
    + unfold t in *. rewrite NVp. apply R.
    + fold t in A. rewrite A. destruct R. lia.
    + unfold t in *. rewrite A in P. auto.
  - intros v V. destruct (Z.eq_dec (VAL (tr s) v) (-1)) as [|N]; auto. right. apply decl.
    apply (tb_val _ _ _ B); auto. unfold t in *. rewrite NVp. auto.
  - intros Cf v d e Rd Re V N. pose proof Rd as Rd'. apply decl in Rd. apply decl in Re.
    apply (tb_neg _ _ _ B v d e); auto; [|right; intro K; congruence].
    destruct (tb_val _ _ _ B v) as (_ & P).
    + unfold t in *. rewrite NVp. apply Rd'.
    + fold t in V. rewrite V. destruct Rd'. lia.
    + unfold t in *. rewrite V in P. auto.
  - intros Cf v V N.
    assert (V' : 1 <= v <= NV t) by (unfold t in *; rewrite NVp; auto).
    destruct (tb_two _ _ _ B v (level s) V') as (d1 & d2 & H1 & H2 & H3 & H4 & H5).
    + rewrite DOMp. apply wf_two; auto.
    + right. split; auto. intro K; congruence.
    + intros d R P. apply (tb_pos _ _ _ B) in P; auto. unfold t in P. destruct R. lia.
    + assert (O : forall d, range t v d -> openat t (level s) v d -> ASG t v d = Un).
      { intros d R [U|L]; auto. destruct (ASG t v d) eqn:A; auto;
          pose proof (tb_as _ _ _ B v d R ltac:(congruence)); lia. }
      exists d1, d2. split; auto. split; [apply decl; auto|]. split; [apply decl; auto|]. split; apply O; auto.
Qed.

(** Every level has an entry. *)
Definition fullT (t : trail) (lev : Z) : Prop := forall k, 1 <= k <= lev -> exists f, In f (DST t) /\ llev t f = k.

Hypothesis OK : cls_ok t (cl s).
Hypothesis R : TR t (cl s).

Lemma first_decides k : 1 <= k -> forall i f, nth_error (DST t) i = Some f -> llev t f = k ->
  exists g, In g (DST t) /\ llev t g = k /\ CID t (lvar g) (lval g) = RDec.
Proof.
  intro K. induction i as [i IH] using lt_wf_ind. intros f Hf L.
  pose proof (R i f Hf) as RS. unfold reason_ok in RS. destruct (td_dst _ D i f Hf) as (Rf & _).
  destruct (CID t (lvar f) (lval f)) as [| |n|] eqn:C.
  - exists f. split; [eapply nth_error_In; eauto|]. auto.
  - destruct RS as (_ & H1 & d & H2 & H3 & H4). destruct (H1 d H2 H3) as (H5 & H6).
    destruct (entry_of t (lvar f) d D H2) as (j & g & G1 & G2 & G3 & _); [congruence|].
    apply (IH j ltac:(lia) g); auto. lia.
  - destruct RS as (Q & H1 & H2 & H3 & H4). destruct H4 as (x & X1 & X2 & X3); [lia|].
    destruct (H3 x X1 X2) as (X4 & X5).
    destruct (false_entry t x D) as (j & g & G1 & G2 & G3 & _); auto.
    { apply (OK Q); auto. eapply nth_error_In; eauto. }
    apply (IH j ltac:(lia) g); auto. lia.
  - destruct RS.
Qed.

Lemma explained_of : fullT t (level s) -> explained p s.
Proof.
  intro F. split.
  - intros pre f post E. assert (N : nth_error (DST t) (length pre) = Some f) by (unfold t; rewrite E; apply mid_nth).
    pose proof (R _ _ N) as RS. unfold reason_ok in RS. unfold t in *. destruct (CID (tr s) (lvar f) (lval f)).
    + destruct RS as (H1 & H2). split; auto. intros g Hg. apply In_nth_error in Hg. destruct Hg as (j & Hj).
      pose proof (nth_error_lt _ _ _ Hj) as L. apply (H2 j g); auto. rewrite E, nth_error_app1; auto.
    + destruct RS as (H1 & H2 & _). split; auto. intros d Rd Nd. destruct (H2 d) as (H3 & H4); auto; [apply decl; auto|].
      destruct (entry_of (tr s) (lvar f) d D) as (j & g & G1 & G2 & _ & G3 & _); [apply decl; auto|congruence|].
      exists g. split; [eapply nth_split_before; eauto; lia|]. rewrite H3 in G3. auto.
    + destruct RS as (C & H1 & H2 & H3 & _). exists C. split; auto. split; auto. intros x X1 X2.
      destruct (H3 x X1 X2) as (X4 & X5).
      destruct (false_entry (tr s) x D) as (j & g & G1 & G2 & G3 & G4); auto.
      { apply (OK C); auto. eapply nth_error_In; eauto. }
      exists g. split; [eapply nth_split_before; eauto; lia|]. auto.
    + auto.
  - intros k K. destruct (F k K) as (f & Hf & L). apply In_nth_error in Hf. destruct Hf as (i & Hi).
    destruct (first_decides k ltac:(lia) i f Hi L) as (g & G). exists g. exact G.
Qed.

End Facts.

Lemma full_cut t k t' lev : TD t -> fullT t lev -> cut t k t' -> k <= lev -> fullT t' k.
Proof.
  intros D F C L j J. destruct (F j) as (f & Hf & E); [lia|]. exists f.
  apply In_nth_error in Hf. destruct Hf as (i & Hi). destruct (td_dst _ D i f Hi) as (Rf & _).
  split.
  - rewrite (cut_dst _ _ _ C). apply filter_In. split; [eapply nth_error_In; eauto|]. apply Z.leb_le. lia.
  - unfold llev. destruct (cut_kept _ _ _ C (lvar f) (lval f)) as (_ & X & _); auto; [unfold llev in E; lia|].
    rewrite X. exact E.
Qed.

Lemma full_ext t t' lev : TD t -> fullT t lev -> ext t t' -> fullT t' lev.
Proof.
  intros D F X j J. destruct (F j J) as (f & Hf & E). exists f.
  apply In_nth_error in Hf. destruct Hf as (i & Hi). destruct (td_dst _ D i f Hi) as (_ & T & _).
  split; [eapply nth_error_In, ext_nth; eauto|]. rewrite (ext_llev t); auto. apply lit_true_un; auto.
Qed.

Lemma full_dec t t' lev l : TD t -> TD t' -> fullT t lev -> ext t t' -> newlev t (lev + 1) t' -> lrange t l ->
  ASG t (lvar l) (lval l) = Un -> lit_true t' l = true -> fullT t' (lev + 1).
Proof.
  intros D D' F X W Rl U T j J. destruct (Z.eq_dec j (lev + 1)) as [->|N].
  - destruct (entry_of t' (lvar l) (lval l) D') as (i & f & H1 & _ & H3 & _).
    + apply (ext_range t); auto.
    + apply lit_true_as; auto.
    + exists f. split; [eapply nth_error_In; eauto|]. rewrite H3. apply W; auto. apply lit_true_as; auto.
  - apply (full_ext t t' lev); auto. lia.
Qed.

(** ** -solvenc *)

Definition fullS (s : state) : Prop := fullT (tr s) (level s).

Lemma nc_conflict_full c r rc s t0 cs0 fuel s' rc' :
  watch c = false -> lenient c = true -> NI t0 cs0 s -> 1 <= level s -> conflict s = true -> fullS s ->
  nc_conflict fuel c r rc s = Ok (s', rc') -> fullS s'.
Proof.
  intros W Le H L Cf F E.
  destruct (nc_conflict_ok c r rc s W Le (ni_CS _ _ _ H) (ni_TR _ _ _ H) (ni_nd _ _ _ H) Cf L)
    as (N & C & lv & s3 & rc3 & E3 & J & H3).
  assert (X : (s', rc') = (s3, rc3)).
  { apply (settled_ok (fun f => nc_conflict f c r rc s) N _ _ fuel); auto. intros; apply nc_conflict_below; auto. }
  injection X as -> ->. apply (full_cut (tr s) (level s3) _ (level s)); auto.
  - apply (cs_TD _ (ni_CS _ _ _ H)).
  - apply (ju_cut _ _ _ _ _ _ _ _ J).
  - rewrite (ju_level _ _ _ _ _ _ _ _ J). pose proof (ju_lv _ _ _ _ _ _ _ _ J). destruct (_ =? _); lia.
Qed.

Lemma up_full c fuel s s' : CS s -> fullS s -> unit_propagation fuel c s = Ok s' -> fullS s'.
Proof.
  intros H F E. destruct (unit_propagation_ok c s H) as (N & s3 & E3 & _ & P2 & P3 & _).
  assert (s' = s3).
  { apply (settled_ok (fun f => unit_propagation f c s) N _ _ fuel); auto. intros; apply unit_propagation_below; auto. }
  subst s3. unfold fullS. rewrite (fu_level _ _ P2). apply (full_ext (tr s)); auto. apply (cs_TD _ H).
Qed.

Lemma nc_front_full c r rc s t0 cs0 fuel s' rc' :
  watch c = false -> lenient c = true -> NI t0 cs0 s -> (conflict s = true -> 1 <= level s) -> fullS s ->
  nc_front fuel c r rc s = Ok (s', rc') -> fullS s'.
Proof.
  intros W Le H HL F E. unfold nc_front in E.
  apply bind_ok in E. destruct E as ((s1, rc1) & E1 & E). apply bind_ok in E. destruct E as (s2 & E2 & E).
  injection E as <- _.
  assert (H1 : CS s1 /\ fullS s1).
  { destruct (conflict s) eqn:Cf.
    - split; [|eapply nc_conflict_full; eauto].
      destruct (nc_conflict_ok c r rc s W Le (ni_CS _ _ _ H) (ni_TR _ _ _ H) (ni_nd _ _ _ H) Cf (HL eq_refl))
        as (N & C & lv & s3 & rc3 & E3 & J & H3).
      assert (X : (s1, rc1) = (s3, rc3)).
      { apply (settled_ok (fun f => nc_conflict f c r rc s) N _ _ fuel); auto. intros; apply nc_conflict_below; auto. }
      injection X as -> ->. auto.
    - injection E1 as <- <-. split; auto. apply H. }
  destruct H1 as (H1 & F1). destruct (ulist s1); [injection E2 as <-; auto|]. eapply up_full; eauto.
Qed.

Lemma built_full c t cs s : built c t cs s -> fullS s.
Proof. intros B k K. destruct (bu_misc _ _ _ _ B) as (L0 & _). lia. Qed.

Lemma nc_reached_full c clk r p rc s :
  wf p -> no_repeats p -> watch c = false -> lenient c = true -> nc_reached c clk r p rc s -> fullS s.
Proof.
  intros W ND Hw Le H. induction H as [s E|fuel rc s rc' s' H IH E].
  - destruct (build_ok c p W) as (t & s0 & EB & ST & B). assert (s = s0) by congruence. subst s0.
    eapply built_full; eauto.
  - destruct (nc_reached_ok c clk r p rc s W ND Hw Le H) as (t0 & ST & I & RS & _).
    unfold nc_iter, check_time in E. destruct (clk (tick s)); [discriminate|].
    set (s1 := set_tick s (S (tick s))) in *.
    destruct (conflict s1 && (level s1 =? 0)) eqn:CL; [discriminate|].
    apply bind_ok in E. destruct E as ((s2, rc2) & E2 & E).
    assert (I1 : NI t0 (clauses p) s1) by (apply NI_tick; auto).
    assert (PL : conflict s1 = true -> 1 <= level s1) by (intro; eapply pos_level; eauto).
    assert (F2 : fullS s2) by (eapply nc_front_full; eauto).
    destruct (front_at c r rc s1 t0 (clauses p) fuel s2 rc2) as (I2 & _ & U2); auto.
    destruct (conflict s2) eqn:Cf2; [injection E as <- <-; auto|].
    assert (Ul : ulist s2 = []) by (destruct U2; auto; congruence).
    apply bind_ok in E. destruct E as ((s3, l) & E3 & E). destruct (Z.eqb_spec (lvar l) (-1)) as [|Nl]; [discriminate|].
    apply bind_ok in E. destruct E as (s4 & E4 & E). injection E as <- <-.
    destruct (choose_nc_ok c s2 (ni_CS _ _ _ I2) Cf2 Ul (ni_sc _ _ _ I2)) as (rr & l' & E5 & P).
    assert (X : (s3, l) = (set_uclause s2 rr, l')) by congruence. injection X as -> ->.
    destruct P as [(P1 & _)|(P1 & P2 & P3)]; [congruence|].
    destruct (decide_ok c s2 l' RDec (decisions s2 + 1) (ni_CS _ _ _ I2) Cf2 Ul P2 P3)
      as (s5 & E6 & H6 & L6 & Fr6 & X6 & W6 & _ & T6 & _).
    assert (s4 = s5).
    { unfold nc_decide in E4. cbv zeta in E4.
      match type of E4 with reduce_theory c ?z _ = _ =>
        replace z with (at_next s2 RDec (decisions s2 + 1)) in E4 by reflexivity end. congruence. }
    subst s5. unfold fullS. rewrite L6. eapply full_dec; eauto.
    + apply (cs_TD _ (ni_CS _ _ _ I2)).
    + apply (cs_TD _ H6).
Qed.

Lemma start_dims p t0 s : start_trail p t0 -> NV (tr s) = NV t0 -> DOM (tr s) = DOM t0 ->
  NV (tr s) = nvars p /\ forall v, DOM (tr s) v = domsize p v.
Proof. intros ST N D. rewrite N, D. split; [apply ST|intro v; apply ST]. Qed.

Lemma nc_shape p t0 s : wf p -> start_trail p t0 -> NI t0 (clauses p) s -> fullS s ->
  stacked p s /\ valued p s /\ explained p s.
Proof.
  intros W2 ST I F. destruct (start_dims p t0 s ST (ni_nv _ _ _ I) (ni_dom _ _ _ I)) as (A & B).
  pose proof (ni_CS _ _ _ I) as H. split; [|split].
  - apply stacked_of; auto; apply H.
  - apply valued_of; auto; apply H.
  - apply explained_of; auto; [apply (cs_TD _ H)|apply (si_ok _ (CS_si _ H))|apply I].
Qed.

Lemma CS_recorded s : CS s -> recorded s.
Proof. intro H. destruct (CS_si _ H) as [a b _ _]. split; auto. intros n C Hn l. apply (a n C l Hn). Qed.

Lemma CS_propagated s : CS s -> conflict s = false -> ulist s = [] -> propagated s.
Proof.
  intros H Cf Ul C HC. apply In_nth_error in HC. destruct HC as (n & Hn).
  destruct (CS_ci _ H n C Hn) as [(E & _ & Nu)|(_ & _ & (l & L1 & L2 & _) & _)].
  - right. destruct (ui_two _ _ (CS_ui _ H) Cf n C Hn E) as [T|(_ & [T|T])].
    + unfold countb in Nu. lia.
    + rewrite Ul in T. destruct T.
    + destruct T.
  - left. exists l. split; auto. apply true_iff; auto.
Qed.

Lemma nc_reached_shape c clk r p rc s :
  wf p -> no_repeats p -> watch c = false -> lenient c = true -> nc_reached c clk r p rc s ->
  stacked p s /\ valued p s /\ explained p s /\ counted s /\ recorded s.
Proof.
  intros W ND Hw Le H. pose proof (nc_reached_full c clk r p rc s W ND Hw Le H) as F.
  destruct (nc_reached_ok c clk r p rc s W ND Hw Le H) as (t0 & ST & I & _).
  destruct (nc_shape p t0 s W ST I F) as (A & B & C). split; auto. split; auto. split; auto.
  split; [apply CI_counted, CS_ci, I|apply CS_recorded, I].
Qed.

Lemma nc_decision_shape c clk r p s l :
  wf p -> no_repeats p -> watch c = false -> lenient c = true -> nc_decision_at c clk r p s l ->
  (stacked p s /\ valued p s /\ explained p s) /\ counted s /\ recorded s /\ propagated s.
Proof.
  intros W ND Hw Le H. destruct (nc_decision_at_ok c clk r p s l W ND Hw Le H) as (t0 & s2 & ST & I & _ & Cf & Ul & _).
  split; [|split; [apply CI_counted, CS_ci, I|split; [apply CS_recorded, I|apply CS_propagated; auto; apply I]]].
  destruct H as (s0 & s1 & fuel & rc & rc' & s3 & H & CT & CL & E & _).
  destruct (nc_reached_ok c clk r p rc s0 W ND Hw Le H) as (t1 & _ & I0 & _).
  assert (I1 : NI t1 (clauses p) s1 /\ fullS s1).
  { pose proof (nc_reached_full c clk r p rc s0 W ND Hw Le H) as F.
    unfold check_time in CT. injection CT as _ <-. split; [apply NI_tick; auto|exact F]. }
  apply (nc_shape p t0); auto. destruct I1 as (I1 & F1). eapply nc_front_full; eauto.
  intro. eapply pos_level; eauto.
Qed.

(** ** -solvenc -wl *)

Lemma wl_conflict_full c r rc s t0 cs0 fuel s' rc' :
  watch c = true -> lenient c = true -> WI t0 cs0 s -> 1 <= level s -> conflict s = true -> fullS s ->
  wl_conflict fuel c r rc s = Ok (s', rc') -> fullS s' /\ WCS s'.
Proof.
  intros W Le H L Cf F E.
  destruct (wl_conflict_ok c r rc s W Le (wi_CS _ _ _ H) (wi_TR _ _ _ H) Cf L)
    as (N & C & lv & s3 & rc3 & E3 & J & H3).
  assert (X : (s', rc') = (s3, rc3)).
  { apply (settled_ok (fun f => wl_conflict f c r rc s) N _ _ fuel); auto. intros; apply wl_conflict_below; auto. }
  injection X as -> ->. split; auto. apply (full_cut (tr s) (level s3) _ (level s)); auto.
  - apply (wc_TD _ (wi_CS _ _ _ H)).
  - apply (ju_cut _ _ _ _ _ _ _ _ J).
  - rewrite (ju_level _ _ _ _ _ _ _ _ J). pose proof (ju_lv _ _ _ _ _ _ _ _ J). destruct (_ =? _); lia.
Qed.

Lemma wup_full c fuel s s' : WCS s -> fullS s -> wunit_propagation fuel c s = Ok s' -> fullS s'.
Proof.
  intros H F E. destruct (wunit_propagation_ok c s H) as (N & s3 & E3 & _ & P2 & P3 & _).
  assert (s' = s3).
  { apply (settled_ok (fun f => wunit_propagation f c s) N _ _ fuel); auto. intros; apply wunit_propagation_below; auto. }
  subst s3. unfold fullS. rewrite (fu_level _ _ P2). apply (full_ext (tr s)); auto. apply (wc_TD _ H).
Qed.

Lemma wl_front_full c r rc s t0 cs0 fuel s' rc' :
  watch c = true -> lenient c = true -> WI t0 cs0 s -> (conflict s = true -> 1 <= level s) -> fullS s ->
  wl_front fuel c r rc s = Ok (s', rc') -> fullS s'.
Proof.
  intros W Le H HL F E. unfold wl_front in E.
  apply bind_ok in E. destruct E as ((s1, rc1) & E1 & E). apply bind_ok in E. destruct E as (s2 & E2 & E).
  injection E as <- _.
  assert (H1 : fullS s1 /\ WCS s1).
  { destruct (conflict s) eqn:Cf; [eapply wl_conflict_full; eauto|].
    injection E1 as <- <-. split; auto. apply H. }
  destruct H1 as (F1 & H1). destruct (ulist s1); [injection E2 as <-; auto|]. eapply wup_full; eauto.
Qed.

Lemma wl_reached_full c clk r p rc s :
  wf p -> no_repeats p -> watch c = true -> lenient c = true -> heur c <> BK -> wl_reached c clk r p rc s -> fullS s.
Proof.
  intros W ND Hw Le NB H. induction H as [s E|fuel rc s rc' s' H IH E].
  - destruct (build_ok c p W) as (t & s0 & EB & ST & B). assert (s = s0) by congruence. subst s0.
    eapply built_full; eauto.
  - destruct (wl_reached_ok c clk r p rc s W ND Hw Le NB H) as (t0 & ST & I & RS).
    unfold wl_iter, check_time in E. destruct (clk (tick s)); [discriminate|].
    set (s1 := set_tick s (S (tick s))) in *.
    destruct (conflict s1 && (level s1 =? 0)) eqn:CL; [discriminate|].
    apply bind_ok in E. destruct E as ((s2, rc2) & E2 & E).
    assert (I1 : WI t0 (clauses p) s1) by (apply WI_tick; auto).
    assert (PL : conflict s1 = true -> 1 <= level s1) by (intro; eapply wpos_level; eauto).
    assert (F2 : fullS s2) by (eapply wl_front_full; eauto).
    destruct (wl_front_ok c r rc s1 t0 (clauses p) Hw Le I1 RS PL) as (N & s3' & rc3' & E3' & I2 & _ & U2 & _).
    assert (X : (s2, rc2) = (s3', rc3')).
    { apply (settled_ok (fun f => wl_front f c r rc s1) N _ _ fuel); auto. intros; apply wl_front_below; auto. }
    injection X as <- <-.
    destruct (conflict s2) eqn:Cf2; [injection E as <- <-; auto|].
    assert (Ul : ulist s2 = []) by (destruct U2; auto; congruence).
    apply bind_ok in E. destruct E as ((s3, l) & E3 & E). destruct (Z.eqb_spec (lvar l) (-1)) as [|Nl]; [discriminate|].
    apply bind_ok in E. destruct E as (s4 & E4 & E). injection E as <- <-.
    destruct (choose_wl_ok c s2 NB (wi_CS _ _ _ I2) Cf2 Ul (wi_sc _ _ _ I2)) as (rr & l' & E5 & P).
    assert (X : (s3, l) = (set_uclause s2 rr, l')) by congruence. injection X as -> ->.
    destruct P as [(P1 & _)|(P1 & P2 & P3)]; [congruence|].
    destruct (wdecide_ok c s2 l' (decisions s2 + 1) (wi_CS _ _ _ I2) Cf2 Ul P2 P3)
      as (s5 & E6 & H6 & L6 & Fr6 & X6 & W6 & _ & T6 & _).
    assert (s4 = s5).
    { unfold wl_decide in E4. cbv zeta in E4.
      match type of E4 with wreduce_theory c ?z _ = _ =>
        replace z with (at_next s2 RDec (decisions s2 + 1)) in E4 by reflexivity end. congruence. }
    subst s5. unfold fullS. rewrite L6. eapply full_dec; eauto.
    + apply (wc_TD _ (wi_CS _ _ _ I2)).
    + apply (wc_TD _ H6).
Qed.

Lemma wl_shape p t0 s : wf p -> start_trail p t0 -> WI t0 (clauses p) s -> fullS s ->
  stacked p s /\ valued p s /\ explained p s.
Proof.
  intros W2 ST I F. destruct (start_dims p t0 s ST (wi_nv _ _ _ I) (wi_dom _ _ _ I)) as (A & B).
  pose proof (wi_CS _ _ _ I) as H. split; [|split].
  - apply stacked_of; auto; apply H.
  - apply valued_of; auto; apply H.
  - apply explained_of; auto; [apply (wc_TD _ H)|apply (ws_ok _ (WCS_ws _ H))|apply I].
Qed.

Lemma WCS_propagated s : WCS s -> conflict s = false -> ulist s = [] -> propagated s.
Proof.
  intros H Cf Ul C HC. apply In_nth_error in HC. destruct HC as (n & Hn).
  assert (T : forall l, In l C -> lit_true (tr s) l = true -> exists l, In l C /\ is_true s l).
  { intros l Hl T. exists l. split; auto. apply true_iff; auto. }
  destruct (lit_un (tr s) (w0 s n)) eqn:U.
  - destruct (jw_good _ _ (wc_J _ H) Cf n C Hn) as (G1 & G2). pose proof (ws_w0 _ (WCS_ws _ H) n C Hn) as I0.
    destruct (Nat.eq_dec (length C) 1) as [L1|L1].
    + destruct (G1 L1) as [(X & _)|(_ & _ & [X|X])]; [left; eauto|rewrite Ul in X; destruct X|destruct X].
    + pose proof (WS_two s n C (WCS_ws _ H) Hn L1) as L2. destruct (ws_w1 _ (WCS_ws _ H) n C Hn L2) as (I1 & N1).
      destruct (lit_cases (tr s) (w1 s n)) as [(T1 & _)|[(_ & U1 & _)|(_ & _ & F1)]]; [left; eauto| |].
      * right. apply two_countb with (w0 s n) (w1 s n); auto.
      * left. destruct (G2 (w1 s n) (w0 s n)) as [(X & _)|(_ & _ & [X|[]] & _)]; auto.
        -- split; auto.
        -- eauto.
        -- rewrite Ul in X. destruct X.
  - left. destruct (WCS_true_or s n C H Cf Ul Hn U) as (l & L1 & L2). eauto.
Qed.

Lemma wl_reached_shape c clk r p rc s :
  wf p -> no_repeats p -> watch c = true -> lenient c = true -> heur c <> BK -> wl_reached c clk r p rc s ->
  stacked p s /\ valued p s /\ explained p s /\ (conflict s = false -> watched s).
Proof.
  intros W ND Hw Le NB H. pose proof (wl_reached_full c clk r p rc s W ND Hw Le NB H) as F.
  destruct (wl_reached_ok c clk r p rc s W ND Hw Le NB H) as (t0 & ST & I & _).
  destruct (wl_shape p t0 s W ST I F) as (A & B & C). split; auto. split; auto. split; auto.
  intro Cf. apply WCS_watched; auto. apply I.
Qed.

Lemma wl_decision_shape c clk r p s l :
  wf p -> no_repeats p -> watch c = true -> lenient c = true -> heur c <> BK -> wl_decision_at c clk r p s l ->
  (stacked p s /\ valued p s /\ explained p s) /\ watched s /\ propagated s.
Proof.
  intros W ND Hw Le NB H. destruct (wl_decision_at_ok c clk r p s l W ND Hw Le NB H) as (t0 & s2 & ST & I & Cf & Ul & _).
  split; [|split; [apply WCS_watched; auto; apply I|apply WCS_propagated; auto; apply I]].
  destruct H as (s0 & s1 & fuel & rc & rc' & s3 & H & CT & CL & E & _).
  destruct (wl_reached_ok c clk r p rc s0 W ND Hw Le NB H) as (t1 & _ & I0 & _).
  assert (I1 : WI t1 (clauses p) s1 /\ fullS s1).
  { pose proof (wl_reached_full c clk r p rc s0 W ND Hw Le NB H) as F.
    unfold check_time in CT. injection CT as _ <-. split; [apply WI_tick; auto|exact F]. }
  apply (wl_shape p t0); auto. destruct I1 as (I1 & F1). eapply wl_front_full; eauto.
  intro. eapply wpos_level; eauto.
Qed.

(** ** -solvech *)

Lemma CC_shape c p s lev : wf p -> CC c p s lev -> stacked p s /\ valued p s /\ counted s /\ recorded s.
Proof.
  intros W [H L _ N D _]. split; [apply stacked_of; auto; apply H|]. split; [apply valued_of; auto; apply H|].
  split; [apply CI_counted, CS_ci, H|apply CS_recorded, H].
Qed.

Lemma ch_called_shape c clk p s lev :
  wf p -> watch c = false -> heur c = BK \/ heur c = Lazy -> ch_called c clk p s lev ->
  stacked p s /\ valued p s /\ counted s /\ recorded s.
Proof. intros W Hw Hh H. eapply CC_shape; auto. eapply ch_called_ok; eauto. Qed.

Lemma ch_decision_shape c clk p s l :
  wf p -> watch c = false -> heur c = BK \/ heur c = Lazy -> ch_decision_at c clk p s l ->
  (stacked p s /\ valued p s /\ counted s /\ recorded s) /\ propagated s.
Proof.
  intros W Hw Hh H. destruct (ch_decision_at_ok c clk p Hh s l W Hw H) as (lev & s2 & C & Cf & Ul & _).
  split; [eapply CC_shape; eauto|]. apply CS_propagated; auto. apply C.
Qed.
