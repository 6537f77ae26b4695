(** * Unit propagation, undoing and deciding with watched literals *)

From Coq Require Import Floats.SpecFloat.
From Verif Require Import Spec Outcome State ModelCounter ModelHeur ModelLearn ModelWatch
  ModelSearch Base Trail Reduce Counter CounterUndo Propagate Choose Scores Chrono Learn Watch.

(** ** watchedReduceTheory *)

Lemma JW_push xs s l : JW xs s -> JW xs (push_dst s l).
Proof.
  intros [[a1 a2 a3 a4 a5 a6 a7] b1 b2 b3 b4]. split; auto. split; auto.
Qed.
Lemma JW_ent xs s n : JW xs s -> JW xs (set_entails s n).
Proof. intros [[a1 a2 a3 a4 a5 a6 a7] b1 b2 b3 b4]. split; auto. split; auto. Qed.
Lemma JW_ucl xs s r : JW xs s -> JW xs (set_uclause s r).
Proof. intros [[a1 a2 a3 a4 a5 a6 a7] b1 b2 b3 b4]. split; auto. split; auto. Qed.

Lemma wreduce_theory_ok xs c s l :
  JW xs s -> TB (tr s) (level s) (fun _ => False) -> TD (tr s) -> 0 <= level s ->
  lrange (tr s) l -> ASG (tr s) (lvar l) (lval l) = Un ->
  exists s', wreduce_theory c s l = Ok s' /\ JW xs s' /\ fr s s' /\ ext (tr s) (tr s') /\ newlev (tr s) (level s) (tr s') /\ TD (tr s') /\
    TB (tr s') (level s) (fun u => conflict s' = true) /\ lit_true (tr s') l = true /\
    (unass (tr s') < unass (tr s))%nat /\
    (forall cls, TR (tr s) cls ->
       pre_reason (tr s) cls (level s) (uclause s) l -> TR (tr s') cls) /\
    (forall a, legalT a (tr s) -> agree a (tr s) -> lit_holds a l -> agree a (tr s')).
Proof.
  intros HJ H D L R U.
  assert (V : VAL (tr s) (lvar l) = -1) by (eapply un_noval; eauto).
  destruct (greduce_ok (wassign_atom c) (JW xs) (wassign_ok xs c) (JW_push xs) (JW_ent xs) (JW_ucl xs) s l)
    as (s' & E & HH); auto.
  exists s'. split; auto.
Qed.

(** ** State between reductions *)

Record WCS (s : state) : Prop := mkWCS {
  wc_J : JW [] s;
  wc_TB : TB (tr s) (level s) (fun _ => conflict s = true);
  wc_TD : TD (tr s);
  wc_lev : 0 <= level s
}.

Lemma WCS_ws s : WCS s -> WS s.
Proof. intro H. apply (wc_J _ H). Qed.

Lemma WCS_clause s n c : WCS s -> nth_error (cl s) n = Some c -> forall l, In l c -> lrange (tr s) l.
Proof. intros H Hn l Hl. eapply WS_range; eauto. apply WCS_ws; auto. Qed.

(** Every clause was, at the end of each completed level, satisfied or had two open literals. *)
Lemma JW_CLO xs s : JW xs s -> CLO (tr s) (cl s) (level s).
Proof.
  intros H j C J HC. apply In_nth_error in HC. destruct HC as (n & Hn).
  pose proof (jw_ws _ _ H) as HS. destruct (jw_old _ _ H n C Hn) as (O1 & O2).
  pose proof (ws_w0 _ HS n C Hn) as I0.
  destruct (Nat.eq_dec (length C) 1) as [L1|L1].
  - destruct (O1 L1) as (T & L); [lia|]. left. exists (w0 s n). split; auto. split; auto. lia.
  - pose proof (WS_two s n C HS Hn L1) as L2. destruct (ws_w1 _ HS n C Hn L2) as (I1 & N1).
    assert (P01 : pair s n C (w0 s n) (w1 s n)) by (split; auto).
    assert (P10 : pair s n C (w1 s n) (w0 s n)) by (split; auto).
    destruct (notfalse (tr s) j (w0 s n)) eqn:N0.
    + destruct (notfalse (tr s) j (w1 s n)) eqn:N1'.
      * right. apply two_countb with (w0 s n) (w1 s n); auto.
      * unfold notfalse in N1'. apply negb_false_iff, andb_true_iff in N1'. destruct N1' as (F & L).
        apply Z.leb_le in L. destruct (O2 _ _ P10 F) as (T & Lt); [lia|].
        left. exists (w0 s n). split; auto. split; auto. lia.
    + unfold notfalse in N0. apply negb_false_iff, andb_true_iff in N0. destruct N0 as (F & L).
      apply Z.leb_le in L. destruct (O2 _ _ P01 F) as (T & Lt); [lia|].
      left. exists (w1 s n). split; auto. split; auto. lia.
Qed.

(** ** WatchedUnitPropagation *)

Lemma JW_pop s n rest r : JW [] s -> ulist s = n :: rest ->
  JW [n] (set_ulist (set_uclause s r) rest).
Proof.
  intros [[a1 a2 a3 a4 a5 a6 a7] b1 b2 b3 b4] Ul. split; auto; [split; auto| |].
  - intros Cf m C Hm. destruct (b2 Cf m C Hm) as (G1 & G2).
    assert (X : In m (ulist s) \/ In m [] -> In m rest \/ In m [n]).
    { rewrite Ul. simpl. tauto. }
    split.
    + intro L. destruct (G1 L) as [|(A & B & D)]; auto.
    + intros w o P F. destruct (G2 w o P F) as [|(A & B & D & E)]; [left; auto|right; auto].
  - intros Cf m Hm. apply b3; auto. rewrite Ul. right; auto.
Qed.

(** Dropping the clause worked on once one of its watched literals is true, or both are assigned. *)
Lemma JW_drop s n C : JW [n] s -> nth_error (cl s) n = Some C ->
  (conflict s = false -> good [n] s n C -> good [] s n C) -> JW [] s.
Proof.
  intros [a b1 b2 b3 b4] HC X. split; auto. intros Cf m D Hm.
  destruct (Nat.eq_dec m n) as [->|N].
  - assert (D = C) by congruence. subst D. auto.
  - destruct (b2 Cf m D Hm) as (G1 & G2). split.
    + intro L. destruct (G1 L) as [|(A & B & [E|[E|[]]])]; [left; auto|right; auto|congruence].
    + intros w o P F. destruct (G2 w o P F) as [|(A & B & [E|[E|[]]] & R)]; [left; auto|right; auto|congruence].
Qed.

Lemma pendu_pre_reason s n C l :
  WS s -> nth_error (cl s) n = Some C -> pendu s n C -> (l = w0 s n \/ (2 <= length C)%nat /\ l = w1 s n) ->
  lit_un (tr s) l = true ->
  (forall x, In x C -> x <> l -> lit_false (tr s) x = true) /\
  pre_reason (tr s) (cl s) (level s) (RCls n) l.
Proof.
  intros HS Hn (P1 & P2) Hl U.
  assert (RG : forall x, In x C -> lrange (tr s) x) by (intros; eapply WS_range; eauto).
  assert (Il : In l C).
  { destruct Hl as [->|(L & ->)]; [apply (ws_w0 _ HS); auto|apply (ws_w1 _ HS); auto]. }
  destruct (Nat.eq_dec (length C) 1) as [L1|L1].
  - assert (A : forall x, In x C -> x = l).
    { destruct C as [|z [|z' r]]; try (simpl in L1; discriminate).
      destruct Il as [<-|[]]. intros x [<-|[]]. auto. }
    split; [intros x Hx Nx; exfalso; auto|].
    exists C. split; auto. split; auto. split; [intros x Hx Nx; exfalso; auto|].
    rewrite (P1 L1). lia.
  - pose proof (WS_two s n C HS Hn L1) as L2. destruct (P2 L2) as (w & o & P & Fw & Lw & RF).
    destruct (pair_in _ _ _ _ _ HS Hn P) as (Iw & Io & Nwo).
    assert (Nl : w <> l) by (intros ->; apply lit_false_un in Fw; congruence).
    assert (l = o).
    { destruct P as (_ & [(A & B)|(A & B)]); destruct Hl as [Hl|(_ & Hl)]; congruence. }
    subst o.
    assert (F : forall x, In x C -> x <> l -> lit_false (tr s) x = true).
    { intros x Hx Nx. apply RF; auto. }
    split; auto. exists C. split; auto. split; auto. split; [intros x Hx Nx; auto|].
    intros _. exists w. auto.
Qed.

Definition wup_post (c : cfg) (s s' : state) : Prop :=
  WCS s' /\ fru s s' /\ ext (tr s) (tr s') /\ newlev (tr s) (level s) (tr s') /\
  (unass (tr s') <= unass (tr s))%nat /\
  (conflict s' = true \/ ulist s' = []) /\
  entails_from (tr s) (cl s) (tr s') /\
  (TR (tr s) (cl s) -> TR (tr s') (cl s)).

Lemma WCS_units s n : WCS s -> WCS (set_units s n).
Proof.
  intros [[[a1 a2 a3 a4 a5 a6 a7] b1 b2 b3 b4] c d e]. split; auto. split; auto. split; auto.
Qed.

Lemma wunit_propagation_ok c s : WCS s ->
  exists N s', (forall fuel, (N <= fuel)%nat -> wunit_propagation fuel c s = Ok s') /\ wup_post c s s'.
Proof.
  remember (unass (tr s)) as un eqn:Eu. revert s Eu.
  induction un as [un IHu] using lt_wf_ind. intros s Eu.
  remember (length (ulist s)) as len eqn:El. revert s Eu El.
  induction len as [|len IHl]; intros s Eu El H.
  - exists 1%nat, s. destruct (ulist s) eqn:Ul; [|discriminate]. split.
    + intros [|f] Hf; [lia|]. simpl. rewrite Ul. destruct (conflict s); auto.
    + split; auto. split; [apply fru_refl|]. split; [apply ext_refl|].
      split; [apply newlev_refl|]. split; auto. split; auto. split; auto. intros a _ _ A; auto.
  - destruct (conflict s) eqn:Cf.
    { exists 1%nat, s. split.
      - intros [|f] Hf; [lia|]. simpl. rewrite Cf. auto.
      - split; auto. split; [apply fru_refl|]. split; [apply ext_refl|].
        split; [apply newlev_refl|]. split; auto. split; auto. split; auto. intros a _ _ A; auto. }
    destruct (ulist s) as [|n rest] eqn:Ul; [discriminate|].
    destruct (jw_pend _ _ (wc_J _ H) Cf n) as (C & Hc & PD); [rewrite Ul; left; auto|].
    pose proof (WCS_ws _ H) as HS.
    set (s1 := set_ulist (set_uclause s (RCls n)) rest).
    assert (J1 : JW [n] s1) by (apply JW_pop; auto; apply H).
    assert (D0 : DOM (tr s) 0 = 0) by apply (wc_TB _ H).
    pose proof (WCS_clause s n C H Hc) as RG.
    pose proof (ws_w0 _ HS n C Hc) as I0.
    pose proof (TB_noconf _ _ _ (wc_TB _ H) Cf) as HB.
    (* reducing one of the watched literals *)
    assert (RED : forall l, (l = w0 s n \/ (2 <= length C)%nat /\ l = w1 s n) -> lit_un (tr s) l = true ->
       (forall f, wunit_propagation (S f) c s =
          (let* s2 := wreduce_theory c s1 l in wunit_propagation f c (set_units s2 (units s2 + 1)))) ->
       exists N s', (forall fuel, (N <= fuel)%nat -> wunit_propagation fuel c s = Ok s') /\ wup_post c s s').
    { intros l Hl Ul' ST.
      destruct (pendu_pre_reason s n C l HS Hc PD Hl Ul') as (OTH & PRE).
      assert (Il : In l C).
      { destruct Hl as [->|(L & ->)]; [auto|apply (ws_w1 _ HS); auto]. }
      destruct (wreduce_theory_ok [n] c s1 l) as (s3 & E3 & J3 & F3 & X3 & N3 & D3 & B3 & T3 & M3 & R3 & A3); auto.
      { apply (wc_TD _ H). }
      { apply (wc_lev _ H). }
      { apply lit_un_iff; auto. }
      change (tr s1) with (tr s) in *. change (level s1) with (level s) in *.
      assert (Cl3 : cl s3 = cl s) by apply (fr_cl _ _ F3).
      assert (Lv3 : level s3 = level s) by apply (fr_level _ _ F3).
      assert (U3 := lit_true_un _ _ T3).
      assert (H3 : WCS s3).
      { split; auto.
        - assert (HC3 : nth_error (cl s3) n = Some C) by congruence.
          pose proof (jw_ws _ _ J3) as HS3.
          apply (JW_drop s3 n C); auto. intros Cf3 (G1 & G2). split.
          + intro L. destruct (G1 L) as [|(A & B & D)]; auto. exfalso.
            assert (w0 s3 n = l); [|congruence].
            pose proof (ws_w0 _ HS3 n C HC3) as I3.
            destruct C as [|z [|z' r]]; try (simpl in L; discriminate).
            destruct I3 as [<-|[]]. destruct Il as [<-|[]]. auto.
          + intros w o P F. destruct (G2 w o P F) as [|(A & B & D & E)]; auto. exfalso.
            assert (Nl : l <> o) by congruence.
            destruct (E l Il Nl) as (Fl & _).
            destruct (lit_cases (tr s3) l) as [X|[X|X]]; intuition congruence.
        - rewrite Lv3. eapply TB_weaken; eauto.
        - rewrite Lv3. apply (wc_lev _ H). }
      set (s4 := set_units s3 (units s3 + 1)).
      assert (H4 : WCS s4) by (apply WCS_units; auto).
      destruct (IHu (unass (tr s4))) with (s := s4) as (N & s' & E & P1 & P2 & P3 & P4 & P5 & P6 & P7 & P8); auto.
      { change (tr s4) with (tr s3). lia. }
      exists (S N), s'. split.
      { intros [|f] Hf; [lia|]. rewrite ST, E3. cbn [bind]. apply E; lia. }
      change (cl s4) with (cl s3) in *. change (level s4) with (level s3) in *. change (tr s4) with (tr s3) in *.
      rewrite Cl3, Lv3 in *.
      split; auto. split.
      { apply (fru_trans s s4); auto. destruct F3; split; auto. }
      split; [eapply ext_trans; eauto|]. split; [apply (newlev_trans _ (tr s3)); auto|].
      split; [lia|]. split; auto. split.
      + intros a La Ha Aa. apply P7; auto.
        { intros v Hv. rewrite (ext_dom _ _ X3). apply La. rewrite <- (ext_nv _ _ X3); auto. }
        apply A3; auto.
        destruct (Ha C) as (x & Hx & Tx); [eapply nth_error_In; eauto|].
        destruct (lit_eq_dec x l) as [->|Nx]; auto. exfalso.
        apply (agree_false a (tr s) x); auto.
      + intros HR. apply P8. apply R3; auto. }
    (* nothing to do *)
    assert (SKIP : (lit_un (tr s) (w0 s n) = false) -> ((2 <= length C)%nat -> lit_un (tr s) (w1 s n) = false) ->
       (forall f, wunit_propagation (S f) c s = wunit_propagation f c s1) ->
       exists N s', (forall fuel, (N <= fuel)%nat -> wunit_propagation fuel c s = Ok s') /\ wup_post c s s').
    { intros X0 X1 ST. assert (H1 : WCS s1).
      { destruct H. split; auto. apply (JW_drop s1 n C); auto. intros _ (G1 & G2). split.
        - intro L. destruct (G1 L) as [|(A & B & D)]; auto. change (w0 s1) with (w0 s) in A.
          change (tr s1) with (tr s) in A. congruence.
        - intros w o P F. destruct (G2 w o P F) as [|(A & B & D & E)]; auto.
          destruct P as (L & P). specialize (X1 L). change (w0 s1) with (w0 s) in P. change (w1 s1) with (w1 s) in P.
          change (tr s1) with (tr s) in *. destruct P as [(P & P')|(P & P')]; congruence. }
      destruct (IHl s1) as (N & s' & E & P1 & P2 & P3 & P4 & P5 & P6 & P7 & P8); auto.
      exists (S N), s'. split.
      - intros [|f] Hf; [lia|]. rewrite ST. apply E; lia.
      - split; auto. split; [|auto 10]. destruct P2; split; auto. }
    assert (UNF : forall f, wunit_propagation (S f) c s =
      (let* r := sat (tr s) (w0 s n) in
       match r with
       | SatUn => let* s := wreduce_theory c s1 (w0 s n) in wunit_propagation f c (set_units s (units s + 1))
       | _ =>
         let* r2 := if Nat.ltb 1 (length C) then sat (tr s) (w1 s n) else Ok SatFalse in
         match r2 with
         | SatUn => let* s := wreduce_theory c s1 (w1 s n) in wunit_propagation f c (set_units s (units s + 1))
         | _ => wunit_propagation f c s1
         end
       end)).
    { intro f. cbn [wunit_propagation]. rewrite Cf, Ul. unfold getcl. cbn [cl set_ulist set_uclause].
      rewrite Hc. reflexivity. }
    rewrite sat_ok in UNF by auto. cbn [bind] in UNF.
    destruct (lit_cases (tr s) (w0 s n)) as [(T0 & U0 & _)|[(T0 & U0 & _)|(T0 & U0 & _)]]; rewrite T0, ?U0 in UNF.
    2: { apply (RED (w0 s n)); auto. }
    all: destruct (Nat.ltb_spec 1 (length C)) as [L2|L2];
      [|apply SKIP; [auto|lia|auto]].
    all: destruct (ws_w1 _ HS n C Hc L2) as (I1 & N1); rewrite sat_ok in UNF by auto; cbn [bind] in UNF;
      destruct (lit_cases (tr s) (w1 s n)) as [(T1 & U1 & _)|[(T1 & U1 & _)|(T1 & U1 & _)]]; rewrite T1, ?U1 in UNF;
      solve [apply SKIP; auto | apply (RED (w1 s n)); auto].
Qed.

(** ** watchedUndoTheory *)

Lemma wundo_theory_ok s k :
  DOM (tr s) 0 = 0 -> TD (tr s) ->
  exists t', wundo_theory s k = Ok (set_tr s t') /\ cut (tr s) k t'.
Proof.
  intros D0 HD. unfold wundo_theory. set (t := tr s).
  destruct (foldM_ind (wundo1 k) (fun pre s' => exists t1, s' = set_tr s t1 /\ cutP s k pre t1)
    (atoms_from t 1) s) as (s' & E & t1 & -> & C).
  - exists t. split; [destruct s; reflexivity|apply cutP_nil].
  - intros pre (v & d) suf s' Ea (t1 & -> & C).
    assert (N : ~ In (v, d) pre).
    { pose proof (nodup_atoms t 1) as ND. rewrite Ea in ND. apply NoDup_remove_2 in ND.
      intro I. apply ND. apply in_or_app; auto. }
    destruct (cp_kept _ _ _ _ C v d) as (A1 & A2 & A3); auto.
    unfold wundo1. simpl tr. rewrite A2. eexists. split; [reflexivity|].
    destruct (Z.ltb_spec k (ALEV (tr s) v d)) as [K|K].
    + eexists. split; [reflexivity|]. apply cutP_unmark; auto.
    + exists t1. split; auto. apply cutP_skip; auto.
  - rewrite E. cbn [bind]. unfold prune_dst. simpl tr.
    assert (Rg : forall v d, range t1 v d <-> range t v d).
    { intros v d. unfold range. rewrite (cp_nv _ _ _ _ C), (cp_dom _ _ _ _ C). tauto. }
    assert (Fa : forallb (lit_ok t1) (DST t1) = true).
    { apply forallb_forall. intros f Hf. apply lit_ok_range.
      - rewrite (cp_dom _ _ _ _ C). auto.
      - unfold lrange. rewrite Rg. rewrite (cp_dst _ _ _ _ C) in Hf. apply In_nth_error in Hf.
        destruct Hf as (i & Hi). apply (td_dst _ HD i f Hi). }
    rewrite Fa.
    set (t' := mkTrail (NV t1) (DOM t1) (VAL t1) (ASG t1) (ALEV t1) (AIDX t1) (CID t1)
                 (filter (fun l => negb (lit_un t1 l)) (DST t1))).
    assert (K1 : forall v d, range t v d -> k < ALEV t v d ->
               ASG t1 v d = Un /\ ALEV t1 v d = -10 /\ CID t1 v d = RUndef).
    { intros v d R K. apply (cp_gone _ _ _ _ C); auto. apply in_atoms1; auto. }
    assert (K2 : forall v d, range t v d -> ALEV t v d <= k ->
               ASG t1 v d = ASG t v d /\ ALEV t1 v d = ALEV t v d /\ CID t1 v d = CID t v d).
    { intros v d R K. apply (cp_kept _ _ _ _ C); auto. }
    exists t'. split; [reflexivity|].
    split; simpl; try apply C; auto.
    + intros v d. rewrite (cp_idx _ _ _ _ C). auto.
    + intros v (d & R & K). apply (cp_val _ _ _ _ C). exists d. split; auto. apply in_atoms1; auto.
    + intros v H. apply (cp_val' _ _ _ _ C). intros d I. apply H. apply in_atoms1; auto.
    + rewrite (cp_dst _ _ _ _ C). apply filter_ext_in. intros f Hf.
      apply In_nth_error in Hf. destruct Hf as (i & Hi).
      destruct (td_dst _ HD i f Hi) as (Rf & Tf & _). apply lit_true_as in Tf.
      unfold lit_un. destruct (Z.leb_spec (llev t f) k) as [K|K].
      * destruct (K2 _ _ Rf K) as (-> & _). change (tr s) with t in Tf. destruct (ASG t (lvar f) (lval f)); auto; congruence.
      * destruct (K1 _ _ Rf K) as (-> & _). auto.
Qed.

(** ** Choosing *)

Lemma WCS_true_or s n C : WCS s -> conflict s = false -> ulist s = [] -> nth_error (cl s) n = Some C ->
  lit_un (tr s) (w0 s n) = false -> exists l, In l C /\ lit_true (tr s) l = true.
Proof.
  intros H Cf Ul Hn U. pose proof (WCS_ws _ H) as HS. pose proof (ws_w0 _ HS n C Hn) as I0.
  destruct (jw_good _ _ (wc_J _ H) Cf n C Hn) as (G1 & G2).
  destruct (lit_cases (tr s) (w0 s n)) as [(T0 & _)|[(_ & U0 & _)|(_ & _ & F0)]]; [eauto|congruence|].
  destruct (Nat.eq_dec (length C) 1) as [L1|L1].
  - destruct (G1 L1) as [(T & _)|(U0 & _)]; [eauto|congruence].
  - pose proof (WS_two s n C HS Hn L1) as L2. destruct (ws_w1 _ HS n C Hn L2) as (I1 & N1).
    destruct (G2 (w0 s n) (w1 s n)) as [(T & _)|(_ & _ & [X|[]] & _)]; auto.
    + split; auto.
    + eauto.
    + rewrite Ul in X. destruct X.
Qed.

Lemma lazy_watched_ok s : WCS s -> conflict s = false -> ulist s = [] ->
  exists l, choose_lazy_watched s = Ok l /\
    ((lvar l = -1 /\ all_sat s) \/ lrange (tr s) l /\ lit_un (tr s) l = true).
Proof.
  intros H Cf Ul. unfold choose_lazy_watched.
  assert (D0 : DOM (tr s) 0 = 0) by apply (wc_TB _ H).
  assert (G : forall cs pre, cl s = pre ++ cs -> exists l, lazy_watched s (length pre) cs = Ok l /\
     ((lvar l = -1 /\ forall n C, nth_error cs n = Some C -> lit_un (tr s) (w0 s (length pre + n)) = false) \/
      lrange (tr s) l /\ lit_un (tr s) l = true)).
  { induction cs as [|C cs IH]; intros pre E.
    - exists nolit. split; auto. left. split; auto. intros [|n] C; discriminate.
    - cbn [lazy_watched].
      assert (Hn : nth_error (cl s) (length pre) = Some C).
      { rewrite E, nth_error_app2, Nat.sub_diag; auto. }
      pose proof (ws_w0 _ (WCS_ws _ H) _ _ Hn) as I0.
      assert (R0 : lrange (tr s) (w0 s (length pre))) by (eapply WCS_clause; eauto).
      rewrite sat_ok by auto. cbn [bind].
      assert (REST : lit_un (tr s) (w0 s (length pre)) = false -> exists l, lazy_watched s (S (length pre)) cs = Ok l /\
        ((lvar l = -1 /\ forall n D, nth_error (C :: cs) n = Some D -> lit_un (tr s) (w0 s (length pre + n)) = false) \/
         lrange (tr s) l /\ lit_un (tr s) l = true)).
      { intro U. destruct (IH (pre ++ [C])) as (l & El & P); [rewrite <- app_assoc; auto|].
        rewrite app_length in *. simpl in *. replace (length pre + 1)%nat with (S (length pre)) in * by lia.
        exists l. split; auto. destruct P as [(P1 & P2)|P]; auto. left. split; auto.
        intros [|n] D Hd; [rewrite Nat.add_0_r; auto|].
        replace (length pre + S n)%nat with (S (length pre) + n)%nat by lia. eapply P2; eauto. }
      destruct (lit_cases (tr s) (w0 s (length pre))) as [(T & U & F)|[(T & U & F)|(T & U & F)]]; rewrite T, ?U; auto.
      eexists. split; [reflexivity|]. auto. }
  destruct (G (cl s) []) as (l & E & P); auto. exists l. split; auto. destruct P as [(P1 & P2)|P]; auto.
  left. split; auto. intros C HC. apply In_nth_error in HC. destruct HC as (n & Hn).
  eapply WCS_true_or; eauto. eapply (P2 n); eauto.
Qed.

Lemma choose_wl_ok c s :
  heur c <> BK -> WCS s -> conflict s = false -> ulist s = [] -> scores_ok s ->
  exists r l, choose_wl c s = Ok (set_uclause s r, l) /\ choice_ok c s l.
Proof.
  intros NB H Cf Ul S.
  assert (HB := TB_noconf _ _ _ (wc_TB _ H) Cf).
  assert (N : 0 <= NV (tr s)) by apply HB. assert (D : DOM (tr s) 0 = 0) by apply HB.
  assert (DONE : (forall v d, ~ open_atom (tr s) v d) -> all_sat s /\ total (tr s)).
  { intro X. assert (T : total (tr s)) by (exact (none_open_total _ _ HB X)).
    split; auto. intros C HC. apply In_nth_error in HC. destruct HC as (n & Hn).
    eapply WCS_true_or; eauto. apply lit_un_false_iff. apply T.
    apply (WCS_clause s n C H Hn). apply (ws_w0 _ (WCS_ws _ H)); auto. }
  unfold choose_wl, choice_ok. destruct (heur c) eqn:Hh; [congruence| | |].
  - eexists RDec, _. split; [reflexivity|].
    destruct (choose_vsids_spec s N D S) as [(E & X)|(O & _)].
    + left. destruct (DONE X); auto.
    + right. apply open_range in O. tauto.
  - destruct (lazy_watched_ok s H Cf Ul) as (l & -> & P).
    exists (uclause s), l. split; [destruct s; reflexivity|].
    destruct P as [(E & X)|(R & U)].
    + left. split; auto. split; [auto|congruence].
    + right. split; [destruct R; lia|]. split; auto. apply lit_un_iff; auto.
  - eexists RDec, _. split; [reflexivity|].
    destruct (choose_vsids_pos_spec s N D S) as [(E & X)|(O & _)].
    + left. destruct (DONE X); auto.
    + right. apply open_range in O. tauto.
Qed.

(** ** Deciding *)

Lemma wdecide_ok c s l m :
  WCS s -> conflict s = false -> ulist s = [] ->
  lrange (tr s) l -> ASG (tr s) (lvar l) (lval l) = Un ->
  exists s', wreduce_theory c (at_next s RDec m) l = Ok s' /\ WCS s' /\ level s' = level s + 1 /\
    fr (at_next s RDec m) s' /\ ext (tr s) (tr s') /\ newlev (tr s) (level s + 1) (tr s') /\
    (unass (tr s') < unass (tr s))%nat /\ lit_true (tr s') l = true /\
    (TR (tr s) (cl s) -> TR (tr s') (cl s')).
Proof.
  intros H Cf Ul R U.
  assert (HB := TB_noconf _ _ _ (wc_TB _ H) Cf).
  assert (L0 := wc_lev _ H).
  assert (GD : forall n C w o, nth_error (cl s) n = Some C -> pair s n C w o -> lit_false (tr s) w = true ->
     lit_true (tr s) o = true /\ llev (tr s) o <= llev (tr s) w).
  { intros n C w o Hn P F. destruct (jw_good _ _ (wc_J _ H) Cf n C Hn) as (_ & G2).
    destruct (G2 w o P F) as [|(_ & _ & [X|[]] & _)]; auto. rewrite Ul in X. destruct X. }
  assert (GU : forall n C, nth_error (cl s) n = Some C -> length C = 1%nat ->
     lit_true (tr s) (w0 s n) = true /\ llev (tr s) (w0 s n) = 0).
  { intros n C Hn L. destruct (jw_good _ _ (wc_J _ H) Cf n C Hn) as (G1 & _).
    destruct (G1 L) as [|(_ & _ & [X|[]])]; auto. rewrite Ul in X. destruct X. }
  destruct (wreduce_theory_ok [] c (at_next s RDec m) l)
    as (s' & E & J & F & X & N & D & B & T & M & RR & A); auto.
  - destruct (wc_J _ H) as [[a1 a2 a3 a4 a5 a6 a7] b1 b2 b3 b4]. split; auto.
    + split; auto.
    + intros n C Hn. change (cl (at_next s RDec m)) with (cl s) in Hn. split.
      * intros L _. exact (GU n C Hn L).
      * intros w o P Fw _. exact (GD n C w o Hn P Fw).
    + intros _ n C Hn. change (cl (at_next s RDec m)) with (cl s) in Hn. split.
      * intros L. left. exact (GU n C Hn L).
      * intros w o P Fw. left. exact (GD n C w o Hn P Fw).
    + intros _ n Hn. change (ulist (at_next s RDec m)) with (ulist s) in Hn. rewrite Ul in Hn. destruct Hn.
  - simpl. eapply TB_level; eauto. lia.
  - apply (wc_TD _ H).
  - simpl; lia.
  - simpl in *. exists s'. split; auto.
    assert (Lv : level s' = level s + 1) by apply (fr_level _ _ F).
    assert (Cl : cl s' = cl s) by apply (fr_cl _ _ F).
    assert (WCS s').
    { split; auto; rewrite Lv; auto. lia. }
    split; auto. split; auto. split; auto. split; auto. split; auto. split; auto. split; auto.
    intros TR0. rewrite Cl. apply RR; auto. split; [lia|].
    intros g Hg. apply In_nth_error in Hg. destruct Hg as (i & Hi).
    destruct (td_dst _ (wc_TD _ H) _ _ Hi) as (Rg & Tg & _).
    assert (0 <= llev (tr s) g <= level s); [|lia].
    apply HB; auto. apply lit_true_as; auto.
Qed.
