(** * Invariants of the intermediate states of the searches *)

From Coq Require Import Floats.SpecFloat Sorting.Sorted.
From Verif Require Import Spec WideSpec Outcome State ModelCounter ModelHeur ModelLearn ModelWatch
  ModelSearch ModelBuild Base Trail Reduce Counter CounterUndo Propagate Choose Scores Chrono
  Init Analyze Learn Cdcl Nc Solve Watch WatchProp Wl SolveWl Fuel Counts Steps.

(** ** The learning search with counters *)

Lemma pair_ok {A B} (P : A -> B -> Prop) a b a' b' : P a b -> (a', b') = (a, b) -> P a' b'.
Proof. congruence. Qed.

(** Counts, if they are kept. *)
Definition CNTc (c : cfg) (s : state) : Prop := is_bk c = true -> CNT s.

Lemma front_cnt c r rc s t0 cs0 fuel s' rc' :
  watch c = false -> lenient c = true -> NI t0 cs0 s -> (conflict s = true -> 1 <= level s) ->
  CNTc c s -> nc_front fuel c r rc s = Ok (s', rc') -> CNTc c s'.
Proof.
  intros W Le H HL HN E B. specialize (HN B). unfold nc_front in E.
  apply bind_ok in E. destruct E as ((s1, rc1) & E1 & E). apply bind_ok in E. destruct E as (s2 & E2 & E).
  injection E as <- _.
  assert (H1 : CNT s1 /\ 0 <= level s1).
  { destruct (conflict s) eqn:Cf.
    - destruct (nc_conflict_ok c r rc s W Le (ni_CS _ _ _ H) (ni_TR _ _ _ H) (ni_nd _ _ _ H) Cf (HL eq_refl))
        as (N & C & lv & s3 & rc3 & E3 & J & H3).
      assert (X : (s1, rc1) = (s3, rc3)).
      { apply (settled_ok (fun f => nc_conflict f c r rc s) N _ _ fuel); auto. intros; apply nc_conflict_below; auto. }
      injection X as -> ->. split; [|apply H3].
      apply (nc_conflict_cnt c B fuel r rc s s3 rc3); auto; apply H.
    - injection E1 as <- <-. split; auto. apply (ni_CS _ _ _ H). }
  destruct H1 as (N1 & L1). destruct (ulist s1).
  - injection E2 as <-. auto.
  - apply (up_cnt c B fuel s1); auto.
Qed.

Lemma NI_tick t0 cs0 s k : NI t0 cs0 s -> NI t0 cs0 (set_tick s k).
Proof. intro H. apply (NI_eq t0 cs0 s); auto. split; reflexivity. Qed.

Lemma front_at c r rc s t0 cs0 fuel s' rc' :
  watch c = false -> lenient c = true -> NI t0 cs0 s -> rs_ok r rc s -> (conflict s = true -> 1 <= level s) ->
  nc_front fuel c r rc s = Ok (s', rc') ->
  NI t0 cs0 s' /\ rs_ok r rc' s' /\ (conflict s' = true \/ ulist s' = []).
Proof.
  intros W Le H RS HL E. destruct (front_ok c r rc s t0 cs0 W Le H RS HL) as (N & s1 & rc1 & E1 & A1 & A2 & A3 & _).
  assert (X : (s', rc') = (s1, rc1)).
  { apply (settled_ok (fun f => nc_front f c r rc s) N _ _ fuel); auto. intros; apply nc_front_below; auto. }
  injection X as -> ->. auto.
Qed.

Lemma pos_level t0 cs0 s : NI t0 cs0 s -> conflict s && (level s =? 0) = false -> conflict s = true -> 1 <= level s.
Proof.
  intros H E Cf. rewrite Cf in E. simpl in E. apply Z.eqb_neq in E. pose proof (cs_lev _ (ni_CS _ _ _ H)). lia.
Qed.

Lemma nc_reached_ok c clk r p rc s :
  wf p -> no_repeats p -> watch c = false -> lenient c = true -> nc_reached c clk r p rc s ->
  exists t0, start_trail p t0 /\ NI t0 (clauses p) s /\ rs_ok r rc s /\ CNTc c s.
Proof.
  intros W ND Hw Le H. induction H as [s E|fuel rc s rc' s' H IH E].
  - destruct (build_ok c p W) as (t & s0 & EB & ST & B). assert (s = s0) by congruence. subst s0.
    exists t. split; auto. split; [apply (start_NI c p t s); auto|].
    destruct (bu_misc _ _ _ _ B) as (L0 & _ & _ & B0 & _ & _ & _ & R0 & T0).
    split; [apply rs_start; auto|]. intro Bk. eapply start_CNT; eauto.
  - destruct IH as (t0 & ST & I & RS & CN). exists t0. split; auto.
    destruct (iter_ok c clk r rc s t0 (clauses p) Hw Le I RS) as (N & x & Ex & Px).
    assert (X : inr (rc', s') = x).
    { apply (settled_ok (fun f => nc_iter f c clk r rc s) N _ _ fuel); auto. intros; apply nc_iter_below; auto. }
    subst x. destruct Px as (I' & RS' & _). split; auto. split; auto.
    intro Bk. specialize (CN Bk). unfold nc_iter, check_time in E. destruct (clk (tick s)); [discriminate|].
    set (s1 := set_tick s (S (tick s))) in *.
    destruct (conflict s1 && (level s1 =? 0)) eqn:CL; [discriminate|].
    apply bind_ok in E. destruct E as ((s2, rc2) & E2 & E).
    assert (I1 : NI t0 (clauses p) s1) by (apply NI_tick; auto).
    assert (N2 : CNTc c s2).
    { apply (front_cnt c r rc s1 t0 (clauses p) fuel s2 rc2); auto; [|intro; exact CN].
      intro. eapply pos_level; eauto. }
    destruct (front_at c r rc s1 t0 (clauses p) fuel s2 rc2) as (I2 & _ & U2); auto.
    { intro. eapply pos_level; eauto. }
    destruct (conflict s2) eqn:Cf2; [injection E as <- <-; auto|].
    apply bind_ok in E. destruct E as ((s3, l) & E3 & E). destruct (lvar l =? -1); [discriminate|].
    apply bind_ok in E. destruct E as (s4 & E4 & E). injection E as <- <-.
    destruct (choose_nc_ok c s2 (ni_CS _ _ _ I2) Cf2) as (rr & l' & E5 & _).
    { destruct U2; auto; congruence. } { apply I2. }
    assert (X : (s3, l) = (set_uclause s2 rr, l')) by congruence. injection X as -> ->.
    unfold nc_decide in E4. eapply (reduce_cnt c Bk); [| |exact E4].
    + simpl. pose proof (cs_lev _ (ni_CS _ _ _ I2)). lia.
    + exact (N2 Bk).
Qed.

Lemma nc_conflict_at_ok c clk r p rc s rc' s' :
  wf p -> no_repeats p -> watch c = false -> lenient c = true -> nc_conflict_at c clk r p rc s rc' s' ->
  exists t0 C lv, start_trail p t0 /\ NI t0 (clauses p) s /\ jumped c r rc s C lv s' rc' /\ CS s'.
Proof.
  intros W ND Hw Le (s0 & fuel & H & CT & Cf & L & E).
  destruct (nc_reached_ok c clk r p rc s0 W ND Hw Le H) as (t0 & ST & I & RS & _).
  assert (I1 : NI t0 (clauses p) s).
  { unfold check_time in CT. injection CT as _ <-. apply NI_tick; auto. }
  assert (L1 : 1 <= level s) by (pose proof (cs_lev _ (ni_CS _ _ _ I1)); lia).
  destruct (nc_conflict_ok c r rc s Hw Le (ni_CS _ _ _ I1) (ni_TR _ _ _ I1) (ni_nd _ _ _ I1) Cf L1)
    as (N & C & lv & s1 & rc1 & E1 & J & H1).
  assert (X : (s', rc') = (s1, rc1)).
  { apply (settled_ok (fun f => nc_conflict f c r rc s) N _ _ fuel); auto. intros; apply nc_conflict_below; auto. }
  injection X as -> ->. exists t0, C, lv. auto.
Qed.

Lemma nc_decision_at_ok c clk r p s l :
  wf p -> no_repeats p -> watch c = false -> lenient c = true -> nc_decision_at c clk r p s l ->
  exists t0 s2, start_trail p t0 /\ NI t0 (clauses p) s /\ CNTc c s /\ conflict s = false /\ ulist s = [] /\
    choose_nc c s = Ok (s2, l).
Proof.
  intros W ND Hw Le (s0 & s1 & fuel & rc & rc' & s2 & H & CT & CL & E & Cf & Ch).
  destruct (nc_reached_ok c clk r p rc s0 W ND Hw Le H) as (t0 & ST & I & RS & CN).
  assert (I1 : NI t0 (clauses p) s1 /\ rs_ok r rc s1 /\ CNTc c s1).
  { unfold check_time in CT. injection CT as _ <-. split; [apply NI_tick; auto|]. split; auto. }
  destruct I1 as (I1 & RS1 & CN1).
  assert (PL : conflict s1 = true -> 1 <= level s1) by (intro; eapply pos_level; eauto).
  destruct (front_at c r rc s1 t0 (clauses p) fuel s rc' Hw Le I1 RS1 PL E) as (I2 & _ & U2).
  exists t0, s2. split; auto. split; auto. split; [apply (front_cnt c r rc s1 t0 (clauses p) fuel s rc'); auto|].
  split; auto. split; auto; destruct U2; auto; congruence.
Qed.

(** ** The learning search with watched literals *)

Lemma WI_tick t0 cs0 s k : WI t0 cs0 s -> WI t0 cs0 (set_tick s k).
Proof. intro H. apply (WI_eq t0 cs0 s); auto. split; reflexivity. Qed.

Lemma wpos_level t0 cs0 s : WI t0 cs0 s -> conflict s && (level s =? 0) = false -> conflict s = true -> 1 <= level s.
Proof.
  intros H E Cf. rewrite Cf in E. simpl in E. apply Z.eqb_neq in E. pose proof (wc_lev _ (wi_CS _ _ _ H)). lia.
Qed.

Lemma wl_reached_ok c clk r p rc s :
  wf p -> no_repeats p -> watch c = true -> lenient c = true -> heur c <> BK -> wl_reached c clk r p rc s ->
  exists t0, start_trail p t0 /\ WI t0 (clauses p) s /\ rs_ok r rc s.
Proof.
  intros W ND Hw Le NB H. induction H as [s E|fuel rc s rc' s' H IH E].
  - destruct (build_ok c p W) as (t & s0 & EB & ST & B). assert (s = s0) by congruence. subst s0.
    exists t. split; auto. split; [apply (start_WI c p t s); auto|].
    destruct (bu_misc _ _ _ _ B) as (L0 & _ & _ & B0 & _ & _ & _ & R0 & T0).
    apply rs_start; auto.
  - destruct IH as (t0 & ST & I & RS). exists t0. split; auto.
    destruct (wl_iter_ok c clk r rc s t0 (clauses p) Hw Le NB I RS) as (N & x & Ex & Px).
    assert (X : inr (rc', s') = x).
    { apply (settled_ok (fun f => wl_iter f c clk r rc s) N _ _ fuel); auto. intros; apply wl_iter_below; auto. }
    subst x. destruct Px as (I' & RS' & _). split; auto.
Qed.

Lemma wl_conflict_at_ok c clk r p rc s rc' s' :
  wf p -> no_repeats p -> watch c = true -> lenient c = true -> heur c <> BK -> wl_conflict_at c clk r p rc s rc' s' ->
  exists t0 C lv, start_trail p t0 /\ WI t0 (clauses p) s /\ jumped c r rc s C lv s' rc' /\ WCS s'.
Proof.
  intros W ND Hw Le NB (s0 & fuel & H & CT & Cf & L & E).
  destruct (wl_reached_ok c clk r p rc s0 W ND Hw Le NB H) as (t0 & ST & I & RS).
  assert (I1 : WI t0 (clauses p) s).
  { unfold check_time in CT. injection CT as _ <-. apply WI_tick; auto. }
  assert (L1 : 1 <= level s) by (pose proof (wc_lev _ (wi_CS _ _ _ I1)); lia).
  destruct (wl_conflict_ok c r rc s Hw Le (wi_CS _ _ _ I1) (wi_TR _ _ _ I1) Cf L1)
    as (N & C & lv & s1 & rc1 & E1 & J & H1).
  assert (X : (s', rc') = (s1, rc1)).
  { apply (settled_ok (fun f => wl_conflict f c r rc s) N _ _ fuel); auto. intros; apply wl_conflict_below; auto. }
  injection X as -> ->. exists t0, C, lv. auto.
Qed.

Lemma wl_decision_at_ok c clk r p s l :
  wf p -> no_repeats p -> watch c = true -> lenient c = true -> heur c <> BK -> wl_decision_at c clk r p s l ->
  exists t0 s2, start_trail p t0 /\ WI t0 (clauses p) s /\ conflict s = false /\ ulist s = [] /\
    choose_wl c s = Ok (s2, l).
Proof.
  intros W ND Hw Le NB (s0 & s1 & fuel & rc & rc' & s2 & H & CT & CL & E & Cf & Ch).
  destruct (wl_reached_ok c clk r p rc s0 W ND Hw Le NB H) as (t0 & ST & I & RS).
  assert (I1 : WI t0 (clauses p) s1 /\ rs_ok r rc s1).
  { unfold check_time in CT. injection CT as _ <-. split; [apply WI_tick; auto|]. auto. }
  destruct I1 as (I1 & RS1).
  assert (PL : conflict s1 = true -> 1 <= level s1) by (intro; eapply wpos_level; eauto).
  destruct (wl_front_ok c r rc s1 t0 (clauses p) Hw Le I1 RS1 PL) as (N & s3 & rc3 & E3 & I3 & _ & U3 & _).
  assert (X : (s, rc') = (s3, rc3)).
  { apply (settled_ok (fun f => wl_front f c r rc s1) N _ _ fuel); auto. intros; apply wl_front_below; auto. }
  injection X as -> ->.
  exists t0, s2. split; auto. split; auto. split; auto. split; auto; destruct U3; auto; congruence.
Qed.

(** ** Chronological search *)

Record CC (c : cfg) (p : problem) (s : state) (lev : Z) : Prop := mkCC {
  cc_CS : CS s;
  cc_lev : level s = lev;
  cc_cl : cl s = clauses p;
  cc_nv : NV (tr s) = nvars p;
  cc_dom : forall v, DOM (tr s) v = domsize p v;
  cc_cnt : CNTc c s
}.

Lemma CC_eq c p s s' lev : CC c p s lev -> cs_eq s s' -> cnt s' = cnt s -> CC c p s' lev.
Proof.
  intros [a1 a2 a3 a4 a5 a6] E N. split.
  - apply (CS_eq s); auto.
  - rewrite (ce_level _ _ E). auto.
  - rewrite (ce_cl _ _ E). auto.
  - rewrite (ce_tr _ _ E). auto.
  - rewrite (ce_tr _ _ E). auto.
  - intros B l. rewrite N, (ce_tr _ _ E), (ce_cl _ _ E), (ce_clev _ _ E). apply (a6 B l).
Qed.

Lemma ch_front_ok c clk p s lev fuel late s' :
  CC c p s lev -> ch_front fuel c clk s lev = Ok (late, s') ->
  CC c p s' lev /\ (late = false -> conflict s' = true \/ ulist s' = []) /\ ext (tr s) (tr s') /\ newlev (tr s) lev (tr s').
Proof.
  intros H E. unfold ch_front in E. set (s1 := snd (check_time clk (set_level s lev))).
  change (check_time clk (set_level s lev)) with (clk (tick s), s1) in E.
  assert (H1 : CC c p s1 lev).
  { destruct H as [a1 a2 a3 a4 a5 a6]. split; auto. apply (CS_eq s); [split; auto|auto]. }
  destruct (clk (tick s)).
  { injection E as <- <-. split; auto. split; [discriminate|]. split; [apply ext_refl|apply newlev_refl]. }
  apply bind_ok in E. destruct E as (s2 & E2 & E). injection E as <- <-.
  assert (UP : up_post c s1 s2 /\ CNTc c s2).
  { destruct (ulist s1) eqn:Ul.
    - injection E2 as <-. split; [|apply H1]. split; [apply H1|]. split; [apply fru_refl|]. split; [apply ext_refl|].
      split; [apply newlev_refl|]. split; auto. split; auto. split; auto. intros a _ _ A; auto.
    - destruct (unit_propagation_ok c s1 (cc_CS _ _ _ _ H1)) as (N & s3 & E3 & P).
      assert (s2 = s3).
      { apply (settled_ok (fun f => unit_propagation f c s1) N _ _ fuel); auto. intros; apply unit_propagation_below; auto. }
      subst s3. split; auto. intro B. apply (up_cnt c B fuel s1); auto.
      + apply (cc_CS _ _ _ _ H1).
      + apply (cc_cnt _ _ _ _ H1 B). }
  destruct UP as ((H2 & F2 & X2 & W2 & M2 & C2 & A2 & _) & N2).
  assert (H3 : CC c p s2 lev).
  { split; auto.
    - rewrite (fu_level _ _ F2). apply H1.
    - rewrite (fu_cl _ _ F2). apply H1.
    - rewrite (ext_nv _ _ X2). apply H1.
    - rewrite (ext_dom _ _ X2). apply H1. }
  split.
  { apply (CC_eq c p s2); auto. split; reflexivity. }
  split; [intros _; exact C2|]. split; [exact X2|exact W2].
Qed.

Section Ch.
Variables (c : cfg) (clk : nat -> bool) (p : problem).
Hypothesis Hh : heur c = BK \/ heur c = Lazy.

Lemma ch_left_ok s1 lev s2 l s3 :
  CC c p s1 lev -> conflict s1 = false -> ulist s1 = [] ->
  choose_ch c s1 = Ok (s2, l) -> lvar l <> -1 -> ch_left c s2 l = Ok s3 ->
  CC c p s3 (lev + 1) /\ level s3 = lev + 1 /\ lrange (tr s1) l /\ ASG (tr s1) (lvar l) (lval l) = Un /\
  ext (tr s1) (tr s3) /\ newlev (tr s1) (lev + 1) (tr s3).
Proof.
  intros H Cf Ul Ch Nl E.
  destruct (choose_ch_ok c s1 Hh (cc_CS _ _ _ _ H) Cf Ul) as (r & l' & E' & P).
  assert (X : (s2, l) = (set_uclause s1 r, l')) by congruence. injection X as -> <-.
  destruct P as [(Pl & _)|(_ & Rl & U)]; [congruence|].
  destruct (decide_ok c s1 l r (decisions s1 + 1) (cc_CS _ _ _ _ H) Cf Ul Rl U)
    as (s4 & E4 & H4 & L4 & F4 & X4 & W4 & _).
  assert (E5 : Ok s3 = Ok s4) by (rewrite <- E4; symmetry; exact E). injection E5 as <-.
  rewrite (cc_lev _ _ _ _ H) in *. split; [|auto].
  split; auto.
  - rewrite (fr_cl _ _ F4). apply H.
  - rewrite (ext_nv _ _ X4). apply H.
  - rewrite (ext_dom _ _ X4). apply H.
  - intro B. eapply (reduce_cnt c B); [| |exact E].
    + simpl. pose proof (cs_lev _ (cc_CS _ _ _ _ H)). lia.
    + exact (cc_cnt _ _ _ _ H B).
Qed.

(** Everything but the counts after a failed first branch. *)
Lemma ch_right_ok s1 lev s2 l s3 fuel s4 s5 :
  CC c p s1 lev -> conflict s1 = false -> ulist s1 = [] ->
  choose_ch c s1 = Ok (s2, l) -> lvar l <> -1 -> ch_left c s2 l = Ok s3 ->
  chrono fuel c clk s3 (level s3) = Ok (UNSAT, s4) -> CNTc c s4 ->
  reduce_theory c s4 (neg l) = Ok s5 ->
  CC c p s5 lev /\ level s5 = lev.
Proof.
  intros H Cf Ul Ch Nl E E4 N4 E5.
  destruct (ch_left_ok s1 lev s2 l s3 H Cf Ul Ch Nl E) as (H3 & L3 & Rl & U & X3 & W3).
  destruct (chrono_ok c clk s3 (level s3) Hh (cc_CS _ _ _ _ H3) eq_refl) as (N & (v & s4') & E4' & P).
  assert (X : (UNSAT, s4) = (v, s4')).
  { apply (settled_ok (fun f => chrono f c clk s3 (level s3)) N _ _ fuel); auto. intros; apply chrono_below; auto. }
  injection X as <- <-. destruct P as (_ & _ & Cl4 & NV4 & D6 & _ & Cf6 & Ul6 & Lv6 & U6 & H6).
  pose proof (cs_lev _ (cc_CS _ _ _ _ H)) as L0. rewrite (cc_lev _ _ _ _ H) in L0.
  rewrite L3 in *. replace (lev + 1 - 1) with lev in * by lia. specialize (H6 ltac:(lia)).
  assert (B1 : TB (tr s1) lev (fun _ => False)).
  { rewrite <- (cc_lev _ _ _ _ H). apply (TB_noconf _ _ (conflict s1)); auto. apply (cs_TB _ (cc_CS _ _ _ _ H)). }
  assert (UT : upto (tr s1) lev (tr s4)).
  { apply (ext_upto (tr s1) (tr s3) lev (lev + 1) (fun _ => True)); auto; try lia.
    - apply (TB_level (tr s1) lev); auto; try lia.
    - rewrite <- L3. eapply TB_weaken; [apply (cs_TB _ (cc_CS _ _ _ _ H3))|auto]. }
  assert (SM : forall v d, range (tr s1) v d -> ASG (tr s4) v d = ASG (tr s1) v d).
  { eapply upto_same; eauto; lia. }
  assert (NV62 : NV (tr s4) = NV (tr s1)) by apply UT.
  assert (DM62 : DOM (tr s4) = DOM (tr s1)) by apply UT.
  destruct (reduce_theory_ok [] c s4 (neg l))
    as (s7 & E7 & J7 & F7 & X7 & W7 & D7 & B7 & T7 & M7 & _ & A7).
  { apply (cs_J _ H6). }
  { apply (TB_noconf _ _ (conflict s4)); auto. apply (cs_TB _ H6). }
  { apply (cs_TD _ H6). }
  { lia. }
  { unfold lrange, range. simpl. rewrite NV62, DM62. exact Rl. }
  { simpl. rewrite SM; auto. }
  assert (s7 = s5) by congruence. subst s7.
  assert (Lv7 : level s5 = lev) by (rewrite (fr_level _ _ F7); auto).
  split; auto. split; auto.
  - split; auto.
    + rewrite (fr_level _ _ F7). auto.
    + lia.
    + rewrite (fr_level _ _ F7), (fr_cl _ _ F7). apply (CLO_ext (tr s4)); auto. apply (cs_clo _ H6).
  - rewrite (fr_cl _ _ F7), Cl4. apply H3.
  - rewrite (ext_nv _ _ X7), NV62. apply H.
  - rewrite (ext_dom _ _ X7), DM62. apply H.
  - intro B. apply (reduce_cnt c B s4 (neg l)); auto. lia.
Qed.

Lemma ch_conflict_cnt s lev s' : CC c p s lev -> ch_conflict c s = Ok s' -> CNTc c s'.
Proof.
  intros H E B. unfold ch_conflict in E. cbv zeta in E. apply bind_ok in E. destruct E as (s1 & E1 & E).
  injection E as <-. change (CNT s1).
  pose proof (cc_CS _ _ _ _ H) as HS. eapply (undo_cnt c B); [| | | | |exact E1].
  - destruct (CS_si _ HS); split; auto.
  - exact (CS_ci _ HS).
  - exact (cs_TB _ HS).
  - simpl. pose proof (cs_lev _ HS). lia.
  - exact (cc_cnt _ _ _ _ H B).
Qed.

Lemma chrono_cnt : forall fuel s lev s', CC c p s lev ->
  chrono fuel c clk s lev = Ok (UNSAT, s') -> CNTc c s'.
Proof.
  induction fuel as [|fuel IH]; intros s lev s' H E; [discriminate|].
  rewrite chrono_unfold in E. apply bind_ok in E. destruct E as ((late, s1) & E1 & E).
  destruct (ch_front_ok c clk p s lev (S fuel) late s1 H E1) as (H1 & U1 & _).
  destruct late; [discriminate|]. destruct (conflict s1) eqn:Cf.
  - apply bind_ok in E. destruct E as (s2 & E2 & E). injection E as <-. eapply ch_conflict_cnt; eauto.
  - assert (Ul : ulist s1 = []) by (destruct U1; auto; congruence).
    apply bind_ok in E. destruct E as ((s2, l) & E2 & E).
    destruct (Z.eqb_spec (lvar l) (-1)) as [|Nl]; [discriminate|].
    apply bind_ok in E. destruct E as (s3 & E3 & E).
    destruct (ch_left_ok s1 lev s2 l s3 H1 Cf Ul E2 Nl E3) as (H3 & L3 & _).
    apply bind_ok in E. destruct E as ((v, s4) & E4 & E).
    destruct v; try discriminate.
    assert (N4 : CNTc c s4) by (apply (IH s3 (level s3)); auto; rewrite L3; auto).
    destruct (0 <=? level s4); [|injection E as <-; auto].
    apply bind_ok in E. destruct E as (s5 & E5 & E).
    destruct (ch_right_ok s1 lev s2 l s3 fuel s4 s5) as (H5 & L5); auto.
    apply (IH s5 (level s5)); auto. rewrite L5. auto.
Qed.

Lemma ch_called_ok s lev : wf p -> watch c = false -> ch_called c clk p s lev -> CC c p s lev.
Proof.
  intros W Hw H. induction H as [s E|fuel s lev s1 s2 l s3 H IH E1 Cf E2 Nl E3|
    fuel fuel' s lev s1 s2 l s3 s4 s5 H IH E1 Cf E2 Nl E3 E4 L4 E5].
  - destruct (build_ok c p W) as (t & s0 & EB & ST & B). assert (s = s0) by congruence. subst s0.
    destruct (bu_misc _ _ _ _ B) as (L0 & _). split; auto.
    + apply (start_CS c p t s); auto.
    + apply (bu_cl _ _ _ _ B).
    + rewrite (bu_tr _ _ _ _ B). apply ST.
    + rewrite (bu_tr _ _ _ _ B). intro v. apply ST.
    + intro Bk. eapply start_CNT; eauto.
  - destruct (ch_front_ok c clk p s lev fuel false s1 IH E1) as (H1 & U1 & _).
    assert (Ul : ulist s1 = []) by (destruct U1; auto; congruence).
    destruct (ch_left_ok s1 lev s2 l s3 H1 Cf Ul E2 Nl E3) as (H3 & L3 & _). rewrite L3. auto.
  - destruct (ch_front_ok c clk p s lev fuel false s1 IH E1) as (H1 & U1 & _).
    assert (Ul : ulist s1 = []) by (destruct U1; auto; congruence).
    destruct (ch_left_ok s1 lev s2 l s3 H1 Cf Ul E2 Nl E3) as (H3 & L3 & _).
    assert (N4 : CNTc c s4) by (apply (chrono_cnt fuel' s3 (level s3)); auto; rewrite L3; auto).
    destruct (ch_right_ok s1 lev s2 l s3 fuel' s4 s5) as (H5 & L5); auto. rewrite L5. auto.
Qed.

Lemma ch_decision_at_ok s l : wf p -> watch c = false -> ch_decision_at c clk p s l ->
  exists lev s2, CC c p s lev /\ conflict s = false /\ ulist s = [] /\ choose_ch c s = Ok (s2, l).
Proof.
  intros W Hw (fuel & s0 & lev & s1 & H & E & Cf & Ch).
  pose proof (ch_called_ok s0 lev W Hw H) as H0.
  destruct (ch_front_ok c clk p s0 lev fuel false s H0 E) as (H1 & U1 & _).
  exists lev, s1. split; auto. split; auto. split; auto; destruct U1; auto; congruence.
Qed.

(** Undoing a level. *)
Lemma ch_conflict_at_ok s s' : wf p -> watch c = false -> ch_conflict_at c clk p s s' ->
  exists lev, CC c p s lev /\ level s' = level s - 1 /\ conflict s' = false /\ ulist s' = [] /\
    cl s' = cl s /\ backtracks s' = backtracks s + 1 /\
    cut (tr s) (level s - 1) (tr s') /\ CI s'.
Proof.
  intros W Hw (fuel & s0 & lev & H & E & Cf & E1).
  pose proof (ch_called_ok s0 lev W Hw H) as H0.
  destruct (ch_front_ok c clk p s0 lev fuel false s H0 E) as (H1 & _).
  exists lev. split; auto. pose proof (cc_CS _ _ _ _ H1) as HS.
  set (s4 := set_conflict (set_backtracks s (backtracks s + 1)) false).
  destruct (undo_theory_ok c s4 (level s4 - 1) (level s4) (fun _ => conflict s = true))
    as (t' & x & y & z & E5 & CU & CI5).
  { destruct (CS_si _ HS); split; auto. }
  { exact (CS_ci _ HS). }
  { exact (cs_TB _ HS). }
  { exact (cs_TD _ HS). }
  { simpl. pose proof (cs_lev _ HS). lia. }
  unfold ch_conflict in E1. cbv zeta in E1. fold s4 in E1. rewrite E5 in E1. cbn [bind] in E1.
  injection E1 as <-. simpl. repeat (split; [auto; fail|]). exact CI5.
Qed.

End Ch.
