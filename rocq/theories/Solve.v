(** * From the search procedures to the printed report *)

From Coq Require Import Permutation.
From Verif Require Import Spec WideSpec Outcome State ModelCounter ModelHeur ModelLearn ModelWatch
  ModelSearch ModelBuild Base Trail Reduce Counter CounterUndo Propagate Choose Scores Chrono
  Init Analyze Learn Cdcl Nc Observe.

(** ** The self-check *)

Lemma verify_clause_ok t c : DOM t 0 = 0 -> (forall l, In l c -> lrange t l) ->
  exists b, verify_clause t c = Ok b /\ (b = true <-> exists l, In l c /\ lit_true t l = true).
Proof.
  intro D0. induction c as [|l c IH]; intro R.
  - exists false. split; auto. split; [discriminate|]. intros (l & [] & _).
  - cbn [verify_clause]. rewrite chk_ok by (auto; apply R; left; auto). cbn [bind].
    destruct (lit_true t l) eqn:T.
    + exists true. split; auto. split; auto. intros _. exists l. split; auto. left; auto.
    + destruct IH as (b & E & P). { intros; apply R; right; auto. }
      exists b. split; auto. rewrite P. split.
      * intros (x & Hx & Tx). exists x. split; auto. right; auto.
      * intros (x & [<-|Hx] & Tx); [congruence|]. exists x; auto.
Qed.

Lemma verify_ok s : DOM (tr s) 0 = 0 -> cls_ok (tr s) (cl s) ->
  exists b, verify_model s = Ok b /\ (b = true <-> all_sat s).
Proof.
  intros D0. unfold verify_model, all_sat. generalize (cl s) as cs.
  induction cs as [|c cs IH]; intro W.
  - exists true. split; auto. split; auto. intros _ c [].
  - cbn [verify_clauses]. destruct (verify_clause_ok (tr s) c D0) as (b & E & P).
    { intros l Hl. apply (W c); auto. left; auto. }
    rewrite E. cbn [bind]. destruct b.
    + destruct IH as (b' & E' & P').
      { intros k l Hk Hl. apply (W k); auto. right; auto. }
      exists b'. split; auto. rewrite P'. split.
      * intros H k [<-|Hk]; auto. apply P; auto.
      * intros H k Hk. apply H. right; auto.
    + exists false. split; auto. split; [discriminate|]. intro H.
      apply P. apply H. left; auto.
Qed.

(** ** The printed model *)

(** The lines [v=d] for a total assignment. *)
Definition table (n : Z) (a : assignment) : list lit :=
  map (fun v => mkLit v (a v) true) (zrange 1 n).

Lemma dst_nodup t : TD t -> NoDup (DST t).
Proof.
  intro H. apply NoDup_nth_error. intros i j Hi E.
  destruct (nth_error (DST t) i) as [f|] eqn:Ei; [|apply nth_error_None in Ei; lia].
  symmetry in E. destruct (td_dst _ H i f Ei) as (_ & _ & X). destruct (td_dst _ H j f E) as (_ & _ & Y).
  lia.
Qed.

Lemma in_printed s l : TD (tr s) -> In l (print_model s) ->
  lrange (tr s) l /\ leq l = true /\ ASG (tr s) (lvar l) (lval l) = Pos.
Proof.
  intros H Hl. apply filter_In in Hl. destruct Hl as (Hl & E). apply In_nth_error in Hl.
  destruct Hl as (i & Hi). destruct (td_dst _ H i l Hi) as (R & T & _). split; auto. split; auto.
  apply lit_true_asg in T. rewrite E in T. auto.
Qed.

Lemma printed_total s lev a :
  TB (tr s) lev (fun _ => False) -> TD (tr s) -> total (tr s) -> legalT a (tr s) -> agree a (tr s) ->
  Permutation (print_model s) (filter (fun l => lval l <? DOM (tr s) (lvar l)) (table (NV (tr s)) a)).
Proof.
  intros HB HD HT HL HA. apply NoDup_Permutation.
  - apply NoDup_filter. apply dst_nodup; auto.
  - apply NoDup_filter. unfold table. apply FinFun.Injective_map_NoDup; [|apply nodup_zrange].
    intros x y E. congruence.
  - intro l. split; intro Hl.
    + destruct (in_printed s l HD Hl) as (R & E & A). apply filter_In. split; [|apply Z.ltb_lt; apply R].
      unfold table. apply in_map_iff.
      exists (lvar l). split.
      * destruct (HA _ _ R) as (X & _). rewrite (X A). rewrite <- E. apply lit_eta.
      * apply in_zrange. destruct R; lia.
    + apply filter_In in Hl. destruct Hl as (Hl & Hd). apply Z.ltb_lt in Hd.
      unfold table in Hl. apply in_map_iff in Hl. destruct Hl as (v & <- & Hv). apply in_zrange in Hv.
      cbn [lvar lval] in Hd.
      assert (V : 1 <= v <= NV (tr s)) by lia.
      assert (P : exists d, range (tr s) v d /\ ASG (tr s) v d = Pos).
      { destruct (Z.eq_dec (VAL (tr s) v) (-1)) as [E|N].
        - exfalso. destruct (Z.lt_ge_cases (DOM (tr s) v) 2) as [Sm|Lg].
          { pose proof (HL v V) as La. assert (Rv : range (tr s) v (a v)) by (split; auto; lia).
            destruct (HA v (a v) Rv) as (_ & X).
            destruct (ASG (tr s) v (a v)) eqn:A; [apply (HT v (a v) Rv A)| |apply X; auto].
            pose proof (tb_pos _ _ _ HB v (a v) Rv A). lia. }
          destruct (tb_two _ _ _ HB v lev V Lg) as (d1 & _ & _ & R1 & _ & O1 & _); auto.
          + intros d Rd A. exfalso. rewrite (tb_pos _ _ _ HB v d Rd A) in E. destruct Rd; lia.
          + destruct O1 as [O1|O1]; [apply (HT v d1 R1 O1)|].
            destruct (tb_as _ _ _ HB v d1 R1 (HT v d1 R1)). lia.
        - exists (VAL (tr s) v). apply (tb_val _ _ _ HB); auto. }
      destruct P as (d & R & A). destruct (HA v d R) as (X & _). rewrite (X A).
      apply filter_In. split; auto.
      destruct (td_atom _ HD v d R) as (i & f & F1 & _ & _ & _ & _ & F6); [congruence|].
      destruct F6 as [->|(F6 & _)]; [|congruence]. rewrite A in F1. eapply nth_error_In; eauto.
Qed.

(** ** What a report says about the problem *)

(** Facts about a report with verdict SAT. *)
Record sat_report (p : problem) (c : cfg) (rep : report) (s : state) : Prop := mkSat {
  sr_fits : forall a, legal (widen p) a -> fits p s a -> is_model (widen p) a;
  sr_some : exists a, legal (widen p) a /\ fits p s a;
  sr_check : r_verified rep = Some true;
  sr_model : forall a, fits p s a -> forall l, In l (r_model rep) -> lit_holds a l;
  sr_total : heur c <> Lazy -> exists a, is_model (widen p) a /\
    Permutation (r_model rep) (filter (fun l => lval l <? domsize p (lvar l)) (lines_of (nvars p) a));
  sr_order : in_order s (r_model rep)
}.

Lemma filter_split {A} (P : A -> bool) : forall ls pre f post, filter P ls = pre ++ f :: post ->
  exists l1 l2, ls = l1 ++ f :: l2 /\ filter P l1 = pre.
Proof.
  induction ls as [|x ls IH]; intros pre f post E; [destruct pre; discriminate|]. cbn [filter] in E.
  destruct (P x) eqn:Px.
  - destruct pre as [|y pre]; cbn [app] in E; injection E as -> E.
    + exists [], ls. auto.
    + destruct (IH _ _ _ E) as (l1 & l2 & -> & <-). exists (y :: l1), l2. cbn. rewrite Px. auto.
  - destruct (IH _ _ _ E) as (l1 & l2 & -> & <-). exists (x :: l1), l2. cbn. rewrite Px. auto.
Qed.

Lemma printed_order s : TD (tr s) -> in_order s (print_model s).
Proof.
  intros HD pre f post E g Hg. unfold print_model in E. apply filter_split in E. destruct E as (l1 & l2 & E & <-).
  apply filter_In in Hg. destruct Hg as (Hg & _). apply In_nth_error in Hg. destruct Hg as (i & Hi).
  assert (Li : (i < length l1)%nat) by (apply nth_error_Some; congruence).
  assert (Ng : nth_error (DST (tr s)) i = Some g) by (rewrite E, nth_error_app1; auto).
  assert (Nf : nth_error (DST (tr s)) (length l1) = Some f)
    by (rewrite E, nth_error_app2, Nat.sub_diag by lia; reflexivity).
  destruct (td_dst _ HD _ _ Ng) as (_ & _ & Ig). destruct (td_dst _ HD _ _ Nf) as (_ & _ & If).
  unfold lidx in Ig, If. split; [rewrite Ig, If; lia|].
  apply (td_mono _ HD i (length l1) g f); auto. lia.
Qed.

Lemma sat_report_ok p c s lev rep :
  NV (tr s) = nvars p -> (forall v, DOM (tr s) v = domsize p v) -> incl (clauses p) (cl s) ->
  TB (tr s) lev (fun _ => False) -> TD (tr s) -> cls_ok (tr s) (cl s) -> all_sat s ->
  (heur c <> Lazy -> total (tr s)) ->
  r_verified rep = Some true -> r_model rep = print_model s -> sat_report p c rep s.
Proof.
  intros EN ED EC HB HD HW HA HT HV HM.
  assert (LG : forall a, legal (widen p) a <-> legalT a (tr s)).
  { intro a. unfold legal, legalT. rewrite EN, nvars_widen. split; intros H v Hv; specialize (H v Hv);
      rewrite ED, <- ?domsize_widen in *; auto; rewrite domsize_widen in *; auto. }
  assert (FT : forall a, fits p s a <-> agree a (tr s)).
  { intro a. unfold fits, agree, range. rewrite EN. split.
    - intros H v d (R1 & R2). rewrite ED in R2. auto.
    - intros H v d R1 R2. apply H. rewrite ED. auto. }
  destruct (pick_agree (tr s) lev HB) as (P1 & P2).
  assert (M : forall a, legal (widen p) a -> fits p s a -> is_model (widen p) a).
  { intros a La Fa. split; auto. intros k Hk. apply (all_sat_holds s); auto. apply FT; auto. }
  split; auto.
  - exists (pick (tr s)). split; [apply LG; auto|apply FT; auto].
  - intros a Fa l Hl. rewrite HM in Hl. destruct (in_printed s l HD Hl) as (R & E & A).
    unfold lit_holds. rewrite E. apply FT in Fa. apply (Fa _ _ R); auto.
  - intro NL. exists (pick (tr s)). split.
    + apply M; [apply LG; auto|apply FT; auto].
    + rewrite HM, <- EN. erewrite filter_ext; [apply (printed_total s lev); auto|].
      intro l. cbv beta. rewrite ED. reflexivity.
  - rewrite HM. apply printed_order; auto.
Qed.

Record report_ok (p : problem) (c : cfg) (clk : nat -> bool) (rep : report) (s : state) : Prop := mkRep {
  rk_sat : r_verdict rep = SAT -> sat_report p c rep s;
  rk_unsat : r_verdict rep = UNSAT -> ~ satisfiable (widen p);
  rk_time : r_verdict rep = TIMEOUT -> exists k, clk k = true;
  rk_vars : r_variables rep = nvars p
}.

(** ** Chronological search *)

Lemma start_agree p t a : start_trail p t -> agree a t.
Proof.
  intros (_ & _ & _ & A & _) v d _. rewrite A. simpl. split; discriminate.
Qed.

Theorem solve_chrono c clk r p :
  usable p -> watch c = false -> (heur c = BK \/ heur c = Lazy) ->
  exists N rep s, (forall fuel, (N <= fuel)%nat -> solve fuel Chrono c clk r p = Ok (rep, s)) /\
    report_ok p c clk rep s /\ r_clauses rep = Z.of_nat (length (clauses p)) /\ r_restarts rep = 0.
Proof.
  intros W Hw Hh. destruct (build_ok c p W) as (t & s0 & EB & ST & B).
  pose proof (start_CS c p t s0 W Hw ST B) as H0.
  destruct (bu_misc _ _ _ _ B) as (L0 & _ & _ & _ & _ & _ & _ & R0 & T0).
  destruct (chrono_ok c clk s0 0 Hh H0 L0) as (N & (v, s) & E & P).
  destruct P as (P1 & P2 & P3 & P4 & P5).
  assert (ET := bu_tr _ _ _ _ B). assert (EC := bu_cl _ _ _ _ B).
  assert (EN : NV (tr s) = nvars p) by (rewrite P4, ET; apply ST).
  destruct v.
  - destruct P5 as (Q1 & Q2 & Q3 & Q4 & Q5 & Q6 & Q7).
    assert (HB := TB_noconf _ _ _ (cs_TB _ Q1) Q2).
    destruct (verify_ok s) as (b & Eb & Pb).
    { apply HB. } { apply (si_ok _ (CS_si _ Q1)). }
    assert (b = true) as -> by (apply Pb; auto).
    exists N. eexists. exists s. split; [|split; [|split]].
    + intros fuel Hf. unfold solve. rewrite EB. cbn [bind]. unfold solve_state. cbn [run_search].
      rewrite E by auto. cbn [bind]. rewrite Eb. reflexivity.
    + split; try discriminate; auto. intros _.
      apply (sat_report_ok p c s (level s)); auto.
      * intro v. rewrite Q7, ET. apply ST.
      * rewrite Q5, EC. apply incl_refl.
      * apply (cs_TD _ Q1).
      * apply (si_ok _ (CS_si _ Q1)).
    + simpl. rewrite P3, EC. auto.
    + simpl. lia.
  - exists N. eexists. exists s. split; [|split; [|split]].
    + intros fuel Hf. unfold solve. rewrite EB. cbn [bind]. unfold solve_state. cbn [run_search].
      rewrite E by auto. cbn [bind]. reflexivity.
    + split; try discriminate; auto. intros _. destruct P5 as (k & _ & K). eauto.
    + simpl. rewrite P3, EC. auto.
    + simpl. lia.
  - destruct P5 as (Q1 & _).
    exists N. eexists. exists s. split; [|split; [|split]].
    + intros fuel Hf. unfold solve. rewrite EB. cbn [bind]. unfold solve_state. cbn [run_search].
      rewrite E by auto. cbn [bind]. reflexivity.
    + split; try discriminate; auto. intros _ (a & La & Ma). apply (Q1 a).
      * rewrite ET. intros v Hv. destruct ST as (N1 & N2 & _). rewrite N1 in Hv. rewrite N2, <- domsize_widen by auto. apply La. rewrite nvars_widen. auto.
      * rewrite EC. auto.
      * rewrite ET. eapply start_agree; eauto.
    + simpl. rewrite P3, EC. auto.
    + simpl. lia.
Qed.

(** ** Learning search with counters *)

Lemma start_NI c p t s : usable p -> no_repeats p -> watch c = false -> start_trail p t ->
  built c t (clauses p) s -> NI t (clauses p) s.
Proof.
  intros W ND Hw ST B. pose proof (start_CS c p t s W Hw ST B) as H0.
  destruct (bu_misc _ _ _ _ B) as (L0 & _ & _ & B0 & _).
  assert (ET := bu_tr _ _ _ _ B). assert (EC := bu_cl _ _ _ _ B).
  split; auto; rewrite ?ET, ?EC; auto.
  - eapply start_TR; eauto.
  - apply (bu_vs _ _ _ _ B).
  - exists []. rewrite app_nil_r. split; auto.
  - intros D HD a _ Ha. auto.
Qed.

(** Number of restarts as a function of the number of backtracks. *)
Lemma rs_number r rc s : rs_ok r rc s ->
  restarts s = if 0 <? r then backtracks s / r else 0.
Proof.
  intros (R1 & R2). destruct (Z.ltb_spec 0 r) as [H|H].
  - destruct (R1 H) as (E1 & E2).
    apply (Z.div_unique _ _ _ (backtracks s - r * restarts s)); [left; nia|]. lia.
  - apply R2; auto.
Qed.

Lemma rs_start r s : restarts s = 0 -> backtracks s = 0 -> rs_ok r r s.
Proof. intros E1 E2. split; intro H; rewrite E1, ?E2; lia. Qed.

Theorem solve_nc c clk r p :
  usable p -> no_repeats p -> watch c = false -> lenient c = true ->
  exists N rep s, (forall fuel, (N <= fuel)%nat -> solve fuel NonChrono c clk r p = Ok (rep, s)) /\
    report_ok p c clk rep s /\
    r_clauses rep = Z.of_nat (length (clauses p)) + r_backtracks rep /\
    r_restarts rep = (if 0 <? r then r_backtracks rep / r else 0).
Proof.
  intros W ND Hw Le. destruct (build_ok c p W) as (t & s0 & EB & ST & B).
  pose proof (start_NI c p t s0 W ND Hw ST B) as H0.
  destruct (bu_misc _ _ _ _ B) as (L0 & _ & _ & B0 & _ & _ & _ & R0 & T0).
  destruct (nc_loop_ok c clk r t (clauses p) s0 r Hw Le H0 (rs_start r s0 R0 B0))
    as (N & v & s & E & (F1 & F2 & F3) & rc' & RS).
  assert (CN : Z.of_nat (length (cl s)) = Z.of_nat (length (clauses p)) + backtracks s).
  { destruct (ni_cl _ _ _ F1) as (ls & E1 & E2). rewrite E1, app_length, E2. lia. }
  assert (EN : NV (tr s) = nvars p) by (rewrite (ni_nv _ _ _ F1); apply ST).
  assert (RN := rs_number _ _ _ RS).
  assert (RUN : forall fuel, (N <= fuel)%nat -> run_search fuel NonChrono c clk r s0 = Ok (v, s)).
  { intros fuel Hf. cbn [run_search]. rewrite Hw. apply E; auto. }
  destruct v.
  - destruct F3 as (Q2 & Q3 & Q4). pose proof (ni_CS _ _ _ F1) as Q1.
    assert (HB := TB_noconf _ _ _ (cs_TB _ Q1) Q2).
    destruct (verify_ok s) as (b & Eb & Pb).
    { apply HB. } { apply (si_ok _ (CS_si _ Q1)). }
    assert (b = true) as -> by (apply Pb; auto).
    exists N. eexists. exists s. split; [|split; [|split]].
    + intros fuel Hf. unfold solve. rewrite EB. cbn [bind]. unfold solve_state.
      rewrite RUN by auto. cbn [bind]. rewrite Eb. reflexivity.
    + split; try discriminate; auto. intros _.
      apply (sat_report_ok p c s (level s)); auto.
      * intro v. rewrite (ni_dom _ _ _ F1). apply ST.
      * destruct (ni_cl _ _ _ F1) as (ls & E1 & _). rewrite E1. apply incl_appl, incl_refl.
      * apply (cs_TD _ Q1).
      * apply (si_ok _ (CS_si _ Q1)).
    + exact CN.
    + exact RN.
  - exists N. eexists. exists s. split; [|split; [|split]].
    + intros fuel Hf. unfold solve. rewrite EB. cbn [bind]. unfold solve_state.
      rewrite RUN by auto. cbn [bind]. reflexivity.
    + split; try discriminate; auto. intros _. destruct F3 as (k & _ & K). eauto.
    + exact CN.
    + exact RN.
  - exists N. eexists. exists s. split; [|split; [|split]].
    + intros fuel Hf. unfold solve. rewrite EB. cbn [bind]. unfold solve_state.
      rewrite RUN by auto. cbn [bind]. reflexivity.
    + split; try discriminate; auto. intros _ (a & La & Ma). apply (F3 a); auto.
      intros v Hv. destruct ST as (N1 & N2 & _). rewrite N1 in Hv. rewrite N2, <- domsize_widen by auto. apply La. rewrite nvars_widen. auto.
    + exact CN.
    + exact RN.
Qed.
