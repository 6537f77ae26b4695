(** * From the search with watched literals to the printed report *)

From Coq Require Import Permutation.
From Verif Require Import Spec WideSpec Outcome State ModelCounter ModelHeur ModelLearn ModelWatch
  ModelSearch ModelBuild Base Trail Reduce Counter CounterUndo Propagate Choose Scores Chrono
  Init Analyze Learn Cdcl Nc Solve Watch WatchProp Wl.

Lemma start_WCS c p t s :
  usable p -> no_repeats p -> watch c = true -> start_trail p t -> built c t (clauses p) s -> WCS s.
Proof.
  intros W ND Hw ST B. pose proof (start_TB p t 0 (fun _ => conflict s = true) W ST ltac:(lia)) as HB.
  destruct (bu_misc _ _ _ _ B) as (Lv & _ & Cf & _).
  assert (ET := bu_tr _ _ _ _ B). assert (EC := bu_cl _ _ _ _ B).
  pose proof (bu_watch _ _ _ _ B Hw) as BW.
  assert (UN : forall l, lit_un (tr s) l = true) by (intro l; rewrite ET; eapply start_un; eauto).
  assert (NF : forall l, lit_false (tr s) l = true -> False).
  { intros l F. apply lit_false_un in F. rewrite UN in F. discriminate. }
  split.
  - split.
    + split; rewrite ?EC.
      * intros k l Hk Hl. rewrite ET. eapply start_wf_range; eauto.
        destruct W as (_ & W). destruct (W k Hk). auto.
      * intros C HC. rewrite ?EC in HC. apply ND; auto.
      * intros n C Hn. specialize (BW n C Hn). destruct C as [|a [|b C]]; [tauto| |].
        -- destruct BW as (-> & _). left; auto.
        -- destruct BW as (-> & _). left; auto.
      * intros n C Hn L. specialize (BW n C Hn). destruct C as [|a [|b C]]; simpl in L; try lia.
        destruct BW as (-> & -> & _). split; [right; left; auto|].
        assert (X := ND _ (nth_error_In _ _ Hn)). inversion X; subst. intros ->. apply H1. left; auto.
      * intros n C Hn L. specialize (BW n C Hn). destruct C as [|a [|b C]]; simpl in L; try lia.
        apply BW.
      * intros n C l Hn. specialize (BW n C Hn). destruct C as [|a [|b C]]; [tauto| |].
        -- destruct BW as (-> & _ & E). rewrite E. simpl. lia.
        -- destruct BW as (-> & -> & E). rewrite E. simpl. auto.
      * apply (bu_wlsid _ _ _ _ B).
    + intros n C Hn. split.
      * intros _ X. lia.
      * intros w o _ F. exfalso; eauto.
    + intros _ n C Hn. split.
      * intro L1. right. split; auto. split; auto. left. apply (bu_ulist _ _ _ _ B).
        rewrite EC in Hn. eauto.
      * intros w o _ F. exfalso; eauto.
    + intros _ n Hn. apply (bu_ulist _ _ _ _ B) in Hn. destruct Hn as (k & Hk & L1). exists k.
      rewrite EC. split; auto. split; auto. lia.
    + congruence.
  - rewrite ET, Lv. auto.
  - rewrite ET. eapply start_TD; eauto.
  - lia.
Qed.

Lemma start_WI c p t s : usable p -> no_repeats p -> watch c = true -> start_trail p t ->
  built c t (clauses p) s -> WI t (clauses p) s.
Proof.
  intros W ND Hw ST B. pose proof (start_WCS c p t s W ND Hw ST B) as H0.
  destruct (bu_misc _ _ _ _ B) as (L0 & _ & _ & B0 & _).
  assert (ET := bu_tr _ _ _ _ B). assert (EC := bu_cl _ _ _ _ B).
  split; auto; rewrite ?ET, ?EC; auto.
  - eapply start_TR; eauto.
  - apply (bu_vs _ _ _ _ B).
  - exists []. rewrite app_nil_r. split; auto.
  - intros D HD a _ Ha. auto.
Qed.

Theorem solve_wl c clk r p :
  usable p -> no_repeats p -> watch c = true -> lenient c = true -> heur c <> BK ->
  exists N rep s, (forall fuel, (N <= fuel)%nat -> solve fuel NonChrono c clk r p = Ok (rep, s)) /\
    report_ok p c clk rep s /\
    r_clauses rep = Z.of_nat (length (clauses p)) + r_backtracks rep /\
    r_restarts rep = (if 0 <? r then r_backtracks rep / r else 0).
Proof.
  intros W ND Hw Le NB. destruct (build_ok c p W) as (t & s0 & EB & ST & B).
  pose proof (start_WI c p t s0 W ND Hw ST B) as H0.
  destruct (bu_misc _ _ _ _ B) as (L0 & _ & _ & B0 & _ & _ & _ & R0 & T0).
  destruct (wl_loop_ok c clk r t (clauses p) s0 r Hw Le NB H0 (rs_start r s0 R0 B0))
    as (N & v & s & E & (F1 & F2 & F3) & rc' & RS).
  assert (CN : Z.of_nat (length (cl s)) = Z.of_nat (length (clauses p)) + backtracks s).
  { destruct (wi_cl _ _ _ F1) as (ls & E1 & E2). rewrite E1, app_length, E2. lia. }
  assert (EN : NV (tr s) = nvars p) by (rewrite (wi_nv _ _ _ F1); apply ST).
  assert (RN := rs_number _ _ _ RS).
  assert (RUN : forall fuel, (N <= fuel)%nat -> run_search fuel NonChrono c clk r s0 = Ok (v, s)).
  { intros fuel Hf. cbn [run_search]. rewrite Hw. apply E; auto. }
  destruct v.
  - destruct F3 as (Q2 & Q3 & Q4). pose proof (wi_CS _ _ _ F1) as Q1.
    assert (HB := TB_noconf _ _ _ (wc_TB _ Q1) Q2).
    destruct (verify_ok s) as (b & Eb & Pb).
    { apply HB. } { apply (ws_ok _ (WCS_ws _ Q1)). }
    assert (b = true) as -> by (apply Pb; auto).
    exists N. eexists. exists s. split; [|split; [|split]].
    + intros fuel Hf. unfold solve. rewrite EB. cbn [bind]. unfold solve_state.
      rewrite RUN by auto. cbn [bind]. rewrite Eb. reflexivity.
    + split; try discriminate; auto. intros _.
      apply (sat_report_ok p c s (level s)); auto.
      * intro v. rewrite (wi_dom _ _ _ F1). apply ST.
      * destruct (wi_cl _ _ _ F1) as (ls & E1 & _). rewrite E1. apply incl_appl, incl_refl.
      * apply (wc_TD _ Q1).
      * apply (ws_ok _ (WCS_ws _ Q1)).
    + exact CN.
    + exact RN.
  - exists N. eexists. exists s. split; [|split; [|split]].
    + intros fuel Hf. unfold solve. rewrite EB. cbn [bind]. unfold solve_state.
      rewrite RUN by auto. cbn [bind]. reflexivity.
    + split; try discriminate; auto. intros _. destruct F3 as (k & _ & K). eauto.
    + exact CN.
    + exact RN.
  - exists N. eexists. exists s. split; [|split; [|split]].
    + intros fuel Hf. unfold solve. rewrite EB. cbn [bind]. unfold solve_state.
      rewrite RUN by auto. cbn [bind]. reflexivity.
    + split; try discriminate; auto. intros _ (a & La & Ma). apply (F3 a); auto.
      intros v Hv. destruct ST as (N1 & N2 & _). rewrite N1 in Hv. rewrite N2, <- domsize_widen by auto. apply La. rewrite nvars_widen. auto.
    + exact CN.
    + exact RN.
Qed.
