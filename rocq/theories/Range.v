(** * The range of the counters *)

From Coq Require Import Floats.SpecFloat.
From Verif Require Import Spec WideSpec Outcome State ModelCounter ModelHeur ModelLearn ModelWatch
  ModelSearch ModelBuild Base Trail Reduce Counter CounterUndo Propagate Choose Scores Chrono
  Init Nc Solve Watch WatchProp Wl SolveWl Fuel Counts Steps Reach StepSpec StepFacts TrailSpec TrailFacts
  Runs StatSpec Frame Stats StatRuns RangeSpec.

(** ** The decision stack has at most one entry for each value *)

Lemma doms_nonneg p : wf p -> forall d, In d (doms p) -> 0 <= d.
Proof. intros (W & _) d Hd. apply W in Hd. lia. Qed.

Lemma values_nonneg p : wf p -> 0 <= values p.
Proof.
  intros W. unfold values. pose proof (doms_nonneg p W) as H.
  revert H. generalize (doms p). induction l as [|d l IH]; intro H; cbn; [lia|].
  specialize (IH (fun x Hx => H x (or_intror Hx))). specialize (H d (or_introl eq_refl)). lia.
Qed.

Fixpoint atoms_of (n : Z) (ds : list Z) : list (Z * Z) :=
  match ds with [] => [] | d :: ds => map (fun v => (n, v)) (zrange 0 d) ++ atoms_of (n + 1) ds end.

Lemma atoms_length : forall ds n, (forall d, In d ds -> 0 <= d) ->
  Z.of_nat (length (atoms_of n ds)) = fold_right Z.add 0 ds.
Proof.
  induction ds as [|d ds IH]; intros n H; cbn; [lia|]. rewrite app_length, map_length, Nat2Z.inj_add.
  rewrite IH by (intros; apply H; cbn; auto). unfold zrange. rewrite map_length, seq_length.
  specialize (H d (or_introl eq_refl)). lia.
Qed.

Lemma atoms_in : forall ds n i d v, nth_error ds i = Some d -> 0 <= v < d -> In (n + Z.of_nat i, v) (atoms_of n ds).
Proof.
  induction ds as [|e ds IH]; intros n i d v Hi Hv; [destruct i; discriminate|].
  cbn [atoms_of]. apply in_or_app. destruct i as [|i]; cbn [nth_error] in Hi.
  - injection Hi as ->. left. apply in_map_iff. exists v. split; [f_equal; lia|]. apply in_zrange. lia.
  - right. replace (n + Z.of_nat (S i)) with (n + 1 + Z.of_nat i) by lia. eapply IH; eauto.
Qed.

Lemma declared_in p v d : declared p v d -> In (v, d) (atoms_of 1 (doms p)).
Proof.
  intros ((V1 & V2) & D). unfold domsize, nvars in *. destruct (1 <=? v) eqn:E; [|lia].
  replace v with (1 + Z.of_nat (Z.to_nat (v - 1))) at 1 by lia.
  apply (atoms_in _ _ _ (nth (Z.to_nat (v - 1)) (doms p) 0)); auto. apply nth_error_nth'. lia.
Qed.

Lemma stack_short p s : wf p -> stacked p s -> Z.of_nat (length (DST (tr s))) <= values p.
Proof.
  intros W S. unfold values. rewrite <- (atoms_length (doms p) 1 (doms_nonneg p W)).
  apply Nat2Z.inj_le. rewrite <- (map_length (fun f => (lvar f, lval f)) (DST (tr s))).
  apply NoDup_incl_length.
  - pose proof (st_distinct _ _ S) as N. pose proof (st_entry _ _ S) as T. revert N T.
    generalize (DST (tr s)). induction l as [|f l IH]; intros N T; cbn; [constructor|].
    inversion N as [|? ? N1 N2]; subst. constructor; [|apply IH; auto; intros g Hg; apply T; cbn; auto].
    intro H. apply in_map_iff in H. destruct H as (g & E & Hg).
    destruct (T f (or_introl eq_refl)) as (_ & T1 & _). destruct (T g (or_intror Hg)) as (_ & T2 & _).
    unfold is_true in T1, T2. injection E as E1 E2. rewrite E1, E2 in T2.
    assert (f = g); [|congruence]. destruct f as [a b e], g as [a' b' e']. cbn in *. subst.
    f_equal. destruct e, e'; congruence.
  - intros x Hx. apply in_map_iff in Hx. destruct Hx as (f & <- & Hf). apply declared_in. apply (st_entry _ _ S f Hf).
Qed.

Lemma level_short p s : wf p -> stacked p s -> explained p s -> 0 <= level s -> level s <= Z.of_nat (length (DST (tr s))).
Proof.
  intros W S X L.
  assert (H : (length (zrange 1 (level s)) <= length (map (level_of s) (DST (tr s))))%nat).
  { apply NoDup_incl_length; [apply nodup_zrange|]. intros k Hk. apply in_zrange in Hk.
    destruct (ex_level _ _ X k) as (f & F1 & F2 & _); [lia|]. rewrite <- F2. apply in_map. auto. }
  rewrite map_length in H. unfold zrange in H. rewrite map_length, seq_length in H. lia.
Qed.

(** ** The learning searches *)

Definition tot (s : state) : Z := decisions s + units s + entails s.
Definition ents (s : state) : Z := entries Decided s + entries Propagated s + entries Entailed s.

Lemma ents_nonneg s : 0 <= ents s.
Proof. unfold ents, entries. lia. Qed.

Lemma accounted_tot s s' : accounted s s' -> tot s' - tot s = ents s' - ents s.
Proof.
  intro A. pose proof (A Decided) as A1. pose proof (A Propagated) as A2. pose proof (A Entailed) as A3.
  unfold tot, ents. cbn [total_of] in *. lia.
Qed.

(** [M] bounds the decision stack. *)
Definition ranged (M : Z) (s : state) : Prop :=
  tot s <= ents s + backtracks s * M /\ 0 <= backtracks s <= Z.of_nat (tick s).

Lemma ranged_noted M s s' : ranged M s -> noted s s' -> ranged M s'.
Proof.
  intros (R1 & R2) N. pose proof (accounted_tot s s' (no_acc _ _ N)) as A. pose proof (no_out _ _ N) as O.
  assert (backtracks s' = backtracks s) by congruence. assert (tick s' = tick s) by congruence.
  split; rewrite H; rewrite ?H0; lia.
Qed.

(** A conflict. *)
Lemma ranged_conflict M s s' : ranged M s -> backtracks s < Z.of_nat (tick s) -> ents s <= M ->
  backtracks s' = backtracks s + 1 -> stats s' = stats s -> ranged M s'.
Proof.
  intros (R1 & R2) T L B S. unfold stats in S. assert (tick s' = tick s) by congruence.
  assert (tot s' = tot s) by (unfold tot; assert (decisions s' = decisions s) by congruence;
    assert (units s' = units s) by congruence; assert (entails s' = entails s) by congruence; lia).
  pose proof (ents_nonneg s'). split; rewrite B; rewrite ?H; [rewrite H0; lia|lia].
Qed.

Lemma nc_ents p t0 s : wf p -> start_trail p t0 -> NI t0 (clauses p) s ->
  ents s = Z.of_nat (length (DST (tr s))) /\ ents s <= values p.
Proof.
  intros W ST I. destruct (start_dims p t0 s ST (ni_nv _ _ _ I) (ni_dom _ _ _ I)) as (A & B).
  assert (E : ents s = Z.of_nat (length (DST (tr s)))) by (unfold ents; eapply origins; apply I).
  split; auto. rewrite E. apply stack_short; auto. apply stacked_of; auto; apply (ni_CS _ _ _ I).
Qed.

Lemma nc_iter_ranged fuel c clk r rc s t0 p x :
  wf p -> start_trail p t0 ->
  watch c = false -> lenient c = true -> NI t0 (clauses p) s -> rs_ok r rc s -> ranged (values p) s ->
  nc_iter fuel c clk r rc s = Ok x ->
  match x with inl (_, s') | inr (_, s') => ranged (values p) s' end.
Proof.
  intros W ST Hw Le I RS T E. unfold nc_iter, check_time in E.
  set (s1 := set_tick s (S (tick s))) in *.
  assert (I1 : NI t0 (clauses p) s1) by (apply NI_tick; auto).
  assert (T1 : ranged (values p) s1 /\ backtracks s1 < Z.of_nat (tick s1)).
  { destruct T as (T1 & T2). change (tick s1) with (S (tick s)). change (backtracks s1) with (backtracks s).
    split; [|lia]. split; [exact T1|]. change (tick s1) with (S (tick s)). change (backtracks s1) with (backtracks s). lia. }
  assert (RS1 : rs_ok r rc s1) by exact RS.
  clearbody s1. destruct T1 as (T1 & T2).
  destruct (clk (tick s)); [injection E as <-; auto|].
  destruct (conflict s1 && (level s1 =? 0)) eqn:CL; [injection E as <-; auto|].
  apply bind_ok in E. destruct E as ((s2, rc2) & E2 & E).
  assert (PL : conflict s1 = true -> 1 <= level s1) by (intro; eapply pos_level; eauto).
  destruct (nc_forward fuel c r rc s1 t0 (clauses p) rc2 s2 Hw Le I1 RS1 PL E2) as (sm & N & _ & M).
  destruct (front_at c r rc s1 t0 (clauses p) fuel s2 rc2 Hw Le I1 RS1 PL E2) as (I2 & _ & U2).
  assert (TM : ranged (values p) sm).
  { destruct (conflict s1); [|subst sm; auto]. destruct M as (_ & M1 & M2 & _).
    apply (ranged_conflict _ s1); auto. apply (nc_ents p t0); auto. }
  assert (R2 : ranged (values p) s2) by (eapply ranged_noted; eauto).
  destruct (conflict s2) eqn:Cf2; [injection E as <-; auto|].
  apply bind_ok in E. destruct E as ((s3, l) & E3 & E).
  destruct (choose_nc_ok c s2 (ni_CS _ _ _ I2) Cf2) as (rr & l' & E5 & CO).
  { destruct U2; auto; congruence. } { apply I2. }
  assert (X : (s3, l) = (set_uclause s2 rr, l')) by congruence. injection X as -> ->.
  destruct (lvar l' =? -1) eqn:LV; [injection E as <-; exact R2|].
  apply Z.eqb_neq in LV. destruct CO as [(CO & _)|(_ & _ & CO)]; [congruence|].
  apply bind_ok in E. destruct E as (s4 & E4 & E). injection E as <-.
  apply dec_noted in E4; auto; [|apply N]. destruct E4 as (N4 & _). eapply ranged_noted; eauto.
Qed.

Lemma wl_ents p t0 s : wf p -> start_trail p t0 -> WI t0 (clauses p) s ->
  ents s = Z.of_nat (length (DST (tr s))) /\ ents s <= values p.
Proof.
  intros W ST I. destruct (start_dims p t0 s ST (wi_nv _ _ _ I) (wi_dom _ _ _ I)) as (A & B).
  assert (E : ents s = Z.of_nat (length (DST (tr s)))) by (unfold ents; eapply origins; apply I).
  split; auto. rewrite E. apply stack_short; auto. apply stacked_of; auto; apply (wi_CS _ _ _ I).
Qed.

Lemma wl_iter_ranged fuel c clk r rc s t0 p x :
  wf p -> start_trail p t0 ->
  watch c = true -> lenient c = true -> heur c <> BK -> WI t0 (clauses p) s -> rs_ok r rc s -> ranged (values p) s ->
  wl_iter fuel c clk r rc s = Ok x ->
  match x with inl (_, s') | inr (_, s') => ranged (values p) s' end.
Proof.
  intros W ST Hw Le NB I RS T E. unfold wl_iter, check_time in E.
  set (s1 := set_tick s (S (tick s))) in *.
  assert (I1 : WI t0 (clauses p) s1) by (apply WI_tick; auto).
  assert (T1 : ranged (values p) s1 /\ backtracks s1 < Z.of_nat (tick s1)).
  { destruct T as (T1 & T2). change (tick s1) with (S (tick s)). change (backtracks s1) with (backtracks s).
    split; [|lia]. split; [exact T1|]. change (tick s1) with (S (tick s)). change (backtracks s1) with (backtracks s). lia. }
  assert (RS1 : rs_ok r rc s1) by exact RS.
  clearbody s1. destruct T1 as (T1 & T2).
  destruct (clk (tick s)); [injection E as <-; auto|].
  destruct (conflict s1 && (level s1 =? 0)) eqn:CL; [injection E as <-; auto|].
  apply bind_ok in E. destruct E as ((s2, rc2) & E2 & E).
  assert (PL : conflict s1 = true -> 1 <= level s1) by (intro; eapply wpos_level; eauto).
  destruct (wl_forward fuel c r rc s1 t0 (clauses p) rc2 s2 Hw Le NB I1 RS1 PL E2) as (sm & N & _ & M).
  assert (IU : WI t0 (clauses p) s2 /\ (conflict s2 = true \/ ulist s2 = [])).
  { destruct (wl_front_ok c r rc s1 t0 (clauses p) Hw Le I1 RS1 PL) as (N0 & s3 & rc3 & E3 & I3 & _ & U3 & _).
    assert (X : (s2, rc2) = (s3, rc3)); [|injection X as -> ->; auto].
    apply (settled_ok (fun f => wl_front f c r rc s1) N0 _ _ fuel); auto. intros; apply wl_front_below; auto. }
  destruct IU as (I2 & U2).
  assert (TM : ranged (values p) sm).
  { destruct (conflict s1); [|subst sm; auto]. destruct M as (_ & M1 & M2 & _).
    apply (ranged_conflict _ s1); auto. apply (wl_ents p t0); auto. }
  assert (R2 : ranged (values p) s2) by (eapply ranged_noted; eauto).
  destruct (conflict s2) eqn:Cf2; [injection E as <-; auto|].
  apply bind_ok in E. destruct E as ((s3, l) & E3 & E).
  destruct (choose_wl_ok c s2 NB (wi_CS _ _ _ I2) Cf2) as (rr & l' & E5 & CO).
  { destruct U2; auto; congruence. } { apply I2. }
  assert (X : (s3, l) = (set_uclause s2 rr, l')) by congruence. injection X as -> ->.
  destruct (lvar l' =? -1) eqn:LV; [injection E as <-; exact R2|].
  apply Z.eqb_neq in LV. destruct CO as [(CO & _)|(_ & _ & CO)]; [congruence|].
  apply bind_ok in E. destruct E as (s4 & E4 & E). injection E as <-.
  apply wdec_noted in E4; auto; [|apply N]. destruct E4 as (N4 & _). eapply ranged_noted; eauto.
Qed.

Lemma start_ranged M c p s : wf p -> build c (items_of p) = Ok s -> ranged M s.
Proof.
  intros W E. destruct (build_ok c p W) as (t & s0 & EB & ST & B). assert (s = s0) by congruence. subst s0.
  destruct (bu_misc _ _ _ _ B) as (_ & _ & _ & B0 & D0 & U0 & E0 & _ & T0).
  pose proof (ents_nonneg s). split; rewrite B0; unfold tot; lia.
Qed.

Lemma nc_reached_ranged c clk r p rc s :
  wf p -> no_repeats p -> watch c = false -> lenient c = true -> nc_reached c clk r p rc s -> ranged (values p) s.
Proof.
  intros W ND Hw Le H. induction H as [s E|fuel rc s rc' s' H IH E]; [eapply start_ranged; eauto|].
  destruct (nc_reached_ok c clk r p rc s W ND Hw Le H) as (t0 & ST & I & RS & _).
  exact (nc_iter_ranged fuel c clk r rc s t0 p _ W ST Hw Le I RS IH E).
Qed.

Lemma wl_reached_ranged c clk r p rc s :
  wf p -> no_repeats p -> watch c = true -> lenient c = true -> heur c <> BK -> wl_reached c clk r p rc s ->
  ranged (values p) s.
Proof.
  intros W ND Hw Le NB H. induction H as [s E|fuel rc s rc' s' H IH E]; [eapply start_ranged; eauto|].
  destruct (wl_reached_ok c clk r p rc s W ND Hw Le NB H) as (t0 & ST & I & RS).
  exact (wl_iter_ranged fuel c clk r rc s t0 p _ W ST Hw Le NB I RS IH E).
Qed.

(** The restart interval. *)
Lemma rs_bounds r rc s : rs_ok r rc s -> 0 <= backtracks s ->
  0 <= restarts s <= backtracks s /\ (r <= 0 -> restarts s = 0) /\ rc <= Z.max r (backtracks s + r).
Proof.
  intros (A & B) H. destruct (Z.le_gt_cases r 0) as [L|L].
  - destruct (B L). lia.
  - destruct (A L) as (A1 & A2). assert (0 <= restarts s) by nia. nia.
Qed.

Record bounded (p : problem) (s : state) : Prop := mkBounded {
  bo_tot : tot s <= (backtracks s + 1) * values p;
  bo_dst : Z.of_nat (length (DST (tr s))) <= values p;
  bo_back : 0 <= backtracks s <= Z.of_nat (tick s)
}.

Lemma search_bounded c clk r p fuel s v s' :
  setting NonChrono c -> input NonChrono p -> build c (items_of p) = Ok s ->
  run_search fuel NonChrono c clk r s = Ok (v, s') -> bounded p s' /\ 0 <= restarts s' <= backtracks s'.
Proof.
  intros (Le & NB) (W & ND) EB E. specialize (ND eq_refl). cbn [run_search] in E.
  destruct (build_ok c p W) as (t & s1 & EB1 & ST & B). assert (s1 = s) by congruence. subst s1.
  destruct (bu_misc _ _ _ _ B) as (L0 & _ & _ & B0 & _ & _ & _ & R0 & T0).
  destruct (watch c) eqn:Hw.
  - assert (R : ranged (values p) s').
    { destruct (wl_loop_last c clk r p fuel r s v s') as (f1 & rc1 & s1 & R & E1); auto; [constructor; auto|].
      destruct (wl_reached_ok c clk r p rc1 s1 W ND Hw Le (NB eq_refl) R) as (t0 & ST0 & I & RS).
      exact (wl_iter_ranged f1 c clk r rc1 s1 t0 p _ W ST0 Hw Le (NB eq_refl) I RS
             (wl_reached_ranged c clk r p rc1 s1 W ND Hw Le (NB eq_refl) R) E1). }
    pose proof (start_WI c p t s W ND Hw ST B) as H0.
    destruct (wl_loop_ok c clk r t (clauses p) s r Hw Le (NB eq_refl) H0 (rs_start r s R0 B0))
      as (N & v1 & s1 & E1 & (F1 & _) & rc & RS).
    assert (X : (v, s') = (v1, s1)).
    { apply (settled_ok (fun f => wl_loop f c clk r r s) N _ _ fuel); auto. intros; apply wl_loop_below; auto. }
    injection X as -> ->. destruct (wl_ents p t s1 W ST F1) as (N1 & N2). destruct R as (R1 & R2).
    split; [split; auto; lia|]. apply (rs_bounds r rc s1); auto. lia.
  - assert (R : ranged (values p) s').
    { destruct (nc_loop_last c clk r p fuel r s v s') as (f1 & rc1 & s1 & R & E1); auto; [constructor; auto|].
      destruct (nc_reached_ok c clk r p rc1 s1 W ND Hw Le R) as (t0 & ST0 & I & RS & _).
      exact (nc_iter_ranged f1 c clk r rc1 s1 t0 p _ W ST0 Hw Le I RS
             (nc_reached_ranged c clk r p rc1 s1 W ND Hw Le R) E1). }
    pose proof (start_NI c p t s W ND Hw ST B) as H0.
    destruct (nc_loop_ok c clk r t (clauses p) s r Hw Le H0 (rs_start r s R0 B0))
      as (N & v1 & s1 & E1 & (F1 & _) & rc & RS).
    assert (X : (v, s') = (v1, s1)).
    { apply (settled_ok (fun f => nc_loop f c clk r r s) N _ _ fuel); auto. intros; apply nc_loop_below; auto. }
    injection X as -> ->. destruct (nc_ents p t s1 W ST F1) as (N1 & N2). destruct R as (R1 & R2).
    split; [split; auto; lia|]. apply (rs_bounds r rc s1); auto. lia.
Qed.

(** ** The chronological search *)

Lemma filter_length_le {A} (f : A -> bool) ls : (length (filter f ls) <= length ls)%nat.
Proof. induction ls as [|x ls IH]; cbn; auto. destruct (f x); cbn; lia. Qed.

Lemma choose_ch_set c s s' l : choose_ch c s = Ok (s', l) -> exists r, s' = set_uclause s r.
Proof.
  intro E. unfold choose_ch in E. destruct (heur c); try (injection E as <- _); eauto.
  - exists (uclause s). destruct s; reflexivity.
  - apply bind_ok in E. destruct E as (l2 & _ & E). injection E as <- _.
    exists (uclause s). destruct s; reflexivity.
  - exists (uclause s). destruct s; reflexivity.
Qed.

Lemma spread_tot s : spread s = tot s - Z.of_nat (length (DST (tr s))).
Proof. reflexivity. Qed.

Lemma chrono_bounded c clk p : wf p -> watch c = false -> heur c = BK \/ heur c = Lazy ->
  forall fuel s lev v s', ch_called c clk p s lev -> chrono fuel c clk s lev = Ok (v, s') ->
  backtracks s <= backtracks s' /\
  (if match v with UNSAT => true | _ => false end then tot s' else spread s')
    <= spread s + (backtracks s' - backtracks s) * values p /\
  Z.of_nat (length (DST (tr s'))) <= values p.
Proof.
  intros W Hw Hh. induction fuel as [|fuel IH]; intros s lev v s' H E; [discriminate|].
  rewrite chrono_unfold in E. apply bind_ok in E. destruct E as ((late, s1) & F & E).
  pose proof (ch_called_ok c clk p Hh s lev W Hw H) as C.
  destruct (ch_front_ok c clk p s lev _ late s1 C F) as (C1 & U1 & _).
  assert (L1 : Z.of_nat (length (DST (tr s1))) <= values p).
  { apply stack_short; auto. apply (CC_shape c p s1 lev); auto. }
  pose proof (front_mild _ _ _ _ _ _ _ F) as (F1 & F2 & F3 & F4 & _).
  destruct late; [injection E as <- <-; rewrite F2; split; [lia|split; lia]|].
  destruct (conflict s1) eqn:Cf.
  { apply bind_ok in E. destruct E as (s2 & E2 & E). injection E as <- <-.
    destruct (ch_conflict_at_ok c clk p Hh s1 s2 W Hw) as (lev2 & _ & _ & _ & _ & _ & _ & CU & _).
    { exists (S fuel), s, lev. auto. }
    assert (LN : (length (DST (tr s2)) <= length (DST (tr s1)))%nat).
    { rewrite (cut_dst _ _ _ CU). apply filter_length_le. }
    unfold ch_conflict in E2. cbv zeta in E2. apply bind_ok in E2. destruct E2 as (s3 & E3 & E2).
    apply still_undo in E3. unfold still, outer in E3. cbn in E3.
    assert (A1 : backtracks s3 = backtracks s1 + 1) by congruence.
    assert (A2 : tot s3 = tot s1).
    { unfold tot. assert (decisions s3 = decisions s1) by congruence. assert (units s3 = units s1) by congruence.
      assert (entails s3 = entails s1) by congruence. lia. }
    injection E2 as <-. rewrite !spread_tot in F4. rewrite spread_tot.
    change (tot (set_level _ _)) with (tot s3). change (backtracks (set_level _ _)) with (backtracks s3).
    split; [lia|]. split; [|lia]. rewrite A1, A2, F2. lia. }
  apply bind_ok in E. destruct E as ((s2, l) & E2 & E).
  destruct (choose_ch_set c s1 s2 l E2) as (r & S2).
  destruct (lvar l =? -1) eqn:LV.
  { injection E as <- <-. subst s2. change (spread (set_uclause s1 r)) with (spread s1).
    change (backtracks (set_uclause s1 r)) with (backtracks s1). rewrite F2. split; [lia|]. split; [lia|]. exact L1. }
  apply Z.eqb_neq in LV.
  apply bind_ok in E. destruct E as (s3 & E3 & E).
  assert (H3 : ch_called c clk p s3 (level s3)) by (eapply cc_left; eauto).
  pose proof E3 as R3. unfold ch_left in R3. cbv zeta in R3. apply reduce_length in R3. destruct R3 as (B1 & B2 & B3 & B4 & B5).
  assert (B6 : spread s3 = spread s /\ backtracks s3 = backtracks s).
  { subst s2. rewrite B5, B2. unfold spread in *. cbn. split; [lia|auto]. }
  destruct B6 as (B6 & B7). clear B1 B2 B3 B4 B5.
  apply bind_ok in E. destruct E as ((v4, s4) & E4 & E).
  destruct (IH s3 (level s3) v4 s4 H3 E4) as (G1 & G2 & G3).
  destruct v4; [injection E as <- <-; split; [lia|split; auto; lia]..|].
  destruct (0 <=? level s4) eqn:LV4; [|injection E as <- <-; split; [lia|split; auto; lia]].
  apply bind_ok in E. destruct E as (s5 & E5 & E).
  assert (H5 : ch_called c clk p s5 (level s5)).
  { eapply (cc_right c clk p (S fuel) fuel s lev s1 s2 l s3 s4 s5); eauto. apply Z.leb_le; auto. }
  apply reduce_length in E5. destruct E5 as (_ & K2 & _ & _ & K5).
  destruct (IH s5 (level s5) v s' H5 E) as (Q1 & Q2 & Q3).
  split; [lia|]. split; auto. rewrite (spread_tot s4) in K5. rewrite K2 in *. cbn iota in G2.
  destruct v; cbn iota in Q2 |- *; lia.
Qed.

(** Nothing is ever counted down. *)
Definition grew (s s' : state) : Prop :=
  decisions s <= decisions s' /\ units s <= units s' /\ entails s <= entails s' /\ restarts s' = restarts s.

Lemma grew_refl s : grew s s.
Proof. unfold grew. lia. Qed.
Lemma grew_trans a b c : grew a b -> grew b c -> grew a c.
Proof. unfold grew. intros (A1 & A2 & A3 & A4) (B1 & B2 & B3 & B4). rewrite B4, A4. lia. Qed.

Lemma outer_grew s s' : outer s' = outer s -> grew s s'.
Proof.
  unfold outer. intro O. assert (decisions s' = decisions s) by congruence.
  assert (units s' = units s) by congruence. assert (entails s' = entails s) by congruence.
  assert (restarts s' = restarts s) by congruence. unfold grew. lia.
Qed.

Lemma reduce_grew c s l s' : reduce_theory c s l = Ok s' -> grew s s'.
Proof.
  unfold reduce_theory. destruct (leq l).
  - intro E. apply reduce_pos_length in E. apply outer_grew, E.
  - unfold reduce_neg. intro E. apply do_ok in E. cbv zeta in E.
    apply bind_ok in E. destruct E as (s1 & E1 & E). apply assign_marked in E1. apply marked_length in E1.
    destruct E1 as (_ & O1).
    assert (G1 : grew s s1) by (apply (grew_trans _ _ _ (outer_grew s _ eq_refl) (outer_grew _ _ O1))).
    destruct (check_entail (tr s1) (lvar l)) as [e|]; [|injection E as <-; auto].
    apply reduce_pos_length in E. destruct E as (_ & O). apply (grew_trans _ _ _ G1).
    apply outer_grew in O. apply (grew_trans s1 (set_uclause (set_entails s1 (entails s1 + 1)) REnt)); auto.
    unfold grew. cbn. lia.
Qed.

Lemma up_grew c : forall fuel s s', unit_propagation fuel c s = Ok s' -> grew s s'.
Proof.
  induction fuel as [|fuel IH]; intros s s' E; [discriminate|]. cbn [unit_propagation] in E.
  destruct (conflict s); [injection E as <-; apply grew_refl|].
  destruct (ulist s) as [|n rest] eqn:Ul; [injection E as <-; apply grew_refl|].
  apply bind_ok in E. destruct E as (C & _ & E). cbn in E.
  assert (SKIP : unit_propagation fuel c (set_ulist (set_uclause s (RCls n)) rest) = Ok s' -> grew s s').
  { intro E1. apply IH in E1. exact E1. }
  destruct (clev s n =? -1); [|auto].
  apply bind_ok in E. destruct E as ([l|] & F & E); [|auto].
  apply bind_ok in E. destruct E as (s1 & E1 & E). apply IH in E. apply reduce_grew in E1.
  apply (grew_trans s s1); auto. unfold grew in *. cbn in E1. lia.
Qed.

Lemma front_grew fuel c clk s lev late s' : ch_front fuel c clk s lev = Ok (late, s') -> grew s s'.
Proof.
  unfold ch_front, check_time. cbv zeta. cbn [tick set_level].
  destruct (clk (tick s)); [intro E; injection E as _ <-; apply (grew_refl s)|].
  intro E. apply bind_ok in E. destruct E as (s2 & E2 & E). injection E as _ <-.
  destruct (ulist _) in E2; [injection E2 as <-; apply (grew_refl s)|]. apply up_grew in E2. exact E2.
Qed.

Lemma chrono_grew c clk : forall fuel s lev v s', chrono fuel c clk s lev = Ok (v, s') -> grew s s'.
Proof.
  induction fuel as [|fuel IH]; intros s lev v s' E; [discriminate|].
  rewrite chrono_unfold in E. apply bind_ok in E. destruct E as ((late, s1) & F & E). apply front_grew in F.
  destruct late; [injection E as _ <-; auto|].
  destruct (conflict s1).
  { apply bind_ok in E. destruct E as (s2 & E2 & E). injection E as _ <-.
    unfold ch_conflict in E2. cbv zeta in E2. apply bind_ok in E2. destruct E2 as (s3 & E3 & E2).
    apply still_undo in E3. unfold still, outer in E3. cbn in E3. injection E2 as <-.
    apply (grew_trans s s1); auto. unfold grew. cbn. 
    assert (decisions s3 = decisions s1) by congruence. assert (units s3 = units s1) by congruence.
    assert (entails s3 = entails s1) by congruence. assert (restarts s3 = restarts s1) by congruence. lia. }
  apply bind_ok in E. destruct E as ((s2, l) & E2 & E). destruct (choose_ch_set c s1 s2 l E2) as (r & ->).
  destruct (lvar l =? -1); [injection E as _ <-; exact F|].
  apply bind_ok in E. destruct E as (s3 & E3 & E). unfold ch_left in E3. cbv zeta in E3. apply reduce_grew in E3.
  assert (G3 : grew s s3) by (apply (grew_trans s s1); auto; unfold grew in *; cbn in E3; lia).
  apply bind_ok in E. destruct E as ((v4, s4) & E4 & E). apply IH in E4.
  assert (G4 : grew s s4) by (eapply grew_trans; eauto).
  destruct v4; [injection E as _ <-; auto..|]. destruct (0 <=? level s4); [|injection E as _ <-; auto].
  apply bind_ok in E. destruct E as (s5 & E5 & E). apply reduce_grew in E5. apply IH in E.
  eapply grew_trans; eauto. eapply grew_trans; eauto.
Qed.

(** ** Whole runs *)

Lemma run_bounded m c clk r p fuel rep s :
  setting m c -> input m p -> solve fuel m c clk r p = Ok (rep, s) ->
  bounded p s /\ 0 <= decisions s /\ 0 <= units s /\ 0 <= entails s /\ 0 <= restarts s <= backtracks s /\
  decisions s <= Z.of_nat (tick s).
Proof.
  intros St In E. destruct m.
  - destruct St as (Hw & Hh). destruct In as (W & _).
    destruct (chrono_run c clk r p fuel rep s W E) as (s0 & EB & D0 & X1 & X2 & X3 & X4 & X5 & C & _).
    apply solve_shows in E. destruct E as (s1 & EB1 & E & _). assert (s1 = s0) by congruence. subst s1.
    cbn [run_search] in E. pose proof (chrono_grew _ _ _ _ _ _ _ E) as (G1 & G2 & G3 & G4).
    destruct (chrono_bounded c clk p W Hw Hh fuel s0 0 _ s (cc_root c clk p s0 EB) E) as (Q1 & Q2 & Q3).
    destruct (build_ok c p W) as (t & s1 & EB2 & _ & B). assert (s1 = s0) by congruence. subst s1.
    destruct (bu_misc _ _ _ _ B) as (_ & _ & _ & _ & _ & _ & _ & R0 & _).
    destruct (ce_ticks _ _ _ _ _ C) as (n & N1 & _ & _ & _ & N2).
    rewrite (spread_tot s0), D0 in Q2. rewrite (spread_tot s) in Q2. pose proof (values_nonneg p W).
    assert (Z0 : tot s0 = 0) by (unfold tot; lia). cbn [length] in Q2. rewrite Z0 in Q2.
    split; [|lia]. split; try lia. destruct (r_verdict rep); lia.
  - pose proof In as (W & _). apply solve_shows in E. destruct E as (s0 & EB & E & _).
    destruct (search_bounded c clk r p fuel s0 _ s St In EB E) as (B & R).
    pose proof (search_ended c clk r p fuel s0 _ s St In EB E) as [A1 _ A3 _ _].
    assert (N : forall k, 0 <= entries k s) by (intro k; unfold entries; lia).
    pose proof (A1 Decided). pose proof (A1 Propagated). pose proof (A1 Entailed).
    pose proof (N Decided). pose proof (N Propagated). pose proof (N Entailed). cbn [total_of] in *.
    split; auto. lia.
Qed.
