(** * The statistics of whole runs *)

From Coq Require Import Floats.SpecFloat.
From Verif Require Import Spec WideSpec Outcome State ModelCounter ModelHeur ModelLearn ModelWatch
  ModelSearch ModelBuild Base Trail Reduce Counter CounterUndo Propagate Choose Scores Chrono
  Init Nc Solve Watch WatchProp Wl SolveWl Fuel Counts Steps Reach StepSpec StepFacts Runs StatSpec Frame Stats.

(** ** Conflicts only forget *)

Lemma filter2_length {A} (P P' Q : A -> bool) ls :
  (forall x, In x ls -> Q x = true -> P' x = P x) ->
  (length (filter P' (filter Q ls)) <= length (filter P ls))%nat.
Proof.
  induction ls as [|x ls IH]; intro H; cbn; auto.
  assert (IH' := IH (fun y Hy => H y (or_intror Hy))). specialize (H x (or_introl eq_refl)).
  destruct (Q x); cbn; [rewrite H by auto|]; destruct (P x); cbn; lia.
Qed.

Lemma cut_entries k j s s' : TD (tr s) -> cut (tr s) k (tr s') -> entries j s' <= entries j s.
Proof.
  intros T C. unfold entries. rewrite (cut_dst _ _ _ C). apply Nat2Z.inj_le. apply filter2_length.
  intros f Hf L. apply Z.leb_le in L. apply In_nth_error in Hf. destruct Hf as (i & Hi).
  destruct (td_dst _ T i f Hi) as (R & _). destruct (cut_kept _ _ _ C _ _ R L) as (_ & _ & ->). reflexivity.
Qed.

(** ** NonChronoBacktrack *)

(** From the state in which propagation starts to the end of the iteration. *)
Lemma nc_forward fuel c r rc s t0 cs0 rc1 s1 :
  watch c = false -> lenient c = true -> NI t0 cs0 s -> rs_ok r rc s -> (conflict s = true -> 1 <= level s) ->
  nc_front fuel c r rc s = Ok (s1, rc1) ->
  exists sm, noted sm s1 /\ decisions s1 = decisions sm /\
    if conflict s then (exists rcm, nc_conflict fuel c r rc s = Ok (sm, rcm)) /\
      backtracks sm = backtracks s + 1 /\ stats sm = stats s /\ forall k, entries k sm <= entries k s
    else sm = s.
Proof.
  intros W Le H RS HL E. unfold nc_front in E.
  apply bind_ok in E. destruct E as ((sm, rcm) & E1 & E). apply bind_ok in E. destruct E as (s2 & E2 & E).
  injection E as <- _. exists sm.
  assert (HM : held sm /\ (conflict s = true -> forall k, entries k sm <= entries k s)).
  { destruct (conflict s) eqn:Cf.
    - destruct (nc_conflict_ok c r rc s W Le (ni_CS _ _ _ H) (ni_TR _ _ _ H) (ni_nd _ _ _ H) Cf (HL eq_refl))
        as (N & C & lv & s3 & rc3 & E3 & J & H3).
      assert (X : (sm, rcm) = (s3, rc3)).
      { apply (settled_ok (fun f => nc_conflict f c r rc s) N _ _ fuel); auto. intros; apply nc_conflict_below; auto. }
      injection X as -> ->. split; [apply TD_held; apply (cs_TD _ H3)|]. intros _ k.
      apply (cut_entries (level s3)); [apply (cs_TD _ (ni_CS _ _ _ H))|apply J].
    - injection E1 as <- <-. split; [|congruence]. apply TD_held. apply (cs_TD _ (ni_CS _ _ _ H)). }
  destruct HM as (HM & HE).
  assert (A : noted sm s2 /\ decisions s2 = decisions sm).
  { destruct (ulist sm); [injection E2 as <-; auto using noted_refl|].
    apply up_noted in E2; auto. tauto. }
  split; [apply A|]. split; [apply A|]. destruct (conflict s); [|congruence].
  split; [eauto|]. apply nc_conflict_stats in E1. destruct E1. auto.
Qed.

Definition tallied (clk : nat -> bool) (s : state) : Prop :=
  (forall k, entries k s <= total_of k s) /\
  (backtracks s = 0 -> forall k, entries k s = total_of k s) /\
  0 <= backtracks s /\
  decisions s <= Z.of_nat (tick s) <= decisions s + backtracks s + (if conflict s then 1 else 0) /\
  forall j, (j < tick s)%nat -> clk j = false.

Record ended (clk : nat -> bool) (v : verdict) (s : state) : Prop := mkEnded {
  en_le : forall k, entries k s <= total_of k s;
  en_eq : backtracks s = 0 -> forall k, entries k s = total_of k s;
  en_tick : decisions s + 1 <= Z.of_nat (tick s) <= decisions s + backtracks s + 2;
  en_clk : forall j, (S j < tick s)%nat -> clk j = false;
  en_time : v = TIMEOUT <-> clk (Nat.pred (tick s)) = true
}.

Lemma nc_iter_tallied fuel c clk r rc s t0 cs0 x :
  watch c = false -> lenient c = true -> NI t0 cs0 s -> rs_ok r rc s -> tallied clk s ->
  nc_iter fuel c clk r rc s = Ok x ->
  match x with
  | inl (v, s') => ended clk v s'
  | inr (_, s') => tallied clk s'
  end.
Proof.
  intros W Le I RS T E. unfold nc_iter, check_time in E.
  set (s1 := set_tick s (S (tick s))) in *.
  assert (I1 : NI t0 cs0 s1) by (apply NI_tick; auto).
  assert (T1 : (forall k, entries k s1 <= total_of k s1) /\ (backtracks s1 = 0 -> forall k, entries k s1 = total_of k s1) /\
     0 <= backtracks s1 /\
     decisions s1 + 1 <= Z.of_nat (tick s1) <= decisions s1 + backtracks s1 + 1 + (if conflict s1 then 1 else 0)).
  { destruct T as (T1 & T2 & T3 & T4 & _). split; [exact T1|]. split; [exact T2|]. split; [exact T3|].
    change (tick s1) with (S (tick s)). change (conflict s1) with (conflict s). change (decisions s1) with (decisions s).
    change (backtracks s1) with (backtracks s). lia. }
  assert (RS1 : rs_ok r rc s1) by exact RS.
  assert (TK : tick s1 = S (tick s)) by reflexivity.
  assert (CK : forall j, (j < tick s)%nat -> clk j = false) by apply T.
  clearbody s1.
  destruct T1 as (T1 & T2 & T3 & T4).
  assert (DONE : forall v, (v = TIMEOUT <-> clk (tick s) = true) -> ended clk v s1).
  { intros v HV. split; auto; try (destruct (conflict s1); lia); rewrite TK; auto. intros j Hj. apply CK. lia. }
  destruct (clk (tick s)) eqn:LT; [injection E as <-; apply DONE; tauto|].
  assert (CK1 : forall j, (j < tick s1)%nat -> clk j = false).
  { intros j Hj. rewrite TK in Hj. destruct (Nat.eq_dec j (tick s)) as [->|]; auto. apply CK. lia. }
  destruct (conflict s1 && (level s1 =? 0)) eqn:CL; [injection E as <-; apply DONE; split; discriminate|].
  apply bind_ok in E. destruct E as ((s2, rc2) & E2 & E).
  assert (PL : conflict s1 = true -> 1 <= level s1) by (intro; eapply pos_level; eauto).
  destruct (nc_forward fuel c r rc s1 t0 cs0 rc2 s2 W Le I1 RS1 PL E2) as (sm & N & D2 & M).
  destruct (front_at c r rc s1 t0 cs0 fuel s2 rc2 W Le I1 RS1 PL E2) as (I2 & _ & U2).
  assert (M2 : (forall k, entries k sm <= total_of k sm) /\ (backtracks sm = 0 -> forall k, entries k sm = total_of k sm) /\
     0 <= backtracks sm /\
     decisions sm + 1 <= Z.of_nat (tick sm) <= decisions sm + backtracks sm + 1).
  { destruct (conflict s1); [|subst sm; split; auto; split; auto; split; auto; lia].
    destruct M as (_ & M1 & M2 & M3). unfold stats in M2.
    assert (decisions sm = decisions s1) by congruence. assert (tick sm = tick s1) by congruence.
    assert (X : forall k, total_of k sm = total_of k s1) by (intros [| |]; cbn [total_of]; congruence).
    split; [|split; [|split]]; try lia.
    intro k. rewrite X. specialize (M3 k). specialize (T1 k). lia. }
  assert (TM : tick sm = tick s1).
  { destruct (conflict s1); [|congruence]. destruct M as (_ & _ & M1 & _). unfold stats in M1. congruence. }
  rewrite <- TM in CK1.
  assert (CKE : forall j, (S j < tick sm)%nat -> clk j = false) by (intros; apply CK1; lia).
  assert (CKL : clk (Nat.pred (tick sm)) = false) by (rewrite TM, TK; exact LT).
  clear M T1 T2 T3 T4 DONE.
  assert (G : forall s', noted sm s' -> decisions sm <= decisions s' <= decisions sm + 1 ->
     (forall k, entries k s' <= total_of k s') /\ (backtracks s' = 0 -> forall k, entries k s' = total_of k s') /\
     0 <= backtracks s' /\ tick s' = tick sm /\ backtracks s' = backtracks sm).
  { intros s' [N1 N2 N3 N4] DD. destruct M2 as (M1 & M2 & M3 & _).
    assert (backtracks s' = backtracks sm) by congruence.
    split; [|split; [|split; [|split]]]; try congruence.
    - intro k. specialize (N4 k). specialize (M1 k). lia.
    - intros B k. specialize (N4 k). rewrite H in B. specialize (M2 B k). lia. }
  destruct M2 as (_ & _ & _ & M2).
  assert (G2 := G s2 N ltac:(lia)). destruct G2 as (G1 & G2 & G3 & G4 & G5).
  destruct (conflict s2) eqn:Cf2.
  { injection E as <-. split; [|split; [|split; [|split]]]; auto; rewrite ?Cf2, G4, ?D2; auto. lia. }
  apply bind_ok in E. destruct E as ((s3, l) & E3 & E).
  destruct (choose_nc_ok c s2 (ni_CS _ _ _ I2) Cf2) as (rr & l' & E5 & CO).
  { destruct U2; auto; congruence. } { apply I2. }
  assert (X : (s3, l) = (set_uclause s2 rr, l')) by congruence. injection X as -> ->.
  destruct (lvar l' =? -1) eqn:LV.
  { injection E as <-. split; auto; cbn -[Z.of_nat Z.mul Z.add Z.sub]; rewrite G4; auto; [rewrite D2; lia|]. rewrite CKL. split; discriminate. }
  apply Z.eqb_neq in LV. destruct CO as [(CO & _)|(_ & _ & CO)]; [congruence|].
  apply bind_ok in E. destruct E as (s4 & E4 & E). injection E as <-.
  apply dec_noted in E4; auto; [|apply N]. destruct E4 as (N4 & D4).
  destruct (G s4) as (G1' & G2' & G3' & G4' & G5'); [eapply noted_trans; eauto|lia|].
  split; [|split; [|split; [|split]]]; auto; rewrite ?D4, G4', ?D2; auto. destruct (conflict s4); lia.
Qed.

(** ** WatchedLiterals *)

(** From the state in which propagation starts to the end of the iteration. *)
Lemma wl_forward fuel c r rc s t0 cs0 rc1 s1 :
  watch c = true -> lenient c = true -> heur c <> BK -> WI t0 cs0 s -> rs_ok r rc s -> (conflict s = true -> 1 <= level s) ->
  wl_front fuel c r rc s = Ok (s1, rc1) ->
  exists sm, noted sm s1 /\ decisions s1 = decisions sm /\
    if conflict s then (exists rcm, wl_conflict fuel c r rc s = Ok (sm, rcm)) /\
      backtracks sm = backtracks s + 1 /\ stats sm = stats s /\ forall k, entries k sm <= entries k s
    else sm = s.
Proof.
  intros W Le NB H RS HL E. unfold wl_front in E.
  apply bind_ok in E. destruct E as ((sm, rcm) & E1 & E). apply bind_ok in E. destruct E as (s2 & E2 & E).
  injection E as <- _. exists sm.
  assert (HM : held sm /\ (conflict s = true -> forall k, entries k sm <= entries k s)).
  { destruct (conflict s) eqn:Cf.
    - destruct (wl_conflict_ok c r rc s W Le (wi_CS _ _ _ H) (wi_TR _ _ _ H) Cf (HL eq_refl))
        as (N & C & lv & s3 & rc3 & E3 & J & H3).
      assert (X : (sm, rcm) = (s3, rc3)).
      { apply (settled_ok (fun f => wl_conflict f c r rc s) N _ _ fuel); auto. intros; apply wl_conflict_below; auto. }
      injection X as -> ->. split; [apply TD_held; apply (wc_TD _ H3)|]. intros _ k.
      apply (cut_entries (level s3)); [apply (wc_TD _ (wi_CS _ _ _ H))|apply J].
    - injection E1 as <- <-. split; [|congruence]. apply TD_held. apply (wc_TD _ (wi_CS _ _ _ H)). }
  destruct HM as (HM & HE).
  assert (A : noted sm s2 /\ decisions s2 = decisions sm).
  { destruct (ulist sm); [injection E2 as <-; auto using noted_refl|].
    apply wup_noted in E2; auto. tauto. }
  split; [apply A|]. split; [apply A|]. destruct (conflict s); [|congruence].
  split; [eauto|]. apply wl_conflict_stats in E1. destruct E1. auto.
Qed.

Lemma wl_iter_tallied fuel c clk r rc s t0 cs0 x :
  watch c = true -> lenient c = true -> heur c <> BK -> WI t0 cs0 s -> rs_ok r rc s -> tallied clk s ->
  wl_iter fuel c clk r rc s = Ok x ->
  match x with
  | inl (v, s') => ended clk v s'
  | inr (_, s') => tallied clk s'
  end.
Proof.
  intros W Le NB I RS T E. unfold wl_iter, check_time in E.
  set (s1 := set_tick s (S (tick s))) in *.
  assert (I1 : WI t0 cs0 s1) by (apply WI_tick; auto).
  assert (T1 : (forall k, entries k s1 <= total_of k s1) /\ (backtracks s1 = 0 -> forall k, entries k s1 = total_of k s1) /\
     0 <= backtracks s1 /\
     decisions s1 + 1 <= Z.of_nat (tick s1) <= decisions s1 + backtracks s1 + 1 + (if conflict s1 then 1 else 0)).
  { destruct T as (T1 & T2 & T3 & T4 & _). split; [exact T1|]. split; [exact T2|]. split; [exact T3|].
    change (tick s1) with (S (tick s)). change (conflict s1) with (conflict s). change (decisions s1) with (decisions s).
    change (backtracks s1) with (backtracks s). lia. }
  assert (RS1 : rs_ok r rc s1) by exact RS.
  assert (TK : tick s1 = S (tick s)) by reflexivity.
  assert (CK : forall j, (j < tick s)%nat -> clk j = false) by apply T.
  clearbody s1.
  destruct T1 as (T1 & T2 & T3 & T4).
  assert (DONE : forall v, (v = TIMEOUT <-> clk (tick s) = true) -> ended clk v s1).
  { intros v HV. split; auto; try (destruct (conflict s1); lia); rewrite TK; auto. intros j Hj. apply CK. lia. }
  destruct (clk (tick s)) eqn:LT; [injection E as <-; apply DONE; tauto|].
  assert (CK1 : forall j, (j < tick s1)%nat -> clk j = false).
  { intros j Hj. rewrite TK in Hj. destruct (Nat.eq_dec j (tick s)) as [->|]; auto. apply CK. lia. }
  destruct (conflict s1 && (level s1 =? 0)) eqn:CL; [injection E as <-; apply DONE; split; discriminate|].
  apply bind_ok in E. destruct E as ((s2, rc2) & E2 & E).
  assert (PL : conflict s1 = true -> 1 <= level s1) by (intro; eapply wpos_level; eauto).
  destruct (wl_forward fuel c r rc s1 t0 cs0 rc2 s2 W Le NB I1 RS1 PL E2) as (sm & N & D2 & M).
  assert (IU : WI t0 cs0 s2 /\ (conflict s2 = true \/ ulist s2 = [])).
  { destruct (wl_front_ok c r rc s1 t0 cs0 W Le I1 RS1 PL) as (N0 & s3 & rc3 & E3 & I3 & _ & U3 & _).
    assert (X : (s2, rc2) = (s3, rc3)); [|injection X as -> ->; auto].
    apply (settled_ok (fun f => wl_front f c r rc s1) N0 _ _ fuel); auto. intros; apply wl_front_below; auto. }
  destruct IU as (I2 & U2).
  assert (M2 : (forall k, entries k sm <= total_of k sm) /\ (backtracks sm = 0 -> forall k, entries k sm = total_of k sm) /\
     0 <= backtracks sm /\
     decisions sm + 1 <= Z.of_nat (tick sm) <= decisions sm + backtracks sm + 1).
  { destruct (conflict s1); [|subst sm; split; auto; split; auto; split; auto; lia].
    destruct M as (_ & M1 & M2 & M3). unfold stats in M2.
    assert (decisions sm = decisions s1) by congruence. assert (tick sm = tick s1) by congruence.
    assert (X : forall k, total_of k sm = total_of k s1) by (intros [| |]; cbn [total_of]; congruence).
    split; [|split; [|split]]; try lia.
    intro k. rewrite X. specialize (M3 k). specialize (T1 k). lia. }
  assert (TM : tick sm = tick s1).
  { destruct (conflict s1); [|congruence]. destruct M as (_ & _ & M1 & _). unfold stats in M1. congruence. }
  rewrite <- TM in CK1.
  assert (CKE : forall j, (S j < tick sm)%nat -> clk j = false) by (intros; apply CK1; lia).
  assert (CKL : clk (Nat.pred (tick sm)) = false) by (rewrite TM, TK; exact LT).
  clear M T1 T2 T3 T4 DONE.
  assert (G : forall s', noted sm s' -> decisions sm <= decisions s' <= decisions sm + 1 ->
     (forall k, entries k s' <= total_of k s') /\ (backtracks s' = 0 -> forall k, entries k s' = total_of k s') /\
     0 <= backtracks s' /\ tick s' = tick sm /\ backtracks s' = backtracks sm).
  { intros s' [N1 N2 N3 N4] DD. destruct M2 as (M1 & M2 & M3 & _).
    assert (backtracks s' = backtracks sm) by congruence.
    split; [|split; [|split; [|split]]]; try congruence.
    - intro k. specialize (N4 k). specialize (M1 k). lia.
    - intros B k. specialize (N4 k). rewrite H in B. specialize (M2 B k). lia. }
  destruct M2 as (_ & _ & _ & M2).
  assert (G2 := G s2 N ltac:(lia)). destruct G2 as (G1 & G2 & G3 & G4 & G5).
  destruct (conflict s2) eqn:Cf2.
  { injection E as <-. split; [|split; [|split; [|split]]]; auto; rewrite ?Cf2, G4, ?D2; auto. lia. }
  apply bind_ok in E. destruct E as ((s3, l) & E3 & E).
  destruct (choose_wl_ok c s2 NB (wi_CS _ _ _ I2) Cf2) as (rr & l' & E5 & CO).
  { destruct U2; auto; congruence. } { apply I2. }
  assert (X : (s3, l) = (set_uclause s2 rr, l')) by congruence. injection X as -> ->.
  destruct (lvar l' =? -1) eqn:LV.
  { injection E as <-. split; auto; cbn -[Z.of_nat Z.mul Z.add Z.sub]; rewrite G4; auto; [rewrite D2; lia|]. rewrite CKL. split; discriminate. }
  apply Z.eqb_neq in LV. destruct CO as [(CO & _)|(_ & _ & CO)]; [congruence|].
  apply bind_ok in E. destruct E as (s4 & E4 & E). injection E as <-.
  apply wdec_noted in E4; auto; [|apply N]. destruct E4 as (N4 & D4).
  destruct (G s4) as (G1' & G2' & G3' & G4' & G5'); [eapply noted_trans; eauto|lia|].
  split; [|split; [|split; [|split]]]; auto; rewrite ?D4, G4', ?D2; auto. destruct (conflict s4); lia.
Qed.

(** ** Whole runs of the learning searches *)

Lemma st_dst p t : start_trail p t -> DST t = [].
Proof. intros (_ & _ & _ & _ & _ & _ & _ & H). exact H. Qed.

Lemma start_tallied c clk p s : wf p -> build c (items_of p) = Ok s -> tallied clk s.
Proof.
  intros W E. destruct (build_ok c p W) as (t & s0 & EB & ST & B). assert (s = s0) by congruence. subst s0.
  destruct (bu_misc _ _ _ _ B) as (_ & _ & _ & B0 & D0 & U0 & E0 & _ & T0).
  assert (X : forall k, entries k s = total_of k s).
  { intro k. unfold entries. rewrite (bu_tr _ _ _ _ B), (st_dst _ _ ST). destruct k; cbn; auto. }
  split; [intro k; rewrite X; lia|]. split; auto. rewrite B0, D0, T0. split; [lia|].
  split; [destruct (conflict s); cbn; lia|]. intros; lia.
Qed.

Lemma nc_reached_tallied c clk r p rc s :
  wf p -> no_repeats p -> watch c = false -> lenient c = true -> nc_reached c clk r p rc s -> tallied clk s.
Proof.
  intros W ND Hw Le H. induction H as [s E|fuel rc s rc' s' H IH E]; [eapply start_tallied; eauto|].
  destruct (nc_reached_ok c clk r p rc s W ND Hw Le H) as (t0 & _ & I & RS & _).
  exact (nc_iter_tallied fuel c clk r rc s t0 (clauses p) _ Hw Le I RS IH E).
Qed.

Lemma nc_loop_last c clk r p : forall fuel rc s v s', nc_reached c clk r p rc s ->
  nc_loop fuel c clk r rc s = Ok (v, s') ->
  exists fuel1 rc1 s1, nc_reached c clk r p rc1 s1 /\ nc_iter fuel1 c clk r rc1 s1 = Ok (inl (v, s')).
Proof.
  induction fuel as [|fuel IH]; intros rc s v s' H E; [discriminate|]. rewrite nc_loop_iter in E.
  apply bind_ok in E. destruct E as ([(v1, s1)|(rc1, s1)] & E1 & E).
  - exists (S fuel), rc, s. split; auto. congruence.
  - apply (IH rc1 s1); auto. econstructor; eauto.
Qed.

Lemma wl_reached_tallied c clk r p rc s :
  wf p -> no_repeats p -> watch c = true -> lenient c = true -> heur c <> BK -> wl_reached c clk r p rc s -> tallied clk s.
Proof.
  intros W ND Hw Le NB H. induction H as [s E|fuel rc s rc' s' H IH E]; [eapply start_tallied; eauto|].
  destruct (wl_reached_ok c clk r p rc s W ND Hw Le NB H) as (t0 & _ & I & RS).
  exact (wl_iter_tallied fuel c clk r rc s t0 (clauses p) _ Hw Le NB I RS IH E).
Qed.

Lemma wl_loop_last c clk r p : forall fuel rc s v s', wl_reached c clk r p rc s ->
  wl_loop fuel c clk r rc s = Ok (v, s') ->
  exists fuel1 rc1 s1, wl_reached c clk r p rc1 s1 /\ wl_iter fuel1 c clk r rc1 s1 = Ok (inl (v, s')).
Proof.
  induction fuel as [|fuel IH]; intros rc s v s' H E; [discriminate|]. rewrite wl_loop_iter in E.
  apply bind_ok in E. destruct E as ([(v1, s1)|(rc1, s1)] & E1 & E).
  - exists (S fuel), rc, s. split; auto. congruence.
  - apply (IH rc1 s1); auto. econstructor; eauto.
Qed.

Lemma search_ended c clk r p fuel s v s' :
  setting NonChrono c -> input NonChrono p -> build c (items_of p) = Ok s ->
  run_search fuel NonChrono c clk r s = Ok (v, s') -> ended clk v s'.
Proof.
  intros (Le & NB) (W & ND) EB E. specialize (ND eq_refl). cbn [run_search] in E. destruct (watch c) eqn:Hw.
  - destruct (wl_loop_last c clk r p fuel r s v s') as (f1 & rc1 & s1 & R & E1); auto; [constructor; auto|].
    destruct (wl_reached_ok c clk r p rc1 s1 W ND Hw Le (NB eq_refl) R) as (t0 & _ & I & RS).
    exact (wl_iter_tallied f1 c clk r rc1 s1 t0 (clauses p) _ Hw Le (NB eq_refl) I RS
             (wl_reached_tallied c clk r p rc1 s1 W ND Hw Le (NB eq_refl) R) E1).
  - destruct (nc_loop_last c clk r p fuel r s v s') as (f1 & rc1 & s1 & R & E1); auto; [constructor; auto|].
    destruct (nc_reached_ok c clk r p rc1 s1 W ND Hw Le R) as (t0 & _ & I & RS & _).
    exact (nc_iter_tallied f1 c clk r rc1 s1 t0 (clauses p) _ Hw Le I RS
             (nc_reached_tallied c clk r p rc1 s1 W ND Hw Le R) E1).
Qed.

(** The report shows the final state. *)
Definition shows (s : state) (rep : report) : Prop :=
  r_decisions rep = decisions s /\ r_units rep = units s /\ r_backtracks rep = backtracks s /\
  r_entails rep = entails s /\ r_restarts rep = restarts s.

Lemma solve_shows fuel m c clk r p rep s : solve fuel m c clk r p = Ok (rep, s) ->
  exists s0, build c (items_of p) = Ok s0 /\ run_search fuel m c clk r s0 = Ok (r_verdict rep, s) /\ shows s rep.
Proof.
  unfold solve. intro E. apply bind_ok in E. destruct E as (s0 & EB & E). exists s0. split; auto.
  unfold solve_state in E. apply bind_ok in E. destruct E as ((v, s1) & E1 & E). rewrite E1. clear E1.
  destruct v; try (apply bind_ok in E; destruct E as (b & _ & E)); injection E as <- <-; split; auto; repeat split.
Qed.

(** ** ChronoBacktrack *)

Definition spread (s : state) : Z := decisions s + units s + entails s - Z.of_nat (length (DST (tr s))).

Record mild (s s' : state) : Prop := mkMild {
  mi_dec : decisions s' = decisions s;
  mi_back : backtracks s' = backtracks s;
  mi_level : level s' = level s;
  mi_tick : tick s' = tick s;
  mi_spread : spread s' = spread s
}.

Lemma mild_refl s : mild s s.
Proof. split; reflexivity. Qed.
Lemma mild_trans a b c : mild a b -> mild b c -> mild a c.
Proof. intros [A1 A2 A3 A4 A5] [B1 B2 B3 B4 B5]. split; congruence. Qed.

Lemma marked_length s v d a s' : marked s v d a s' -> DST (tr s') = DST (tr s) /\ outer s' = outer s.
Proof. intros (M1 & M2). rewrite M1. auto. Qed.

Lemma exclude_length c v s i s' : exclude c v s i = Ok s' -> DST (tr s') = DST (tr s) /\ outer s' = outer s.
Proof.
  unfold exclude. destruct (conflict s); [intro E; injection E as <-; auto|].
  destruct (ASG (tr s) v i) eqn:U; [|intro E; injection E as <-; auto..].
  intro E. apply assign_marked in E. apply marked_length in E. auto.
Qed.

Lemma excludes_length c v is s s' : foldM (exclude c v) is s = Ok s' -> DST (tr s') = DST (tr s) /\ outer s' = outer s.
Proof.
  apply (foldM_inv_ok (exclude c v) (fun x => DST (tr x) = DST (tr s) /\ outer x = outer s)); auto.
  intros x a b _ Q E. apply exclude_length in E. destruct Q, E. split; congruence.
Qed.

Lemma reduce_pos_length c s v d s' : reduce_pos c s v d = Ok s' ->
  length (DST (tr s')) = S (length (DST (tr s))) /\ outer s' = outer s.
Proof.
  unfold reduce_pos. intro E. apply do_ok in E. cbv zeta in E.
  apply bind_ok in E. destruct E as (s1 & E1 & E). apply bind_ok in E. destruct E as (s2 & E2 & E).
  apply assign_marked in E1. apply marked_length in E1. apply excludes_length in E2. apply excludes_length in E.
  destruct E1 as (A1 & A2), E2 as (B1 & B2), E as (C1 & C2).
  split; [|rewrite C2, B2, A2; reflexivity]. rewrite C1, B1, A1. cbn. rewrite app_length. cbn. lia.
Qed.

Lemma reduce_length c s l s' : reduce_theory c s l = Ok s' ->
  decisions s' = decisions s /\ backtracks s' = backtracks s /\ level s' = level s /\ tick s' = tick s /\
  spread s' = spread s - 1.
Proof.
  unfold reduce_theory, spread. destruct (leq l).
  - intro E. apply reduce_pos_length in E. destruct E as (E & O). unfold outer in O.
    assert (decisions s' = decisions s) by congruence. assert (units s' = units s) by congruence.
    assert (entails s' = entails s) by congruence. repeat split; try congruence. lia.
  - unfold reduce_neg. intro E. apply do_ok in E. cbv zeta in E.
    apply bind_ok in E. destruct E as (s1 & E1 & E). apply assign_marked in E1. apply marked_length in E1.
    destruct E1 as (A1 & O1). unfold outer in O1. cbn in O1.
    assert (L1 : length (DST (tr s1)) = S (length (DST (tr s)))) by (rewrite A1; cbn; rewrite app_length; cbn; lia).
    assert (D1 : decisions s1 = decisions s) by congruence. assert (U1 : units s1 = units s) by congruence.
    assert (N1 : entails s1 = entails s) by congruence.
    destruct (check_entail (tr s1) (lvar l)) as [e|].
    + apply reduce_pos_length in E. destruct E as (E & O). unfold outer in O. cbn in O, E.
      assert (decisions s' = decisions s) by congruence. assert (units s' = units s) by congruence.
      assert (entails s' = entails s + 1) by congruence. repeat split; try congruence. lia.
    + injection E as <-. repeat split; try congruence. lia.
Qed.

Lemma up_mild c : forall fuel s s', unit_propagation fuel c s = Ok s' -> mild s s'.
Proof.
  induction fuel as [|fuel IH]; intros s s' E; [discriminate|]. cbn [unit_propagation] in E.
  destruct (conflict s); [injection E as <-; apply mild_refl|].
  destruct (ulist s) as [|n rest] eqn:Ul; [injection E as <-; apply mild_refl|].
  apply bind_ok in E. destruct E as (C & _ & E). cbn in E.
  assert (SKIP : unit_propagation fuel c (set_ulist (set_uclause s (RCls n)) rest) = Ok s' -> mild s s').
  { intro E1. apply IH in E1. refine (mild_trans _ _ _ _ E1). split; reflexivity. }
  destruct (clev s n =? -1); [|auto].
  apply bind_ok in E. destruct E as ([l|] & F & E); [|auto].
  apply bind_ok in E. destruct E as (s1 & E1 & E). apply IH in E. refine (mild_trans _ _ _ _ E).
  apply reduce_length in E1. cbn in E1. destruct E1 as (A1 & A2 & A3 & A4 & A5). split; auto.
  rewrite A5. unfold spread. cbn. lia.
Qed.

Lemma front_mild fuel c clk s lev late s' : ch_front fuel c clk s lev = Ok (late, s') ->
  decisions s' = decisions s /\ backtracks s' = backtracks s /\ level s' = lev /\ spread s' = spread s /\
  (tick s' = S (S (tick s)) /\ clk (tick s) = false /\ late = clk (S (tick s)) \/
   tick s' = S (tick s) /\ clk (tick s) = true /\ late = true).
Proof.
  unfold ch_front, check_time. cbv zeta. cbn [tick set_level].
  destruct (clk (tick s)) eqn:C.
  - intro E. injection E as <- <-. repeat split. right. auto.
  - intro E. apply bind_ok in E. destruct E as (s2 & E2 & E).
    assert (M : mild (set_tick (set_level s lev) (S (tick s))) s2).
    { destruct (ulist _) in E2; [injection E2 as <-; apply mild_refl|]. eapply up_mild; eauto. }
    destruct M as [M1 M2 M3 M4 M5]. cbn in M1, M2, M3, M4. injection E as <- <-.
    cbn. rewrite M4. repeat split; auto.
Qed.

Record ch_ended (clk : nat -> bool) (s : state) (lev : Z) (v : verdict) (s' : state) : Prop := mkChEnded {
  ce_bal : decisions s' - backtracks s' = level s';
  ce_unsat : v = UNSAT -> level s' = lev - 1 /\ backtracks s < backtracks s';
  ce_mono : backtracks s <= backtracks s';
  ce_spread : backtracks s' = backtracks s -> spread s' = spread s;
  ce_ticks : exists n, 0 <= n <= 2 /\ (v = SAT -> n = 2) /\ (v = UNSAT -> n = 0) /\ (v = TIMEOUT -> 1 <= n) /\
    Z.of_nat (tick s') - Z.of_nat (tick s) =
      2 * (decisions s' - decisions s + (backtracks s' - backtracks s)) + n;
  ce_early : forall j, (tick s <= j < Nat.pred (tick s'))%nat -> clk j = false;
  ce_late : v = TIMEOUT <-> clk (Nat.pred (tick s')) = true;
  ce_grow : (tick s < tick s')%nat
}.

Lemma chrono_ended c clk : forall fuel s lev v s', 0 <= lev -> decisions s - backtracks s = lev ->
  chrono fuel c clk s lev = Ok (v, s') -> ch_ended clk s lev v s'.
Proof.
  induction fuel as [|fuel IH]; intros s lev v s' HL HB E; [discriminate|]. rewrite chrono_unfold in E.
  apply bind_ok in E. destruct E as ((late, s1) & F & E).
  apply front_mild in F. destruct F as (F1 & F2 & F3 & F4 & F5).
  destruct late.
  { injection E as <- <-. split; try lia; try discriminate.
    - destruct F5 as [(F5 & _)|(F5 & _)]; [exists 2|exists 1]; rewrite F5; repeat split; try (intros; lia); try discriminate.
    - destruct F5 as [(F5 & C1 & _)|(F5 & _)]; rewrite F5; cbn; intros j Hj; [|lia].
      assert (j = tick s) as -> by lia. auto.
    - destruct F5 as [(F5 & C1 & C2)|(F5 & C1 & _)]; rewrite F5; cbn; split; auto; congruence. }
  destruct F5 as [(F5 & C1 & C2)|(_ & _ & F5)]; [|discriminate].
  assert (EARLY : forall j, (tick s <= j < tick s1)%nat -> clk j = false).
  { intros j Hj. rewrite F5 in Hj. assert (j = tick s \/ j = S (tick s)) as [->| ->] by lia; auto. }
  assert (NOT : clk (Nat.pred (tick s1)) = false) by (rewrite F5; cbn; auto).
  destruct (conflict s1).
  { apply bind_ok in E. destruct E as (s2 & E2 & E). injection E as <- <-.
    unfold ch_conflict in E2. cbv zeta in E2. apply bind_ok in E2. destruct E2 as (s3 & E3 & E2).
    apply still_undo in E3. unfold still, outer in E3. cbn in E3.
    assert (A1 : backtracks s3 = backtracks s1 + 1) by congruence.
    assert (A2 : decisions s3 = decisions s1) by congruence. assert (A3 : tick s3 = tick s1) by congruence.
    assert (A4 : level s3 = level s1) by congruence. injection E2 as <-.
    split; cbn -[Z.of_nat Z.mul Z.add Z.sub]; try lia.
    - exists 0. rewrite A3, F5. repeat split; try (intros; lia); discriminate.
    - rewrite A3. intros j Hj. apply EARLY. lia.
    - rewrite A3, NOT. split; discriminate. }
  apply bind_ok in E. destruct E as ((s2, l) & E2 & E).
  assert (A : exists r, s2 = set_uclause s1 r).
  { unfold choose_ch in E2. destruct (heur c); try (injection E2 as <- _); eauto.
    - exists (uclause s1). destruct s1; reflexivity.
    - apply bind_ok in E2. destruct E2 as (l2 & _ & E2). injection E2 as <- _.
      exists (uclause s1). destruct s1; reflexivity.
    - exists (uclause s1). destruct s1; reflexivity. }
  destruct A as (r & ->).
  destruct (lvar l =? -1).
  { injection E as <- <-. split; cbn -[Z.of_nat Z.mul Z.add Z.sub]; try lia; try discriminate.
    - intros _. exact F4.
    - exists 2. rewrite F5. repeat split; try (intros; lia); discriminate.
    - intros j Hj. apply EARLY. lia.
    - rewrite NOT. split; discriminate. }
  apply bind_ok in E. destruct E as (s3 & E3 & E). unfold ch_left in E3. cbv zeta in E3.
  apply reduce_length in E3. cbn in E3. destruct E3 as (B1 & B2 & B3 & B4 & B5).
  assert (B6 : spread s3 = spread s) by (rewrite B5; unfold spread in *; cbn; lia).
  apply bind_ok in E. destruct E as ((v4, s4) & E4 & E).
  apply IH in E4; [|lia|lia]. destruct E4 as [G1 G2 G3 G4 (n & G5) G6 G7 G8].
  assert (OUT : v4 <> UNSAT -> (v, s') = (v4, s4) -> ch_ended clk s lev v s').
  { intros NU X. injection X as -> ->. split; auto; try lia; try congruence.
    - exists n. destruct G5 as (G5 & G5a & G5b & G5c & G5d). repeat split; auto; try lia; try congruence.
    - intros j Hj. destruct (Nat.lt_ge_cases j (tick s1)); [apply EARLY; lia|]. apply G6. lia. }
  destruct v4; [apply OUT; congruence|apply OUT; congruence|]. clear OUT.
  destruct (G2 eq_refl) as (G2a & G2b). destruct G5 as (_ & _ & G5 & _ & G5d). specialize (G5 eq_refl).
  assert (LATE : clk (Nat.pred (tick s4)) = false).
  { destruct (clk (Nat.pred (tick s4))) eqn:Z0; auto. assert (X := proj2 G7 eq_refl). discriminate. }
  assert (EARLY2 : forall j, (tick s <= j < tick s4)%nat -> clk j = false).
  { intros j Hj. destruct (Nat.lt_ge_cases j (tick s1)); [apply EARLY; lia|].
    destruct (Nat.eq_dec j (Nat.pred (tick s4))) as [->|]; auto. apply G6. lia. }
  assert (LV : 0 <=? level s4 = true) by (apply Z.leb_le; lia). rewrite LV in E.
  apply bind_ok in E. destruct E as (s5 & E5 & E). apply reduce_length in E5. destruct E5 as (K1 & K2 & K3 & K4 & _).
  apply IH in E; [|lia|lia]. destruct E as [H1 H2 H3 H4 (n' & H5) H6 H7 H8].
  split; auto; try lia.
  - intros V. destruct (H2 V). split; lia.
  - exists n'. destruct H5 as (H5 & H5a & H5b & H5c & H5d). repeat split; auto; lia.
  - intros j Hj. destruct (Nat.lt_ge_cases j (tick s4)); [apply EARLY2; lia|]. apply H6. lia.
Qed.

Lemma chrono_run c clk r p fuel rep s : wf p -> solve fuel Chrono c clk r p = Ok (rep, s) ->
  exists s0, build c (items_of p) = Ok s0 /\ DST (tr s0) = [] /\
    decisions s0 = 0 /\ backtracks s0 = 0 /\ units s0 = 0 /\ entails s0 = 0 /\ tick s0 = 0%nat /\
    ch_ended clk s0 0 (r_verdict rep) s /\ shows s rep.
Proof.
  intros W E. apply solve_shows in E. destruct E as (s0 & EB & E & SH). exists s0. split; auto.
  destruct (build_ok c p W) as (t & s1 & EB1 & ST & B). assert (s0 = s1) by congruence. subst s1.
  destruct (bu_misc _ _ _ _ B) as (_ & _ & _ & B0 & D0 & U0 & E0 & _ & T0).
  split; [rewrite (bu_tr _ _ _ _ B); apply (st_dst _ _ ST)|]. do 5 (split; [auto|]). split; auto.
  cbn [run_search] in E. apply chrono_ended in E; auto; lia.
Qed.

(** ** Steps *)

Lemma nc_step_full c clk r p rc s fuel rc' s' :
  wf p -> no_repeats p -> watch c = false -> lenient c = true -> nc_reached c clk r p rc s ->
  nc_iter fuel c clk r rc s = Ok (inr (rc', s')) ->
  exists s1, check_time clk s = (false, s1) /\
    if conflict s then exists rc1 s2, nc_conflict_at c clk r p rc s1 rc1 s2 /\ noted s2 s' else noted s1 s'.
Proof.
  intros W ND Hw Le R E. destruct (nc_reached_ok c clk r p rc s W ND Hw Le R) as (t0 & _ & I & RS & _).
  unfold nc_iter in E. destruct (check_time clk s) as (late, s1) eqn:CT.
  destruct late; [discriminate|]. assert (S1 : s1 = set_tick s (S (tick s))) by (unfold check_time in CT; congruence).
  assert (I1 : NI t0 (clauses p) s1) by (subst s1; apply NI_tick; auto).
  assert (RS1 : rs_ok r rc s1) by (subst s1; exact RS).
  assert (C1 : conflict s1 = conflict s) by (subst s1; reflexivity).
  assert (L1 : level s1 = level s) by (subst s1; reflexivity).
  assert (B1 : backtracks s1 = backtracks s) by (subst s1; reflexivity).
  destruct (conflict s1 && (level s1 =? 0)) eqn:CL; [discriminate|].
  apply bind_ok in E. destruct E as ((s2, rc2) & E2 & E).
  assert (PL : conflict s1 = true -> 1 <= level s1) by (intro; eapply pos_level; eauto).
  destruct (nc_forward fuel c r rc s1 t0 (clauses p) rc2 s2 Hw Le I1 RS1 PL E2) as (sm & N & D2 & M).
  destruct (front_at c r rc s1 t0 (clauses p) fuel s2 rc2 Hw Le I1 RS1 PL E2) as (I2 & _ & U2).
  assert (F : noted sm s').
  { destruct (conflict s2) eqn:Cf2; [injection E as <- <-; auto|].
    apply bind_ok in E. destruct E as ((s3, l) & E3 & E).
    destruct (choose_nc_ok c s2 (ni_CS _ _ _ I2) Cf2) as (rr & l' & E5 & CO).
    { destruct U2; auto; congruence. } { apply I2. }
    assert (X : (s3, l) = (set_uclause s2 rr, l')) by congruence. injection X as -> ->.
    destruct (lvar l' =? -1) eqn:LV; [discriminate|].
    apply Z.eqb_neq in LV. destruct CO as [(CO & _)|(_ & _ & CO)]; [congruence|].
    apply bind_ok in E. destruct E as (s4 & E4 & E). injection E as <- <-.
    apply dec_noted in E4; auto; [|apply N]. destruct E4 as (N4 & D4). eapply noted_trans; eauto. }
  exists s1. split; auto. rewrite C1 in M. destruct (conflict s) eqn:Cf; [|subst sm; auto].
  destruct M as ((rcm & M) & _). exists rcm, sm. split; auto.
  exists s, fuel. split; auto. split; auto. split; auto. split; auto. specialize (PL C1). lia.
Qed.

Lemma nc_step_noted c clk r p rc s fuel rc' s' :
  wf p -> no_repeats p -> watch c = false -> lenient c = true -> nc_reached c clk r p rc s ->
  nc_iter fuel c clk r rc s = Ok (inr (rc', s')) ->
  if conflict s then exists s1 rc1 s2, check_time clk s = (false, s1) /\ nc_conflict_at c clk r p rc s1 rc1 s2 /\
    backtracks s' = backtracks s2 /\ accounted s2 s'
  else backtracks s' = backtracks s /\ accounted s s'.
Proof.
  intros W ND Hw Le R E. destruct (nc_step_full c clk r p rc s fuel rc' s') as (s1 & CT & X); auto.
  destruct (conflict s).
  - destruct X as (rc1 & s2 & H & N). exists s1, rc1, s2. split; auto. split; auto.
    split; [|apply N]. pose proof (no_out _ _ N). congruence.
  - assert (S1 : s1 = set_tick s (S (tick s))) by (unfold check_time in CT; congruence). subst s1.
    split; [pose proof (no_out _ _ X) as O; cbn in O; congruence|]. exact (no_acc _ _ X).
Qed.

Lemma nc_conflict_forgets c clk r p rc s rc' s' :
  wf p -> no_repeats p -> watch c = false -> lenient c = true -> nc_conflict_at c clk r p rc s rc' s' ->
  backtracks s' = backtracks s + 1 /\ forall k, total_of k s' = total_of k s /\ entries k s' <= entries k s.
Proof.
  intros W ND Hw Le H. destruct (nc_conflict_at_ok c clk r p rc s rc' s' W ND Hw Le H) as (t0 & C & lv & _ & I & J & _).
  destruct H as (s0 & fuel & _ & _ & _ & _ & E). apply nc_conflict_stats in E. destruct E as (B & ST). split; auto.
  intro k. split; [unfold stats in ST; destruct k; cbn [total_of]; congruence|].
  apply (cut_entries (level s')); [apply (cs_TD _ (ni_CS _ _ _ I))|apply J].
Qed.

Lemma wl_step_full c clk r p rc s fuel rc' s' :
  wf p -> no_repeats p -> watch c = true -> lenient c = true -> heur c <> BK -> wl_reached c clk r p rc s ->
  wl_iter fuel c clk r rc s = Ok (inr (rc', s')) ->
  exists s1, check_time clk s = (false, s1) /\
    if conflict s then exists rc1 s2, wl_conflict_at c clk r p rc s1 rc1 s2 /\ noted s2 s' else noted s1 s'.
Proof.
  intros W ND Hw Le NB R E. destruct (wl_reached_ok c clk r p rc s W ND Hw Le NB R) as (t0 & _ & I & RS).
  unfold wl_iter in E. destruct (check_time clk s) as (late, s1) eqn:CT.
  destruct late; [discriminate|]. assert (S1 : s1 = set_tick s (S (tick s))) by (unfold check_time in CT; congruence).
  assert (I1 : WI t0 (clauses p) s1) by (subst s1; apply WI_tick; auto).
  assert (RS1 : rs_ok r rc s1) by (subst s1; exact RS).
  assert (C1 : conflict s1 = conflict s) by (subst s1; reflexivity).
  assert (L1 : level s1 = level s) by (subst s1; reflexivity).
  assert (B1 : backtracks s1 = backtracks s) by (subst s1; reflexivity).
  destruct (conflict s1 && (level s1 =? 0)) eqn:CL; [discriminate|].
  apply bind_ok in E. destruct E as ((s2, rc2) & E2 & E).
  assert (PL : conflict s1 = true -> 1 <= level s1) by (intro; eapply wpos_level; eauto).
  destruct (wl_forward fuel c r rc s1 t0 (clauses p) rc2 s2 Hw Le NB I1 RS1 PL E2) as (sm & N & D2 & M).
  assert (IU : WI t0 (clauses p) s2 /\ (conflict s2 = true \/ ulist s2 = [])).
  { destruct (wl_front_ok c r rc s1 t0 (clauses p) Hw Le I1 RS1 PL) as (N0 & s3 & rc3 & E3 & I3 & _ & U3 & _).
    assert (X : (s2, rc2) = (s3, rc3)); [|injection X as -> ->; auto].
    apply (settled_ok (fun f => wl_front f c r rc s1) N0 _ _ fuel); auto. intros; apply wl_front_below; auto. }
  destruct IU as (I2 & U2).
  assert (F : noted sm s').
  { destruct (conflict s2) eqn:Cf2; [injection E as <- <-; auto|].
    apply bind_ok in E. destruct E as ((s3, l) & E3 & E).
    destruct (choose_wl_ok c s2 NB (wi_CS _ _ _ I2) Cf2) as (rr & l' & E5 & CO).
    { destruct U2; auto; congruence. } { apply I2. }
    assert (X : (s3, l) = (set_uclause s2 rr, l')) by congruence. injection X as -> ->.
    destruct (lvar l' =? -1) eqn:LV; [discriminate|].
    apply Z.eqb_neq in LV. destruct CO as [(CO & _)|(_ & _ & CO)]; [congruence|].
    apply bind_ok in E. destruct E as (s4 & E4 & E). injection E as <- <-.
    apply wdec_noted in E4; auto; [|apply N]. destruct E4 as (N4 & D4). eapply noted_trans; eauto. }
  exists s1. split; auto. rewrite C1 in M. destruct (conflict s) eqn:Cf; [|subst sm; auto].
  destruct M as ((rcm & M) & _). exists rcm, sm. split; auto.
  exists s, fuel. split; auto. split; auto. split; auto. split; auto. specialize (PL C1). lia.
Qed.

Lemma wl_step_noted c clk r p rc s fuel rc' s' :
  wf p -> no_repeats p -> watch c = true -> lenient c = true -> heur c <> BK -> wl_reached c clk r p rc s ->
  wl_iter fuel c clk r rc s = Ok (inr (rc', s')) ->
  if conflict s then exists s1 rc1 s2, check_time clk s = (false, s1) /\ wl_conflict_at c clk r p rc s1 rc1 s2 /\
    backtracks s' = backtracks s2 /\ accounted s2 s'
  else backtracks s' = backtracks s /\ accounted s s'.
Proof.
  intros W ND Hw Le NB R E. destruct (wl_step_full c clk r p rc s fuel rc' s') as (s1 & CT & X); auto.
  destruct (conflict s).
  - destruct X as (rc1 & s2 & H & N). exists s1, rc1, s2. split; auto. split; auto.
    split; [|apply N]. pose proof (no_out _ _ N). congruence.
  - assert (S1 : s1 = set_tick s (S (tick s))) by (unfold check_time in CT; congruence). subst s1.
    split; [pose proof (no_out _ _ X) as O; cbn in O; congruence|]. exact (no_acc _ _ X).
Qed.

Lemma wl_conflict_forgets c clk r p rc s rc' s' :
  wf p -> no_repeats p -> watch c = true -> lenient c = true -> heur c <> BK -> wl_conflict_at c clk r p rc s rc' s' ->
  backtracks s' = backtracks s + 1 /\ forall k, total_of k s' = total_of k s /\ entries k s' <= entries k s.
Proof.
  intros W ND Hw Le NB H. destruct (wl_conflict_at_ok c clk r p rc s rc' s' W ND Hw Le NB H) as (t0 & C & lv & _ & I & J & _).
  destruct H as (s0 & fuel & _ & _ & _ & _ & E). apply wl_conflict_stats in E. destruct E as (B & ST). split; auto.
  intro k. split; [unfold stats in ST; destruct k; cbn [total_of]; congruence|].
  apply (cut_entries (level s')); [apply (wc_TD _ (wi_CS _ _ _ I))|apply J].
Qed.

(** Every entry of the decision stack has an origin. *)
Lemma origins s cls : TR (tr s) cls ->
  entries Decided s + entries Propagated s + entries Entailed s = Z.of_nat (length (DST (tr s))).
Proof.
  intro T. unfold entries.
  assert (H : forall f, In f (DST (tr s)) -> CID (tr s) (lvar f) (lval f) <> RUndef).
  { intros f Hf. apply In_nth_error in Hf. destruct Hf as (i & Hi). specialize (T i f Hi).
    unfold reason_ok in T. destruct (CID (tr s) (lvar f) (lval f)); try discriminate. contradiction. }
  revert H. generalize (DST (tr s)) as ls. induction ls as [|f ls IH]; intro H; [reflexivity|].
  specialize (IH (fun x Hx => H x (or_intror Hx))). specialize (H f (or_introl eq_refl)).
  cbn [filter length]. cbn [has_origin] in IH |- *. destruct (CID (tr s) (lvar f) (lval f)); cbn [length]; try congruence; lia.
Qed.

Lemma final_origins c clk r p fuel rep s :
  setting NonChrono c -> input NonChrono p -> solve fuel NonChrono c clk r p = Ok (rep, s) ->
  entries Decided s + entries Propagated s + entries Entailed s = Z.of_nat (length (DST (tr s))).
Proof.
  intros (Le & NB) (W & ND) E. specialize (ND eq_refl). apply solve_shows in E. destruct E as (s0 & EB0 & E & _).
  destruct (build_ok c p W) as (t & s1 & EB & ST & B). assert (s1 = s0) by congruence. subst s1.
  destruct (bu_misc _ _ _ _ B) as (L0 & _ & _ & B0 & _ & _ & _ & R0 & T0).
  cbn [run_search] in E. destruct (watch c) eqn:Hw.
  - pose proof (start_WI c p t s0 W ND Hw ST B) as H0.
    destruct (wl_loop_ok c clk r t (clauses p) s0 r Hw Le (NB eq_refl) H0 (rs_start r s0 R0 B0))
      as (N & v & s1 & E1 & (F1 & _) & _).
    assert (X : (r_verdict rep, s) = (v, s1)).
    { apply (settled_ok (fun f => wl_loop f c clk r r s0) N _ _ fuel); auto. intros; apply wl_loop_below; auto. }
    injection X as _ ->. eapply origins. apply F1.
  - pose proof (start_NI c p t s0 W ND Hw ST B) as H0.
    destruct (nc_loop_ok c clk r t (clauses p) s0 r Hw Le H0 (rs_start r s0 R0 B0))
      as (N & v & s1 & E1 & (F1 & _) & _).
    assert (X : (r_verdict rep, s) = (v, s1)).
    { apply (settled_ok (fun f => nc_loop f c clk r r s0) N _ _ fuel); auto. intros; apply nc_loop_below; auto. }
    injection X as _ ->. eapply origins. apply F1.
Qed.
