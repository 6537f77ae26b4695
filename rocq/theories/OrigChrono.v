(** * Chronological search of the first version *)

From Verif Require Import Spec Outcome State ModelCounter ModelHeur ModelLearn ModelWatch
  ModelSearch ModelBuild ModelOrig
  Base Trail Reduce Counter CounterUndo Propagate Choose Scores Chrono OrigSim OrigProp.

(** Assigned atoms keep their values. *)
Definition kept (t t' : trail) : Prop :=
  forall v d, range t v d -> ASG t v d <> Un -> ASG t' v d = ASG t v d.

Lemma ext_kept t t' : ext t t' -> kept t t'.
Proof. intros E v d _ A. apply E; auto. Qed.

Lemma kept_trans t1 t2 t3 : NV t2 = NV t1 -> DOM t2 = DOM t1 -> kept t1 t2 -> kept t2 t3 -> kept t1 t3.
Proof.
  intros N D H1 H2 v d Rd A. rewrite H2.
  - apply H1; auto.
  - destruct Rd; split; congruence.
  - rewrite H1; auto.
Qed.

Definition ochp (clk : nat -> bool) (o0 : orig) (s0 : state) (lev : Z) (q : verdict * orig) : Prop :=
  let (v, o) := q in
  exists s, R o s /\ optr o = PIgnore /\ (tick s0 <= tick s)%nat /\
    decisions (ost o0) <= decisions (ost o) /\
    cl s = cl s0 /\ NV (tr s) = NV (tr s0) /\ DOM (tr s) = DOM (tr s0) /\
    match v with
    | SAT => kept (tr s0) (tr s) /\ CS s /\ conflict s = false /\ (omsg o = true \/ all_sat s)
    | TIMEOUT => exists k, (tick s0 <= k)%nat /\ clk k = true
    | UNSAT => unsat_post s0 lev s /\ omsg o = omsg o0
    end.

(** What is left of ChronoBacktrack after the propagation, if there is no conflict. *)
Definition o_rest (f : nat) (clk : nat -> bool) (o : orig) : outcome (verdict * orig) :=
  let (o, c) := o_choose o in
  match c with
  | None => Ok (SAT, set_omsg o)
  | Some l =>
      let* o := o_decide o l in
      let* res := o_chrono f clk o (level (ost o)) in
      let (v, o) := res in
      match v with
      | SAT => Ok (SAT, o)
      | TIMEOUT => Ok (TIMEOUT, o)
      | UNSAT =>
          if level (ost o) =? 0 then Ok (UNSAT, o)
          else
            let* o := o_reduce o (neg l) in
            o_chrono f clk o (level (ost o))
      end
  end.

(** The state after the propagation. *)
Record mid (o : orig) (s : state) (o3 : orig) (s3 : state) : Prop := mkMid {
  md_R : R o3 s3;
  md_CS : CS s3;
  md_cf : conflict s3 = false;
  md_ul : ulist s3 = [];
  md_cl : cl s3 = cl s;
  md_level : level s3 = level s;
  md_tick : (tick s <= tick s3)%nat;
  md_ext : ext (tr s) (tr s3);
  md_new : newlev (tr s) (level s) (tr s3);
  md_un : (unass (tr s3) <= unass (tr s))%nat;
  md_ent : entails_from (tr s) (cl s) (tr s3);
  md_keep : keepp o o3;
  md_same : ulist s = [] -> cnt (ost o3) = cnt (ost o) /\ tr (ost o3) = tr (ost o) /\ osat o3 = osat o
}.

Lemma front clk o s lev :
  R o s -> CS s -> optr o = PIgnore -> level s = lev ->
  (exists N q, (forall fuel, (N <= fuel)%nat -> o_chrono fuel clk o lev = Ok q) /\
     ochp clk o s lev q /\
     (fst q = UNSAT -> dead (tr s) (cl s)) /\
     (ulist s = [] -> conflict s = false -> o_check_sat o = false -> fst q = TIMEOUT) /\
     (fst q = SAT -> omsg (snd q) = omsg o /\
        exists s', R (snd q) s' /\ CS s' /\ conflict s' = false /\ all_sat s' /\
          NV (tr s') = NV (tr s) /\ DOM (tr s') = DOM (tr s) /\ cl s' = cl s)) \/
  (exists N o3 s3, (forall f, (N <= f)%nat -> o_chrono (S f) clk o lev = o_rest f clk o3) /\
     mid o s o3 s3).
Proof.
  intros HR H Pt Lv.
  pose proof HR as ((HRc & HT) & HDs & HV).
  set (o1 := on o (set_level (ost o) lev)).
  assert (R1 : R o1 s) by (Ron s; simpl; try apply HRc; auto).
  destruct (o_check_sat o1) eqn:C1.
  { left. exists 1%nat, (SAT, o1).
    destruct (check_sat_sim _ _ R1 H C1) as (AS & Cf).
    split; [|split; [|split; [|split]]].
    - intros [|f] Hf; [lia|]. cbn [o_chrono]. fold o1. rewrite C1. auto.
    - exists s. split; auto. split; auto. split; auto. split; [simpl; lia|].
      repeat (split; [auto; fail|]). split; [intros v d _ _; auto|auto].
    - discriminate.
    - intros _ _ X. change (o_check_sat o1) with (o_check_sat o) in C1. congruence.
    - intros _. split; auto. exists s. auto 10. }
  set (s1 := set_tick s (S (tick s))).
  set (o2 := on o1 (set_tick (ost o1) (S (tick (ost o1))))).
  assert (R2 : R o2 s1).
  { Ron s; simpl; try apply HRc; auto. rewrite (rc_tick _ _ HRc); auto. }
  assert (H1 : CS s1) by (apply (CS_eq s); [split; auto|auto]).
  assert (TM1 : o_time clk o1 = (clk (tick s), o2)).
  { unfold o_time, check_time, o2. simpl. rewrite (rc_tick _ _ HRc). auto. }
  destruct (clk (tick s)) eqn:K1.
  { left. exists 1%nat, (TIMEOUT, o2). split; [|split; [|split; [|split]]]; try discriminate; auto.
    - intros [|f] Hf; [lia|]. cbn [o_chrono]. fold o1. rewrite C1.
      rewrite TM1. reflexivity.
    - exists s1. split; auto. split; auto. split; [simpl; lia|]. split; [simpl; lia|].
      repeat (split; [auto; fail|]). exists (tick s). auto. }
  destruct (units_sim o2 s1 R2 H1 Pt) as (N & s2 & o3 & E2 & R3 & K3 & [H2 F2 X2 W2 M2 U2 A2] & SM).
  change (tr s1) with (tr s) in *. change (cl s1) with (cl s) in *. change (level s1) with (level s) in *.
  assert (T12 : tick s2 = S (tick s)) by apply (fu_tick _ _ F2).
  assert (Cl2 : cl s2 = cl s) by apply (fu_cl _ _ F2).
  assert (Lv2 : level s2 = lev) by (rewrite (fu_level _ _ F2); auto).
  assert (NV2 : NV (tr s2) = NV (tr s)) by apply X2.
  assert (DM2 : DOM (tr s2) = DOM (tr s)) by apply X2.
  assert (Dc3 : decisions (ost o3) = decisions (ost o)) by apply (kq_dec _ _ K3).
  assert (Pt3 : optr o3 = PIgnore) by (rewrite (kq_ptr _ _ K3); auto).
  assert (Ms3 : omsg o3 = omsg o) by apply (kq_msg _ _ K3).
  assert (BEG : forall f, (N <= S f)%nat -> o_chrono (S f) clk o lev =
      if o_check_sat o3 then Ok (SAT, o3) else
      let (late, o) := o_time clk o3 in
      if late then Ok (TIMEOUT, o)
      else if conflict (ost o) then
        let s := set_backtracks (ost o) (backtracks (ost o) + 1) in
        let s := set_conflict s false in
        let* o := o_undo (on o s) (level s - 1) in
        Ok (UNSAT, on o (set_level (ost o) (level (ost o) - 1)))
      else o_rest f clk o).
  { intros f Hf. cbn [o_chrono]. fold o1. rewrite C1, TM1.
    rewrite E2 by auto. cbn [bind]. destruct (o_check_sat o3); auto. }
  destruct (o_check_sat o3) eqn:C3.
  { left. exists (S N), (SAT, o3).
    destruct (check_sat_sim _ _ R3 H2 C3) as (AS & Cf).
    split; [|split; [|split; [|split]]].
    - intros [|f] Hf; [lia|]. rewrite BEG by lia. auto.
    - exists s2. split; auto. split; auto. split; [lia|]. split; [lia|].
      repeat (split; [auto; fail|]). split; [apply ext_kept; auto|auto].
    - discriminate.
    - intros U _ X. destruct (SM U) as (-> & _).
      change (o_check_sat o2) with (o_check_sat o) in C3. congruence.
    - intros _. split; auto. exists s2. auto 10. }
  pose proof R3 as ((RC3 & _) & _).
  set (s4 := set_tick s2 (S (tick s2))).
  set (o4 := on o3 (set_tick (ost o3) (S (tick (ost o3))))).
  assert (R4 : R o4 s4).
  { Ron s2; simpl; try apply RC3; auto. rewrite (rc_tick _ _ RC3); auto. }
  assert (H4 : CS s4) by (apply (CS_eq s2); [split; auto|auto]).
  assert (TM : o_time clk o3 = (clk (tick s2), o4)).
  { unfold o_time, check_time. rewrite (rc_tick _ _ RC3). unfold o4. rewrite (rc_tick _ _ RC3). auto. }
  rewrite TM in BEG.
  destruct (clk (tick s2)) eqn:K2.
  { left. exists (S N), (TIMEOUT, o4). split; [|split; [|split; [|split]]]; try discriminate; auto.
    - intros [|f] Hf; [lia|]. rewrite BEG by lia. auto.
    - exists s4. split; auto. split; auto. split; [simpl; lia|]. split; [simpl; lia|].
      repeat (split; [auto; fail|]). exists (tick s2). split; auto. lia. }
  change (conflict (ost o4)) with (conflict (ost o3)) in BEG. rewrite (rc_conflict _ _ RC3) in BEG.
  destruct (conflict s2) eqn:Cf.
  2: { right. exists N, o4, s4. split.
       - intros f Hf. apply BEG. lia.
       - split; auto; try (simpl; lia).
         + split; [exact Dc3|simpl; congruence|exact Ms3].
         + intro U. destruct (SM U) as (-> & _). auto. }
  (* conflict *)
  left.
  pose proof (cs_lev _ H) as L0. rewrite Lv in *.
  set (s5 := set_conflict (set_backtracks s4 (backtracks s4 + 1)) false).
  set (o5 := on o4 (set_conflict (set_backtracks (ost o4) (backtracks (ost o4) + 1)) false)).
  assert (R5 : R o5 s5).
  { Ron s4; simpl; try apply RC3; auto. rewrite (rc_tick _ _ RC3); auto. }
  assert (S5 : SI s5) by (destruct (CS_si _ H4); split; auto).
  assert (C5 : CI s5) by (exact (CS_ci _ H4)).
  destruct (undo_theory_ok cL s5 (lev - 1) (level s5) (fun _ => conflict s4 = true) S5 C5)
    as (t' & x & y & z & E6 & CU & CI6).
  { exact (cs_TB _ H4). }
  { exact (cs_TD _ H4). }
  { lia. }
  set (s6 := set_cnt (set_clev (set_num (set_tr s5 t') x) y) z) in *.
  destruct (undo_sim (lev - 1) (level s5) (fun _ => conflict s4 = true) o5 s5 s6)
    as (o6 & G6 & R6 & K6); auto; [lia|exact (cs_TB _ H4)|].
  set (s7 := set_level s6 (level s6 - 1)).
  set (o7 := on o6 (set_level (ost o6) (level (ost o6) - 1))).
  pose proof R6 as ((RC6 & _) & _).
  assert (R7 : R o7 s7).
  { Ron s6; simpl; try apply RC6; auto. rewrite (rc_level _ _ RC6); auto. }
  assert (B1 : TB (tr s) lev (fun _ => True)).
  { rewrite <- Lv. eapply TB_weaken; [apply (cs_TB _ H)|auto]. }
  assert (B2 : TB (tr s2) lev (fun _ => True)).
  { rewrite <- Lv2. eapply TB_weaken; [apply (cs_TB _ H2)|auto]. }
  assert (UT : upto (tr s) (lev - 1) t').
  { apply (ext_upto (tr s) (tr s2) (lev - 1) lev (fun _ => True)); auto; try lia.
    apply cut_upto. exact CU. }
  assert (DEAD : dead (tr s) (cl s)).
  { intros a La Ha Aa. apply (conflict_dead s2 H2 Cf a).
    - apply (legalT_dom a (tr s)); auto.
    - rewrite Cl2; auto.
    - apply A2; auto. }
  exists (S N), (UNSAT, o7). split; [|split; [|split; [|split]]]; auto; try discriminate.
  3: { intros U X _. destruct (SM U) as (_ & ->). change (conflict s1) with (conflict s) in Cf. congruence. }
  { intros [|f] Hf; [lia|]. rewrite BEG by lia. cbv zeta. fold o5.
    change (level (set_conflict _ _)) with (level (ost o3)).
    rewrite (rc_level _ _ RC3), Lv2, G6. reflexivity. }
  exists s7. split; auto. split; [simpl; rewrite (kr_ptr _ _ K6); auto|].
  split; [simpl; lia|]. split; [simpl; rewrite (kr_dec _ _ K6); simpl; lia|].
  split; auto. split; [simpl; rewrite (cut_nv _ _ _ CU); auto|].
  split; [simpl; rewrite (cut_dom _ _ _ CU); auto|].
  split; [|simpl; rewrite (kr_msg _ _ K6); auto].
  split; auto. split; auto. split; auto. split; auto. split; [simpl; rewrite Lv2; auto|]. split; auto.
  intro L1.
  assert (TB5 : TB t' (lev - 1) (fun _ => conflict s7 = true)).
  { apply (cut_TB (tr s2) (lev - 1) t' lev (fun _ => conflict s4 = true)); auto.
    - rewrite <- Lv2. apply (cs_TB _ H2).
    - lia. }
  assert (CLO5 : CLO t' (cl s2) (lev - 1)).
  { apply (CLO_cut (tr s2) (lev - 1) t' (cl s2) lev); auto.
    - apply (si_ok _ (CS_si _ H2)).
    - lia.
    - rewrite <- Lv2. apply (cs_clo _ H2). }
  assert (W5 : cls_ok t' (cl s2)).
  { intros k Hk l Hl. apply (cut_range (tr s2) (lev - 1)); auto. apply (si_ok _ (CS_si _ H2) k); auto. }
  split.
  - split; [destruct S5; split; auto|]. split; [exact CI6|].
    split; simpl; try (intros; tauto); try discriminate.
    + rewrite U2. simpl. tauto.
    + rewrite U2. simpl. tauto.
    + intros _ n k Hn Cn. left. destruct (CI6 n k Hn) as [(_ & Q2 & Q3)|(Q1 & _)]; [|simpl in Q1; lia].
      simpl in Q2, Q3. rewrite Q3.
      assert (Hk : In k (cl s2)) by (eapply nth_error_In; eauto).
      destruct (clo_cut (tr s2) (lev - 1) t' (lev - 1) k) as [(w & Hw & Tw & _)|T2]; auto.
      * intros l Hl. apply (si_ok _ (CS_si _ H2) k); auto.
      * lia.
      * apply (cs_clo _ H2); auto. lia.
      * rewrite (Q2 w Hw) in Tw. discriminate.
      * assert (countb (notfalse t' (lev - 1)) k <= countb (lit_un t') k)%nat; [|lia].
        apply countb_le. intros l Hl Fl. unfold notfalse in Fl.
        destruct (lit_cases t' l) as [(X & _)|[(_ & X & _)|(_ & X & X')]]; auto.
        -- rewrite (Q2 l Hl) in X; discriminate.
        -- exfalso. rewrite X' in Fl. simpl in Fl. apply negb_true_iff in Fl. apply Z.leb_gt in Fl.
           assert (0 <= llev t' l <= lev - 1); [|lia].
           apply TB5; [apply (W5 k); auto|]. apply lit_false_as; auto.
  - simpl. rewrite Lv2. exact TB5.
  - simpl. eapply cut_TD; [apply (cs_TB _ H2)|apply (cs_TD _ H2)|exact CU|lia].
  - simpl. rewrite Lv2. lia.
  - simpl. rewrite Lv2. exact CLO5.
Qed.

Lemma decide_sim o s o3 s3 l :
  mid o s o3 s3 -> optr o = PIgnore -> snd (o_choose o3) = Some l ->
  exists s5 o5, o_decide (fst (o_choose o3)) l = Ok o5 /\ R o5 s5 /\ CS s5 /\
    level s5 = level s + 1 /\ cl s5 = cl s /\ tick s5 = tick s3 /\
    ext (tr s3) (tr s5) /\ newlev (tr s3) (level s + 1) (tr s5) /\
    (unass (tr s5) < unass (tr s3))%nat /\ lit_true (tr s5) l = true /\
    lrange (tr s3) l /\ ASG (tr s3) (lvar l) (lval l) = Un /\
    (forall a, legalT a (tr s3) -> agree a (tr s3) -> lit_holds a l -> agree a (tr s5)) /\
    decisions (ost o5) = decisions (ost o) + 1 /\ optr o5 = PIgnore /\ omsg o5 = omsg o.
Proof.
  intros M Pt Ech. destruct M.
  destruct (choose_sim o3 s3 l md_R0 md_CS0 md_cf0 Ech) as (_ & Rl & Ul).
  destruct (decide_ok cL s3 l RDec (decisions s3 + 1) md_CS0 md_cf0 md_ul0 Rl Ul)
    as (s5 & E5 & H5 & Lv5 & F5 & X5 & W5 & M5 & T5 & _ & A5).
  pose proof (cs_lev _ md_CS0) as L0.
  assert (HB := TB_noconf _ _ _ (cs_TB _ md_CS0) md_cf0).
  unfold o_decide, o_choose. cbn [fst].
  set (so := set_decisions (ost (on o3 (set_uclause (ost o3) RDec)))
               (decisions (ost (on o3 (set_uclause (ost o3) RDec))) + 1)).
  set (o4 := on (on o3 (set_uclause (ost o3) RDec)) (set_level so (level so + 1))).
  set (s4 := at_next s3 RDec (decisions s3 + 1)).
  pose proof md_R0 as ((RC & _) & _).
  assert (R4 : R o4 s4).
  { apply (R_on (on o3 (set_uclause (ost o3) RDec)) s3); simpl; try apply RC; auto.
    - rewrite (rc_level _ _ RC). auto.
    - Ron s3; simpl; apply RC. }
  destruct (reduce_sim [] o4 s4 l) as (s5' & o5 & F & G & R5 & K5); auto.
  { destruct (cs_J _ md_CS0) as ([] & HC & []). split; [split; auto|]. split; [exact HC|split; auto]. }
  { simpl. eapply TB_level; eauto. lia. }
  { apply (cs_TD _ md_CS0). }
  { simpl; lia. }
  { simpl. rewrite (kq_ptr _ _ md_keep0). auto. }
  fold s4 in E5. rewrite E5 in F. injection F as ->.
  exists s5', o5. split; auto. split; auto. split; auto. rewrite <- md_level0.
  split; auto. split; [rewrite (fr_cl _ _ F5); auto|]. split; [rewrite (fr_tick _ _ F5); auto|].
  do 7 (split; auto).
  split; [rewrite (kr_dec _ _ K5); simpl; rewrite (kq_dec _ _ md_keep0); auto|].
  split; [rewrite (kr_ptr _ _ K5); simpl; rewrite (kq_ptr _ _ md_keep0); auto|].
  rewrite (kr_msg _ _ K5). simpl. apply (kq_msg _ _ md_keep0).
Qed.

Lemma ochrono_ok clk : forall un o s lev, unass (tr s) = un ->
  1 <= lev -> R o s -> CS s -> optr o = PIgnore -> level s = lev ->
  exists N q, (forall fuel, (N <= fuel)%nat -> o_chrono fuel clk o lev = Ok q) /\
    ochp clk o s lev q.
Proof.
  induction un as [un IH] using lt_wf_ind. intros o s lev Eu L1 HR H Pt Lv.
  destruct (front clk o s lev HR H Pt Lv) as [(N & q & E & P & _)|(N1 & o3 & s3 & STEP & M)]; eauto.
  pose proof M as [R3 H3 Cf Ul Cl3 Lv3 Tk3 X3 W3 M3 A3 K3 _].
  assert (NV3 : NV (tr s3) = NV (tr s)) by apply X3.
  assert (DM3 : DOM (tr s3) = DOM (tr s)) by apply X3.
  rewrite Lv in *.
  assert (B1 : TB (tr s) lev (fun _ => True)).
  { rewrite <- Lv. eapply TB_weaken; [apply (cs_TB _ H)|auto]. }
  assert (B3 : TB (tr s3) lev (fun _ => True)).
  { rewrite <- Lv3. eapply TB_weaken; [apply (cs_TB _ H3)|auto]. }
  unfold o_rest in STEP. rewrite (surjective_pairing (o_choose o3)) in STEP.
  pose proof (kq_dec _ _ K3) as Dc3.
  destruct (snd (o_choose o3)) as [l|] eqn:Ech.
  2: { exists (S N1), (SAT, set_omsg (fst (o_choose o3))). split.
       { intros [|f] Hf; [lia|]. apply STEP. lia. }
       exists s3.
       assert (R3' : R (set_omsg (fst (o_choose o3))) s3).
       { unfold o_choose. cbn [fst]. destruct R3 as (([] & T) & D & V).
         split; [split; [split; auto|auto]|split; auto]. }
       split; auto. split; [simpl; rewrite (kq_ptr _ _ K3); auto|]. split; auto.
       split; [simpl; lia|]. repeat (split; [auto; fail|]).
       split; [apply ext_kept; auto|]. split; auto. }
  destruct (decide_sim o s o3 s3 l M Pt Ech) as
    (s5 & o5 & E5 & R5 & H5 & Lv5 & Cl5 & Tk5 & X5 & W5 & M5 & T5 & Rl & Ul' & A5 & Dc5 & Pt5 & Ms5).
  rewrite Lv in *. rewrite E5 in STEP. cbn [bind] in STEP.
  assert (LO5 : level (ost o5) = lev + 1).
  { pose proof R5 as ((RC & _) & _). rewrite (rc_level _ _ RC). auto. }
  rewrite LO5 in STEP.
  destruct (IH (unass (tr s5))) with (o := o5) (s := s5) (lev := lev + 1) as (N2 & (v & o6) & E6 & P6);
    auto; try lia.
  destruct P6 as (s6 & R6 & Pt6 & K6 & Dc6 & CL6 & NV6 & DM6 & P6).
  assert (NV5 : NV (tr s5) = NV (tr s)) by (rewrite (ext_nv _ _ X5); auto).
  assert (DM5 : DOM (tr s5) = DOM (tr s)) by (rewrite (ext_dom _ _ X5); auto).
  destruct v.
  - (* SAT *)
    exists (S (N1 + N2)), (SAT, o6). split.
    { intros [|f] Hf; [lia|]. rewrite STEP, E6 by lia. reflexivity. }
    destruct P6 as (Q0 & Q1 & Q2 & Q3).
    exists s6. split; auto. split; auto. split; [lia|]. split; [lia|]. split; [congruence|].
    split; [congruence|]. split; [congruence|]. split; auto.
    apply (kept_trans _ (tr s5)); auto. apply (kept_trans _ (tr s3)); auto; apply ext_kept; auto.
  - (* TIMEOUT *)
    exists (S (N1 + N2)), (TIMEOUT, o6). split.
    { intros [|f] Hf; [lia|]. rewrite STEP, E6 by lia. reflexivity. }
    destruct P6 as (k & Q1 & Q2).
    exists s6. split; auto. split; auto. split; [lia|]. split; [lia|]. split; [congruence|].
    split; [congruence|]. split; [congruence|]. exists k. split; auto. lia.
  - (* UNSAT: try the other side *)
    destruct P6 as ((D6 & _ & Cf6 & Ul6 & Lv6 & U6 & H6) & Ms6).
    replace (lev + 1 - 1) with lev in * by lia.
    specialize (H6 ltac:(lia)).
    assert (UT : upto (tr s3) lev (tr s6)).
    { apply (ext_upto (tr s3) (tr s5) lev (lev + 1) (fun _ => True)); auto; try lia.
      - apply (TB_level (tr s3) lev); auto; try lia. rewrite <- Lv3.
        apply (TB_noconf _ _ (conflict s3)); auto. apply (cs_TB _ H3).
      - rewrite <- Lv5. eapply TB_weaken; [apply (cs_TB _ H5)|auto]. }
    assert (SM : forall v d, range (tr s3) v d -> ASG (tr s6) v d = ASG (tr s3) v d).
    { eapply upto_same; eauto; lia. }
    assert (NV63 : NV (tr s6) = NV (tr s3)) by apply UT.
    assert (DM63 : DOM (tr s6) = DOM (tr s3)) by apply UT.
    assert (J6 : JC [] s6) by apply (cs_J _ H6).
    assert (B6 : TB (tr s6) (level s6) (fun _ => False)).
    { apply (TB_noconf _ _ (conflict s6)); auto. apply (cs_TB _ H6). }
    assert (Rl6 : lrange (tr s6) (neg l)).
    { unfold lrange, range. simpl. rewrite NV63, DM63. exact Rl. }
    assert (Ul6' : ASG (tr s6) (lvar (neg l)) (lval (neg l)) = Un) by (simpl; rewrite SM; auto).
    assert (L6 : 0 <= level s6) by lia.
    destruct (reduce_theory_ok [] cL s6 (neg l) J6 B6 (cs_TD _ H6) L6 Rl6 Ul6')
      as (s7 & E7 & J7 & F7 & X7 & W7 & D7 & B7 & T7 & M7 & _ & A7).
    destruct (reduce_sim [] o6 s6 (neg l) R6 J6 B6 (cs_TD _ H6) L6 Rl6 Ul6' Pt6)
      as (s7' & o7 & E7' & G7 & R7 & K7).
    rewrite E7 in E7'. injection E7' as <-.
    assert (Lv7 : level s7 = lev) by (rewrite (fr_level _ _ F7); auto).
    assert (Cl7 : cl s7 = cl s) by (rewrite (fr_cl _ _ F7); congruence).
    assert (H7 : CS s7).
    { split; auto.
      - rewrite (fr_level _ _ F7). auto.
      - lia.
      - rewrite (fr_level _ _ F7), (fr_cl _ _ F7). apply (CLO_ext (tr s6)); auto. apply (cs_clo _ H6). }
    assert (Un6 : unass (tr s6) = unass (tr s3)) by (apply unass_same; auto).
    assert (LO6 : level (ost o6) = lev).
    { pose proof R6 as ((RC & _) & _). rewrite (rc_level _ _ RC). auto. }
    assert (LO7 : level (ost o7) = lev).
    { pose proof R7 as ((RC & _) & _). rewrite (rc_level _ _ RC). auto. }
    destruct (IH (unass (tr s7))) with (o := o7) (s := s7) (lev := lev) as (N3 & (v & o8) & E8 & P8); auto; try lia.
    { rewrite (kr_ptr _ _ K7). auto. }
    exists (S (N1 + N2 + N3)), (v, o8). split.
    { intros [|f] Hf; [lia|]. rewrite STEP, E6 by lia. cbn [bind].
      rewrite LO6. destruct (Z.eqb_spec lev 0); [lia|]. rewrite G7. cbn [bind]. rewrite LO7. apply E8. lia. }
    destruct P8 as (s8 & R8 & Pt8 & K8 & Dc8 & CL8 & NV8 & DM8 & P8).
    assert (tick s7 = tick s6) by apply (fr_tick _ _ F7).
    pose proof (ext_nv _ _ X7) as NV7. pose proof (ext_dom _ _ X7) as DM7.
    pose proof (kr_dec _ _ K7) as Dc7.
    exists s8. split; auto. split; auto. split; [lia|]. split; [lia|]. split; [congruence|].
    split; [congruence|]. split; [congruence|].
    destruct v.
    + destruct P8 as (Q0 & Q1 & Q2 & Q3). split; auto.
      apply (kept_trans _ (tr s3)); auto; [apply ext_kept; auto|].
      apply (kept_trans _ (tr s6)); auto; [intros v d Rd _; auto|].
      apply (kept_trans _ (tr s7)); auto; apply ext_kept; auto.
    + destruct P8 as (k & Q1 & Q2). exists k. split; auto. lia.
    + destruct P8 as ((D8 & _ & Cf8 & Ul8 & Lv8 & U8 & HH8) & Ms8).
      split; [|rewrite Ms8, (kr_msg _ _ K7); congruence].
      split.
      { intros a La Ha Aa.
        assert (Aa3 : agree a (tr s3)) by (apply A3; auto).
        assert (La3 : legalT a (tr s3)) by (apply (legalT_dom a (tr s)); auto).
        destruct (lit_holds_dec a l) as [Hl|Hl].
        - apply (D6 a).
          + apply (legalT_dom a (tr s3)); auto; apply X5.
          + rewrite Cl5; auto.
          + apply A5; auto.
        - assert (La6 : legalT a (tr s6)) by (apply (legalT_dom a (tr s3)); auto).
          apply (D8 a).
          + apply (legalT_dom a (tr s6)); auto.
          + rewrite Cl7; auto.
          + apply A7; auto; [apply (agree_same a (tr s3)); auto|]. apply lit_holds_neg; auto. }
      split; [congruence|]. split; auto. split; auto. split; auto. split; auto.
      apply (ext_upto (tr s) (tr s3) (lev - 1) lev (fun _ => True)); auto; try lia.
      assert (U68 : upto (tr s6) (lev - 1) (tr s8)).
      { apply (ext_upto (tr s6) (tr s7) (lev - 1) lev (fun _ => True)); auto; try lia.
        - rewrite <- Lv6. auto.
        - rewrite <- Lv6. eapply TB_weaken; [apply (cs_TB _ H6)|auto].
        - rewrite <- Lv7. eapply TB_weaken; [apply (cs_TB _ H7)|auto]. }
      eapply upto_trans; eauto; lia.
Qed.
