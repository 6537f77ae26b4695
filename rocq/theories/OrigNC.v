(** * The loop with restarts of the first version (NonChronoBacktrackLoop) *)

From Verif Require Import Spec WideSpec Outcome State ModelCounter ModelHeur ModelLearn ModelWatch
  ModelSearch ModelBuild ModelOrig
  Base Trail Reduce Counter CounterUndo Propagate Choose Scores Init Analyze Chrono Cdcl Solve
  OrigSpec OrigSim OrigProp OrigChrono OrigInit OrigSolve OrigPtr OrigCid OrigDrift.

(** ** Conflict analysis *)

Definition ends {A} (P : A -> Prop) (x : outcome A) : Prop :=
  match x with Ok a => P a | Undef u => u = OobStack | OutOfFuel => False end.

Lemma dst_at_ends s i : ends (fun l => 0 <= i < Z.of_nat (length (DST (tr s))) /\ In l (DST (tr s))) (dst_at s i).
Proof.
  unfold dst_at. destruct (Z.ltb_spec i 0); [reflexivity|].
  destruct (nth_error (DST (tr s)) (Z.to_nat i)) as [l|] eqn:E; [|reflexivity].
  split; [|eapply nth_error_In; eauto]. apply nth_error_lt in E. lia.
Qed.

Section Walk.
Variable s : state.
Hypothesis HD : forall l, In l (DST (tr s)) -> chk (tr s) l = Ok tt.
Hypothesis HC : forall v d m, CID (tr s) v d = RCls m -> (m < length (cl s))%nat.

Lemma walk_down_ends : forall f cid i, -1 <= i -> (Z.to_nat (i + 2) <= f)%nat -> (1 <= f)%nat ->
  (forall m, cid = Some m -> (m < length (cl s))%nat) ->
  ends (fun j => -1 <= j <= i) (o_walk_down f s cid i).
Proof.
  induction f as [|f IH]; intros cid i Hi Hf H1 Hc; [lia|]. cbn [o_walk_down].
  destruct cid as [n|]; [|simpl; lia]. unfold getcl.
  destruct (nth_error (cl s) n) as [c|] eqn:E; [|apply nth_error_None in E; specialize (Hc n eq_refl); lia].
  cbn [bind]. pose proof (dst_at_ends s i) as D. destruct (dst_at s i) as [l|u|]; simpl in D; [|exact D|destruct D].
  cbn [bind]. destruct D as (B & I). rewrite (HD l I). cbn [bind].
  assert (X : ends (fun j => -1 <= j <= i - 1) (o_walk_down f s
            (match CID (tr s) (lvar l) (lval l) with RCls m => Some m | _ => None end) (i - 1))).
  { apply IH; try lia. intros m. destruct (CID (tr s) (lvar l) (lval l)) eqn:Ec; try discriminate.
    intro Q. injection Q as <-. eapply HC; eauto. }
  destruct (o_walk_down _ _ _ _); simpl in *; auto. lia.
Qed.

Lemma walk_up_ends : forall f i, -1 <= i -> (Z.to_nat (Z.of_nat (length (DST (tr s))) - i) < f)%nat ->
  ends (fun l => In l (DST (tr s)) /\ ALEV (tr s) (lvar l) (lval l) = level s) (o_walk_up f s i).
Proof.
  induction f as [|f IH]; intros i Hi Hf; [lia|]. cbn [o_walk_up].
  pose proof (dst_at_ends s i) as D. destruct (dst_at s i) as [l|u|]; simpl in D; [|exact D|destruct D].
  cbn [bind]. destruct D as (B & I). rewrite (HD l I). cbn [bind].
  destruct (Z.eqb_spec (ALEV (tr s) (lvar l) (lval l)) (level s)); [split; auto|]. apply IH; lia.
Qed.
End Walk.

(** ** A conflict above level 0 *)

Lemma check_unit_R o s : R o s -> R (o_check_unit o) (set_ulist s (ulist (ost (o_check_unit o)))).
Proof.
  intro H. pose proof H as ((RC & _) & _). destruct RC. unfold o_check_unit. apply (R_on o s); auto.
Qed.

(** The state in which undoTheory is called. *)
Definition glearn (s : state) (l : lit) : state :=
  let n := length (cl s) in
  mkState (tr s) (cl s ++ [[neg l]]) (updn (num s) n 0) (updn (clev s) n (-1)) (w0 s) (w1 s) (cnt s) (vs s)
    (updl (rec s) (neg l) (n :: rec s (neg l))) (wls s) 0 (ulist s) (uclause s) false (confcl s)
    (backtracks s + 1) (decisions s) (units s) (entails s) (restarts s) (tick s).
Definition olearn (o : orig) (l : lit) : orig :=
  mkOrig (glearn (ost o) l) (oval o) (osat o) (ovlev o)
    (updn (ocsat o) (length (cl (ost o))) false) (optr o) (omsg o).

Lemma o_conflict_eq o : o_conflict o =
  let s := ost o in
  let f := S (S (length (DST (tr s)))) in
  let* i := o_walk_down f s (Some (confcl s)) (Z.of_nat (length (DST (tr s))) - 1) in
  let* l := o_walk_up f s i in
  let* o := o_undo (olearn o l) 0 in
  Ok (o_check_unit o).
Proof.
  unfold o_conflict, o_analyze. destruct o as [so a b c d e g]. destruct so. cbn [ost].
  cbv zeta. destruct (o_walk_down _ _ _ _); try reflexivity. cbn [bind].
  destruct (o_walk_up _ _ _); reflexivity.
Qed.

Lemma learn_R o s l : R o s -> R (olearn o l) (glearn s l).
Proof.
  intros ((RC & RT) & RD & RV). destruct RC as [r1 r2 r3 r4 r5 r6 r7 r8 r9 r10 r11 r12].
  split; [split|split].
  - split; simpl; rewrite ?r3, ?r4; auto.
    + intro m. unfold updn. destruct (Nat.eqb m (length (cl s))); auto.
    + intro m. unfold updn. destruct (Nat.eqb m (length (cl s))); auto.
    + intro m. unfold updn. destruct (Nat.eqb m (length (cl s))); auto.
  - exact RT.
  - exact RD.
  - exact RV.
Qed.

Lemma conflict_step o s :
  R o s -> CS s -> conflict s = true -> 1 <= level s -> cidok (length (cl s)) o ->
  ends (fun o' => exists s' l, R o' s' /\ CS s' /\ conflict s' = false /\ cl s' = cl s ++ [[neg l]] /\
          lrange (tr s) l /\ llev (tr s) l = level s /\ NV (tr s') = NV (tr s) /\ DOM (tr s') = DOM (tr s) /\ level s' = 0 /\ tick s' = tick s /\
          optr o' = optr o /\ omsg o' = omsg o /\ decisions (ost o') = decisions (ost o) /\
          cidok (length (cl s')) o')
    (o_conflict o).
Proof.
  intros HR H Cf L1 HC. pose proof HR as ((RC & RT) & RD & RV).
  pose proof (cs_TD _ H) as TDs. pose proof (cs_TB _ H) as TBs.
  assert (CK : forall l, In l (DST (tr (ost o))) -> chk (tr (ost o)) l = Ok tt).
  { intros l I. rewrite RD in I. apply In_nth_error in I. destruct I as (i & I).
    destruct (td_dst _ TDs i l I) as (Rl & _).
    rewrite (chk_same (tr s) (tr (ost o)) l); [|apply RC|apply RC]. apply chk_ok; auto. apply TBs. }
  assert (CC : forall v d m, CID (tr (ost o)) v d = RCls m -> (m < length (cl (ost o)))%nat).
  { destruct HC as (A & B & _). rewrite (rc_cl _ _ RC). exact B. }
  rewrite o_conflict_eq. cbv zeta.
  pose proof (walk_down_ends (ost o) CK CC (S (S (length (DST (tr (ost o)))))) (Some (confcl (ost o)))
                (Z.of_nat (length (DST (tr (ost o)))) - 1)) as D.
  destruct (o_walk_down _ _ _ _) as [i|u|];
    (unfold ends in D; lapply D; [clear D; intro D|lia]; lapply D; [clear D; intro D|lia];
     lapply D; [clear D; intro D|lia]; lapply D; [clear D; intro D|]).
  2,4,6: (intros m Q; injection Q as <-; rewrite (rc_confcl _ _ RC), (rc_cl _ _ RC);
          destruct (CS_ui _ H) as [_ _ _ U4]; destruct (U4 Cf) as (X & _); exact X).
  3: destruct D.
  2: exact D.
  cbn [bind].
  pose proof (walk_up_ends (ost o) CK (S (S (length (DST (tr (ost o)))))) i) as D'.
  destruct (o_walk_up _ _ _) as [l|u|];
    (unfold ends in D'; lapply D'; [clear D'; intro D'|lia]; lapply D'; [clear D'; intro D'|lia]).
  3: destruct D'.
  2: exact D'.
  cbn [bind]. destruct D' as (Dl & Ll). rewrite RD in Dl. apply In_nth_error in Dl. destruct Dl as (j & Dl).
  destruct (td_dst _ TDs j l Dl) as (Rl & Tl & _).
  set (n := length (cl s)).
  assert (ASl : ASG (tr s) (lvar l) (lval l) <> Un).
  { apply lit_true_asg in Tl. rewrite Tl. destruct (leq l); discriminate. }
  assert (LL : llev (tr s) l = level s).
  { unfold llev. rewrite <- (rc_level _ _ RC), <- Ll, (rt_lev _ _ RT).
    destruct (ASG (tr s) (lvar l) (lval l)); congruence. }
  pose proof (learn_R o s l HR) as R1.
  set (s1 := glearn s l) in *. set (o1 := olearn o l) in *.
  assert (LF : lit_true (tr s) (neg l) = false /\ lit_un (tr s) (neg l) = false).
  { pose proof (lit_true_asg (tr s) l) as X. apply X in Tl. unfold lit_true, lit_un, neg. simpl.
    rewrite Tl. destruct (leq l); auto. }
  assert (F1 : tr s1 = tr s /\ cl s1 = cl s ++ [[neg l]] /\ num s1 = updn (num s) n 0 /\
    clev s1 = updn (clev s) n (-1) /\ rec s1 = updl (rec s) (neg l) (n :: rec s (neg l)) /\
    level s1 = 0 /\ conflict s1 = false /\ tick s1 = tick s) by (repeat split).
  assert (C0 : cidok (length (cl s1)) o1).
  { destruct HC as (A & B & C). split; [simpl; rewrite !app_length, A; reflexivity|]. simpl. rewrite app_length. simpl. split.
    - intros v d m Hm. apply B in Hm. lia.
    - intros m Hm. apply C in Hm. lia. }
  assert (O1 : optr o1 = optr o /\ omsg o1 = omsg o /\ decisions (ost o1) = decisions (ost o))
    by (repeat split).
  clearbody s1 o1. destruct F1 as (f1 & f2 & f3 & f4 & f5 & f6 & f7 & f8).
  assert (S1 : SI s1).
  { destruct (CS_si _ H) as [a1 a2 a3 a4]. split; rewrite ?f1, ?f2, ?f5.
    - intros m k x Hm. apply nth_snoc_cases in Hm. unfold updl. destruct Hm as [(Lm & Hm)|(-> & ->)].
      + destruct (lit_eqb_spec x (neg l)) as [->|]; auto. rewrite nocc_cons.
        destruct (Nat.eqb_spec m n) as [->|]; [exfalso; exact (Nat.lt_irrefl _ Lm)|]. simpl. auto.
      + fold n. assert (Z0 : forall y, nocc n (rec s y) = 0%nat).
        { intro y. apply nocc_out. intros m' Hm'. exact (a2 y m' Hm'). }
        unfold occ, countb. simpl. destruct (lit_eqb x (neg l)).
        * rewrite nocc_cons, Nat.eqb_refl, Z0. reflexivity.
        * rewrite Z0. reflexivity.
    - intros x m. rewrite app_length. simpl. unfold updl. destruct (lit_eqb x (neg l)).
      + intros [<-|I]; [subst n; lia|]. apply a2 in I. lia.
      + intro I. apply a2 in I. lia.
    - intros k x Hk Hx. apply in_app_or in Hk. destruct Hk as [Hk|[<-|[]]]; [eapply a3; eauto|].
      destruct Hx as [<-|[]]. exact Rl.
    - intro I. apply in_app_or in I. destruct I as [I|[I|[]]]; [auto|discriminate]. }
  assert (C1 : CI s1).
  { intros m k Hm. rewrite f1, f3, f4. rewrite f2 in Hm. apply nth_snoc_cases in Hm.
    destruct Hm as [(Lm & Hm)|(-> & ->)].
    - assert (Nm : m <> n) by (intros ->; exact (Nat.lt_irrefl _ Lm)).
      rewrite !updn_other by auto. apply (CS_ci _ H m k Hm).
    - fold n. rewrite !updn_same. left. split; auto. split.
      + intros x [<-|[]]. apply LF.
      + unfold countb. simpl. destruct LF as (_ & ->). reflexivity. }
  destruct (undo_theory_ok cL s1 0 (level s) (fun _ => conflict s = true) S1 C1)
    as (t' & x & y & z & E6 & CU & CI6).
  { rewrite f1. exact TBs. } { rewrite f1. exact TDs. } { lia. }
  set (s2 := set_cnt (set_clev (set_num (set_tr s1 t') x) y) z) in *.
  destruct (undo_sim 0 (level s) (fun _ => conflict s = true) o1 s1 s2)
    as (o2 & G2 & R2 & K2); auto; [lia|rewrite f1; exact TBs|].
  rewrite G2. cbn [bind ends]. rewrite f1 in CU.
  assert (F2 : tr s2 = t' /\ cl s2 = cl s1 /\ rec s2 = rec s1 /\ level s2 = level s1 /\
    conflict s2 = conflict s1 /\ tick s2 = tick s1) by (repeat split).
  clearbody s2. destruct F2 as (g1 & g2 & g3 & g4 & g5 & g6). clear x y z E6.
  pose proof R2 as ((RC2 & _) & _).
  set (U := ulist (ost (o_check_unit o2))).
  assert (UM : forall m, In m U <-> (m < length (cl s2))%nat /\ num s2 m = 1 /\ clev s2 m = -1).
  { intro m. unfold U, o_check_unit. cbn [ost on ulist set_ulist].
    rewrite filter_In, in_seq, (rc_cl _ _ RC2), (rc_num _ _ RC2), (rc_sat _ _ RC2).
    rewrite negb_involutive, andb_true_iff, !Z.eqb_eq. split; intros (A & B); split; auto; lia. }
  set (s3 := set_ulist s2 U).
  assert (R3 : R (o_check_unit o2) s3) by exact (check_unit_R o2 s2 R2).
  assert (F3 : tr s3 = tr s2 /\ cl s3 = cl s2 /\ rec s3 = rec s2 /\ num s3 = num s2 /\
    clev s3 = clev s2 /\ level s3 = level s2 /\ ulist s3 = U /\
    conflict s3 = conflict s2 /\ tick s3 = tick s2) by (repeat split).
  clearbody s3 U. destruct F3 as (h1 & h2 & h3 & h4 & h5 & h6 & h7 & h8 & h9).
  assert (TB3 : TB t' 0 (fun _ => conflict s3 = true)).
  { apply (cut_TB (tr s) 0 t' (level s) (fun _ => conflict s = true)); auto. lia. }
  assert (W5 : cls_ok t' (cl s1)).
  { intros k Hk q Hq. apply (cut_range (tr s) 0); auto. rewrite <- f1. apply (si_ok _ S1 k); auto. }
  assert (L3 : level s3 = 0) by congruence.
  assert (T3 : tr s3 = t') by congruence.
  assert (K3 : cl s3 = cl s1) by congruence.
  exists s3, l. split; auto. split.
  { split.
    - split; [|split].
      + destruct S1 as [a1 a2 a3 a4]. split; rewrite ?T3, ?K3; auto.
        * rewrite h3, g3. auto.
        * rewrite h3, g3. auto.
      + intros m k Hm. rewrite h1, h4, h5. apply CI6. congruence.
      + split; rewrite ?h7.
        * intros m Hm. apply UM in Hm. rewrite h2. apply Hm.
        * intros m Hm _. apply UM in Hm. rewrite h4. lia.
        * intros _ m k Hm Cm. rewrite h4. rewrite h5 in Cm.
          assert (Hm2 : nth_error (cl s2) m = Some k) by congruence.
          destruct (CI6 m k Hm2) as [(_ & Q2 & Q3)|(Q1 & _)]; [|lia].
          rewrite g1 in Q2, Q3.
          assert (Lm : (m < length (cl s2))%nat) by (eapply nth_error_lt; eauto).
          pose proof Hm2 as Hm'. rewrite g2, f2 in Hm'. apply nth_snoc_cases in Hm'.
          destruct Hm' as [(Lk & Hk)|(-> & ->)].
          -- left. rewrite Q3. assert (Ik : In k (cl s)) by (eapply nth_error_In; eauto).
             destruct (clo_cut (tr s) 0 t' 0 k) as [(w & Hw & Tw & _)|T2]; auto.
             ++ intros q Hq. apply (si_ok _ (CS_si _ H) k); auto.
             ++ lia.
             ++ apply (cs_clo _ H); auto. lia.
             ++ rewrite (Q2 w Hw) in Tw. discriminate.
             ++ assert (countb (notfalse t' 0) k <= countb (lit_un t') k)%nat; [|lia].
                apply countb_le. intros q Hq Fl. unfold notfalse in Fl.
                destruct (lit_cases t' q) as [(X & _)|[(_ & X & _)|(_ & X & X')]]; auto.
                ** rewrite (Q2 q Hq) in X; discriminate.
                ** exfalso. rewrite X' in Fl. simpl in Fl. apply negb_true_iff in Fl. apply Z.leb_gt in Fl.
                   assert (0 <= llev t' q <= 0); [|lia].
                   apply TB3; [apply (W5 k); auto; rewrite f2; apply in_or_app; auto|]. apply lit_false_as; auto.
          -- right. assert (N1 : num s2 (length (cl s)) = 1).
             { rewrite Q3. unfold countb. simpl.
               destruct (cut_gone _ _ _ CU (lvar l) (lval l) Rl) as (X & _).
               { unfold llev in LL. lia. }
               unfold lit_un, neg. simpl. rewrite X. reflexivity. }
             split; auto. left. apply UM. auto.
        * intro X. congruence.
    - rewrite T3, L3. exact TB3.
    - rewrite T3. eapply cut_TD; [exact TBs|exact TDs|exact CU|lia].
    - lia.
    - intros q k Q. lia. }
  destruct O1 as (O1 & O2 & O3).
  split; [congruence|]. split; [congruence|]. split; [exact Rl|]. split; [exact LL|].
  split; [rewrite T3; apply (cut_nv _ _ _ CU)|]. split; [rewrite T3; apply (cut_dom _ _ _ CU)|].
  split; auto. split; [congruence|].
  split; [rewrite <- O1; apply (kr_ptr _ _ K2)|].
  split; [rewrite <- O2; apply (kr_msg _ _ K2)|].
  split; [rewrite <- O3; apply (kr_dec _ _ K2)|].
  pose proof (cid_undo _ o1 0 C0) as C2. rewrite G2 in C2. rewrite K3. exact C2.
Qed.

Lemma conflict_drift o o' : o_conflict o = Ok o' ->
  backtracks (ost o') = backtracks (ost o) + 1 /\ size (ost o') = size (ost o) + 1 /\
  forall x, lrec x (ost o') <= lrec x (ost o) + 1 /\
    cnt (ost o) x <= cnt (ost o') x <= cnt (ost o) x + size (ost o') + lrec x (ost o').
Proof.
  rewrite o_conflict_eq. cbv zeta. destruct (o_walk_down _ _ _ _) as [i| |]; cbn [bind]; try discriminate.
  destruct (o_walk_up _ _ _) as [l| |]; cbn [bind]; try discriminate.
  pose proof (fun x => un_undo x 0 (olearn o l) ltac:(lia)) as U.
  destruct (o_undo (olearn o l) 0) as [o1| |]; cbn [bind]; try discriminate. intro X. injection X as <-.
  change (size (ost (o_check_unit o1))) with (size (ost o1)).
  change (backtracks (ost (o_check_unit o1))) with (backtracks (ost o1)).
  change (cnt (ost (o_check_unit o1))) with (cnt (ost o1)). simpl in U.
  destruct (U nolit) as (U1 & _ & U3 & _). split; [exact U3|].
  assert (S1 : size (ost o1) = size (ost o) + 1).
  { unfold size. rewrite U1, sumz_app. simpl. lia. }
  split; [exact S1|]. intro x. change (lrec x (ost (o_check_unit o1))) with (lrec x (ost o1)).
  destruct (U x) as (V1 & V2 & V3 & V4).
  assert (S2 : size (glearn (ost o) l) = size (ost o1)) by (unfold size; rewrite V1; reflexivity).
  assert (S3 : lrec x (glearn (ost o) l) = lrec x (ost o1)) by (unfold lrec; rewrite V2; reflexivity).
  assert (S4 : lrec x (glearn (ost o) l) <= lrec x (ost o) + 1).
  { unfold lrec. simpl. unfold updl. destruct (lit_eqb_spec x (neg l)) as [->|]; cbn [length]; lia. }
  lia.
Qed.

(** A clause that was learned already is not learned again. *)
Definition at_of (l : lit) : Z * Z := (lvar l, lval l).
Lemma learned_new s l x : CS s -> 1 <= level s -> In [x] (cl s) -> llev (tr s) l = level s -> at_of x <> at_of l.
Proof.
  intros H L1 I Ll E. injection E as E1 E2.
  destruct (cs_clo _ H 0 [x] ltac:(lia) I) as [(y & [<-|[]] & _ & Y)|Y].
  - unfold llev in *. rewrite E1, E2 in Y. lia.
  - unfold countb in Y. simpl in Y. destruct (notfalse (tr s) 0 x); simpl in Y; lia.
Qed.

(** A literal to decide on, if some clause is not satisfied. *)
Lemma choose_open o s : R o s -> CS s -> conflict s = false -> ulist s = [] -> o_check_sat o = false ->
  exists v d, range (tr s) v d /\ ASG (tr s) v d = Un /\ osat o v = false.
Proof.
  intros ((RC & RT) & RD & RV) H Cf Ul C.
  assert (X : exists n, In n (seq 0 (length (cl (ost o)))) /\ ocsat o n = false).
  { unfold o_check_sat in C. induction (seq 0 _) as [|n L IH]; simpl in C; [discriminate|].
    destruct (ocsat o n) eqn:E; [|exists n; split; [left; auto|auto]].
    destruct (IH C) as (m & I & Em). exists m. split; [right|]; auto. }
  destruct X as (n & I & E). apply in_seq in I. rewrite (rc_cl _ _ RC) in I.
  destruct (lt_nth_error (cl s) n (proj2 I)) as (c & Hc).
  rewrite (rc_sat _ _ RC) in E. apply negb_false_iff, Z.eqb_eq in E.
  destruct (CS_ci _ H n c Hc) as [(_ & Q2 & Q3)|(Q1 & _)]; [|lia].
  destruct (ui_two _ _ (CS_ui _ H) Cf n c Hc E) as [X|(_ & [X|[]])]; [|rewrite Ul in X; destruct X].
  rewrite Q3 in X. assert (P : (0 < countb (lit_un (tr s)) c)%nat) by lia.
  apply countb_pos in P. destruct P as (l & Il & Ul').
  assert (Rl : lrange (tr s) l) by (apply (si_ok _ (CS_si _ H) c); auto; eapply nth_error_In; eauto).
  assert (Al : ASG (tr s) (lvar l) (lval l) = Un).
  { unfold lit_un in Ul'. destruct (ASG (tr s) (lvar l) (lval l)); auto; discriminate. }
  exists (lvar l), (lval l). split; auto. split; auto.
  destruct (RV (lvar l)) as [(_ & B & P & _)|(B & _)]; auto; [apply Rl|]. exfalso.
  assert (NE : lval l <> oval o (lvar l)) by (intro Z; rewrite Z in Al; congruence).
  destruct (tb_neg _ _ _ (cs_TB _ H) (lvar l) _ (lval l) B Rl P NE) as (Z & _); [right; congruence|congruence].
Qed.

Lemma choose_step_ge o a : forall L b, (fst b <= fst (fold_left (o_choose_step o) L b)) /\
  (In a L -> osat o (fst a) = false -> ASG (tr (ost o)) (fst a) (snd a) = Un ->
   cnt (ost o) (mkLit (fst a) (snd a) true) - cnt (ost o) (mkLit (fst a) (snd a) false) <=
   fst (fold_left (o_choose_step o) L b)).
Proof.
  induction L as [|(v, d) L IH]; intro b; cbn [fold_left]; [split; [lia|intros []]|].
  destruct (IH (o_choose_step o b (v, d))) as (H1 & H2).
  assert (M : fst b <= fst (o_choose_step o b (v, d)) /\
    (osat o v = false -> ASG (tr (ost o)) v d = Un ->
     cnt (ost o) (mkLit v d true) - cnt (ost o) (mkLit v d false) <= fst (o_choose_step o b (v, d)))).
  { unfold o_choose_step. destruct (osat o v); [split; [lia|discriminate]|].
    destruct (ASG (tr (ost o)) v d); try (split; [lia|discriminate]).
    destruct (Z.ltb_spec (fst b) (cnt (ost o) (mkLit v d true) - cnt (ost o) (mkLit v d false))); simpl; split; lia. }
  destruct M as (M1 & M2). split; [lia|]. intros [<-|I] S A; auto. cbn [fst snd] in *. specialize (M2 S A). lia.
Qed.
Lemma choose_step_none o : forall L b, snd (fold_left (o_choose_step o) L b) = None ->
  fst (fold_left (o_choose_step o) L b) = fst b /\ snd b = None.
Proof.
  induction L as [|(v, d) L IH]; intros b H; cbn [fold_left] in *; auto.
  destruct (IH _ H) as (A & B). rewrite A. unfold o_choose_step in *. destruct (osat o v); auto.
  destruct (ASG (tr (ost o)) v d); auto. destruct (fst b <? _); auto. discriminate.
Qed.
Lemma choose_none o s : R o s -> CS s -> conflict s = false -> ulist s = [] -> o_check_sat o = false ->
  snd (o_choose o) = None ->
  exists v d, cnt (ost o) (mkLit v d true) - cnt (ost o) (mkLit v d false) <= o_max0.
Proof.
  intros HR H Cf Ul C E. destruct (choose_open o s HR H Cf Ul C) as (v & d & Rg & A & S).
  pose proof HR as ((RC & RT) & _). exists v, d. unfold o_choose in E. cbn [snd] in E.
  pose proof (cs_TB _ H) as TBs.
  assert (I : In (v, d) (atoms_from (tr (ost o)) 0)).
  { apply in_atoms0.
    - rewrite (rc_nv _ _ RC). apply TBs.
    - rewrite (rc_dom _ _ RC). apply TBs.
    - unfold range. rewrite (rc_nv _ _ RC), (rc_dom _ _ RC). exact Rg. }
  destruct (choose_step_ge o (v, d) (atoms_from (tr (ost o)) 0) (o_max0, None)) as (_ & G).
  destruct (choose_step_none o _ _ E) as (G' & _). rewrite G' in G. apply G; auto.
  cbn [fst snd]. rewrite (rt_asg _ _ RT). exact A.
Qed.

(** ** Fuel of the propagation *)

Lemma propagate_loop_mono f : forall o r, o_propagate_loop f o = r -> r <> OutOfFuel ->
  forall f', (f <= f')%nat -> o_propagate_loop f' o = r.
Proof.
  induction f as [|f IH]; intros o r E N f' L; [simpl in E; congruence|].
  destruct f' as [|f']; [lia|]. cbn [o_propagate_loop] in *. cbv zeta in *.
  destruct (conflict (ost o)); auto. destruct (ulist (ost o)) as [|n rest]; auto.
  destruct (getcl _ n) as [c|u|]; cbn [bind] in *; auto.
  destruct (ocsat o n); [apply IH; auto; lia|].
  destruct (first_un _ c) as [[l|]|u|]; cbn [bind] in *; auto; [|apply IH; auto; lia].
  destruct (o_reduce _ l) as [o1|u|]; cbn [bind] in *; auto. apply IH; auto; lia.
Qed.

Lemma propagate_mono f o r : o_propagate f o = r -> r <> OutOfFuel ->
  forall f', (f <= f')%nat -> o_propagate f' o = r.
Proof.
  unfold o_propagate. intros E N f' L. destruct (o_propagate_loop f o) as [o1|u|] eqn:E1; cbn [bind] in E.
  - rewrite (propagate_loop_mono f o _ E1 ltac:(discriminate) f' L). exact E.
  - rewrite (propagate_loop_mono f o _ E1 ltac:(discriminate) f' L). exact E.
  - congruence.
Qed.

(** ** The loop *)

Section Loop.
Variables (p : problem) (clk : nat -> bool).
Hypothesis W : wf p.

Record inv (o : orig) (s : state) : Prop := mkInv {
  i_R : R o s;
  i_CS : CS s;
  i_ptr : optr o = PIgnore;
  i_msg : omsg o = false;
  i_cid : cidok (length (cl s)) o;
  i_nv : NV (tr s) = nvars p;
  i_dom : forall v, DOM (tr s) v = domsize p v;
  i_cl : exists ex, cl s = clauses p ++ map (fun x => [x]) ex /\ NoDup (map at_of ex) /\
           (forall x, In x ex -> lrange (tr s) x) /\ backtracks (ost o) = Z.of_nat (length ex);
  i_drift : drift (literals p) o;
  i_dec : 0 <= decisions (ost o);
  i_zero : decisions (ost o) = 0 -> cl s = clauses p /\ level s = 0 /\ forall a, is_model p a -> agree a (tr s)
}.

Definition nc_post (x : outcome (verdict * orig)) : Prop :=
  ends (fun q : verdict * orig => let (v, o) := q in exists s, inv o s /\
    match v with
    | SAT => conflict s = false /\ all_sat s
    | TIMEOUT => clock_rang clk
    | UNSAT => decisions (ost o) = 0 -> ~ satisfiable p
    end) x.

Lemma inv_time o s : inv o s -> exists s', inv (snd (o_time clk o)) s' /\ tick s' = S (tick s) /\
  conflict s' = conflict s /\ ulist s' = ulist s /\ tr s' = tr s /\ cl s' = cl s /\ fst (o_time clk o) = clk (tick s) /\
  backtracks (ost (snd (o_time clk o))) = backtracks (ost o) /\ cnt (ost (snd (o_time clk o))) = cnt (ost o) /\
  o_check_sat (snd (o_time clk o)) = o_check_sat o.
Proof.
  intros [HR H P M C N D K Dr De Z]. exists (set_tick s (S (tick s))).
  pose proof HR as ((RC & _) & _).
  split; [|repeat split; unfold o_time, check_time; simpl; rewrite (rc_tick _ _ RC); auto].
  unfold o_time, check_time. simpl. split; auto.
  - destruct RC. apply (R_on o s); auto. simpl. congruence.
  - apply (CS_eq s); auto. repeat split.
Qed.

(** What gets smaller between two conflicts. *)
Definition work (s : state) : nat := (2 * unass (tr s) + match ulist s with [] => 0 | _ => 1 end)%nat.

(** How the loop goes on: without a conflict, after a conflict, or without any progress. *)
Definition progress (o : orig) (s : state) (o' : orig) (s' : state) : Prop :=
  (backtracks (ost o') = backtracks (ost o) /\ (work s' < work s)%nat) \/
  backtracks (ost o') = backtracks (ost o) + 1 \/
  exists v d, cnt (ost o) (mkLit v d true) - cnt (ost o) (mkLit v d false) <= o_max0.

(** Either the loop ends, or it goes on from another state. *)
Definition fin (f : nat) (x : outcome (verdict * orig) + orig) : outcome (verdict * orig) :=
  match x with inl q => q | inr o => o_loop f clk o end.

Lemma loop_step o s : inv o s ->
  exists N x,
    (forall f, o_loop (S f) clk o = OutOfFuel \/ o_loop (S f) clk o = fin f x) /\
    (forall f, (N <= f)%nat -> o_loop (S f) clk o = fin f x) /\
    match x with
    | inl q => nc_post q
    | inr o' => clk (tick s) = false /\ exists s', inv o' s' /\ (tick s < tick s')%nat /\ progress o s o' s'
    end.
Proof.
  intro I0. cbn [o_loop].
  destruct (o_check_sat o) eqn:C1.
  { exists 0%nat, (inl (Ok (SAT, o))). split; auto. split; auto.
    exists s. split; auto. destruct (check_sat_sim o s (i_R _ _ I0) (i_CS _ _ I0) C1). auto. }
  destruct (inv_time o s I0) as (s1 & I1 & T1 & Cf1 & Ul1 & Tr1 & Cl1 & K1 & Bt1 & Ct1 & Cs1).
  rewrite (surjective_pairing (o_time clk o)). rewrite K1. set (o1 := snd (o_time clk o)) in *.
  destruct (clk (tick s)) eqn:K.
  { exists 0%nat, (inl (Ok (TIMEOUT, o1))). split; auto. split; auto.
    exists s1. split; auto. exists (tick s). auto. }
  clearbody o1. pose proof I1 as [HR H P M C Nv D Kc Dr De Z].
  pose proof HR as ((RC & _) & _).
  rewrite (rc_ulist _ _ RC). destruct (ulist s1) as [|n rest] eqn:Eu.
  - rewrite (rc_conflict _ _ RC), (rc_level _ _ RC). destruct (conflict s1) eqn:Cf.
    + destruct (Z.eqb_spec (level s1) 0) as [L0|L0].
      * exists 0%nat, (inl (Ok (UNSAT, o1))). split; auto. split; auto.
        exists s1. split; auto. intros Dz (a & Ma). destruct (Z Dz) as (Zc & _ & Za).
        apply (conflict_dead s1 H Cf a).
        -- apply (wf_legalT p); auto. apply Ma.
        -- rewrite Zc. apply Ma.
        -- auto.
      * pose proof (cs_lev _ H) as L1.
        pose proof (conflict_step o1 s1 HR H Cf ltac:(lia) C) as ST.
        pose proof (conflict_drift o1) as CD.
        destruct (o_conflict o1) as [o2|u|]; cbn [bind]; simpl in ST; [| |destruct ST].
        -- destruct ST as (s2 & l & R2 & H2 & Cf2 & Cl2 & Rl & Ll & N2 & D2 & Lv2 & Tk2 & P2 & M2 & De2 & C2).
           destruct (CD _ eq_refl) as (CD1 & CD2 & CD3).
           exists 0%nat, (inr o2). split; auto. split; auto. split; auto. exists s2.
           split; [|split; [lia|right; left; congruence]].
           split; auto; try congruence.
           ++ destruct Kc as (ex & Kc & ND & Rx & Bx). exists (ex ++ [neg l]). split; [|split; [|split]].
              ** rewrite Cl2, Kc, map_app, app_assoc. auto.
              ** rewrite map_app. apply nodup_snoc; auto. intro X. apply in_map_iff in X. destruct X as (x & E & Ix).
                 apply (learned_new s1 l x H ltac:(lia)); auto. rewrite Kc. apply in_or_app. right.
                 apply in_map_iff. exists x. auto.
              ** intros x Ix. unfold lrange, range. rewrite N2, D2. apply in_app_or in Ix. destruct Ix as [Ix|[<-|[]]]; [apply Rx; auto|exact Rl].
              ** rewrite CD1, Bx, app_length. simpl. lia.
           ++ eapply drift_conflict; eauto.
           ++ lia.
        -- exists 0%nat, (inl (Undef u)). split; auto.
    + assert (MD : mid o1 s1 o1 s1).
      { split; auto using ext_refl, newlev_refl, keepp_refl. intros a _ _ X. exact X. }
      change (o_choose o1) with (fst (o_choose o1), snd (o_choose o1)).
      destruct (snd (o_choose o1)) as [l|] eqn:Ech.
      * destruct (decide_sim o1 s1 o1 s1 l MD P Ech) as
          (s5 & o5 & E5 & R5 & H5 & Lv5 & Cl5 & Tk5 & X5 & W5 & M5 & T5 & Rl & Ul' & A5 & Dc5 & Pt5 & Ms5).
        rewrite E5. cbn [bind]. exists 0%nat, (inr o5). split; auto. split; auto. split; auto. exists s5.
        assert (F5 : forall x, fr x o1 o5).
        { intro x. apply (fr_trans x o1 (fst (o_choose o1))); [apply fr_same; reflexivity|].
          assert (U : lit_un (tr (ost (fst (o_choose o1)))) l = true).
          { pose proof HR as ((_ & RT) & _). unfold lit_un. cbn [o_choose fst ost on tr set_uclause].
            rewrite (rt_asg _ _ RT), Ul'. reflexivity. }
          pose proof (fr_decide x _ l U) as Y. rewrite E5 in Y. exact Y. }
        split; [|split; [lia|left; split]].
        2: { rewrite (fr_bt nolit _ _ (F5 nolit)). auto. }
        2: { unfold work. rewrite <- Ul1, <- Tr1. destruct (ulist s5); lia. }
        split; auto; try congruence.
        -- assert (C' : cidok (length (cl s1)) (fst (o_choose o1))).
           { destruct C as (A & B & _). split; [exact A|]. split; [exact B|]. simpl. discriminate. }
           pose proof (cid_decide _ (fst (o_choose o1)) l C' eq_refl) as Y. rewrite E5 in Y. rewrite Cl5. exact Y.
        -- rewrite (ext_nv _ _ X5). auto.
        -- intro v. rewrite (ext_dom _ _ X5). auto.
        -- rewrite Cl5. destruct Kc as (ex & K1' & K2' & K3' & K4'). exists ex. split; auto. split; auto. split.
           ++ intros x Ix. unfold lrange, range. rewrite (ext_nv _ _ X5), (ext_dom _ _ X5). apply K3'; auto.
           ++ rewrite (fr_bt nolit _ _ (F5 nolit)). auto.
        -- eapply drift_fr; eauto.
        -- lia.
        -- intro X. lia.
      * exists 0%nat, (inr (fst (o_choose o1))). split; auto. split; auto. split; auto. exists s1. split; [|split; [lia|right; right]].
        2: { destruct (choose_none o1 s1 HR H Cf Eu ltac:(congruence) Ech) as (v & d & X). exists v, d. rewrite <- Ct1. exact X. }
        split; auto.
        -- destruct RC. apply (R_on o1 s1); auto.
        -- destruct C as (A & B & _). split; [exact A|]. split; [exact B|]. simpl. discriminate.
  - destruct (units_sim o1 s1 HR H P) as (N & s3 & o3 & E3 & R3 & K3 & U3 & _).
    assert (PN : forall f, (N <= f)%nat -> o_propagate f o1 = Ok o3).
    { intros f Hf. specialize (E3 f Hf). unfold o_units in E3. rewrite (rc_ulist _ _ RC), Eu in E3. exact E3. }
    assert (PD : forall f, o_propagate f o1 = OutOfFuel \/ o_propagate f o1 = Ok o3).
    { intro f. destruct (o_propagate f o1) as [o4|u|] eqn:E; auto; right;
        rewrite <- (PN (N + f)%nat) by lia; symmetry; eapply propagate_mono; eauto; try lia; discriminate. }
    destruct U3 as [H3 F3 X3 W3 Un3 Ul3 A3].
    assert (F4 : forall x, fr x o1 o3) by (intro x; pose proof (fr_propagate x N o1) as Y; rewrite PN in Y by lia; exact Y).
    assert (I3 : inv o3 s3).
    { split; auto.
      - rewrite (kq_ptr _ _ K3). auto.
      - rewrite (kq_msg _ _ K3). auto.
      - rewrite (fu_cl _ _ F3). pose proof (cid_propagate _ N o1 C) as Y. rewrite PN in Y by lia. exact Y.
      - rewrite (ext_nv _ _ X3). auto.
      - intro v. rewrite (ext_dom _ _ X3). auto.
      - rewrite (fu_cl _ _ F3). destruct Kc as (ex & K1' & K2' & K3' & K4'). exists ex. split; auto. split; auto. split.
        + intros x Ix. unfold lrange, range. rewrite (ext_nv _ _ X3), (ext_dom _ _ X3). apply K3'; auto.
        + rewrite (fr_bt nolit _ _ (F4 nolit)). auto.
      - eapply drift_fr; eauto.
      - rewrite (kq_dec _ _ K3). auto.
      - rewrite (kq_dec _ _ K3), (fu_cl _ _ F3), (fu_level _ _ F3). intro Dz.
        destruct (Z Dz) as (Z1 & Z2 & Z3). split; auto. split; auto. intros a Ma. apply A3; auto.
        + apply (wf_legalT p); auto. apply Ma.
        + rewrite Z1. apply Ma. }
    assert (T3 : tick s3 = S (tick s)) by (rewrite (fu_tick _ _ F3); auto).
    destruct (inv_time o3 s3 I3) as (s4 & I4 & T4 & _ & Ul4 & Tr4 & _ & K4 & Bt4 & _).
    assert (G : exists x, (forall f, (o_propagate f o1 = Ok o3 ->
        (let* o := o_propagate f o1 in
         if o_check_sat o then Ok (SAT, o)
         else let (late, o) := o_time clk o in if late then Ok (TIMEOUT, o) else o_loop (pred f) clk o) = fin (pred f) x)) /\
      match x with
      | inl q => nc_post q
      | inr o' => clk (tick s) = false /\ exists s', inv o' s' /\ (tick s < tick s')%nat /\ progress o s o' s'
      end).
    { destruct (o_check_sat o3) eqn:C3.
      - exists (inl (Ok (SAT, o3))). split; [intros f ->; cbn [bind]; rewrite C3; auto|].
        exists s3. split; auto. destruct (check_sat_sim o3 s3 R3 H3 C3). auto.
      - destruct (clk (tick s3)) eqn:K3'.
        + exists (inl (Ok (TIMEOUT, snd (o_time clk o3)))). split.
          * intros f ->. cbn [bind]. rewrite C3. rewrite (surjective_pairing (o_time clk o3)), K4. auto.
          * exists s4. split; auto. exists (tick s3). auto.
        + exists (inr (snd (o_time clk o3))). split.
          * intros f ->. cbn [bind]. rewrite C3. rewrite (surjective_pairing (o_time clk o3)), K4. auto.
          * split; auto. exists s4. split; auto. split; [lia|]. left. split.
            -- rewrite Bt4, (fr_bt nolit _ _ (F4 nolit)). auto.
            -- unfold work. rewrite Ul4, Ul3, Tr4, <- Ul1, <- Tr1. lia. }
    destruct G as (x & G1 & G2). exists N, x. split; [|split; [|rewrite K in G2; exact G2]].
    + intro f. destruct (PD (S f)) as [Y|Y]; [left; rewrite Y; auto|right; apply (G1 (S f) Y)].
    + intros f Hf. apply (G1 (S f)). apply PN. lia.
Qed.

Lemma loop_any : forall fuel o s, inv o s ->
  o_loop fuel clk o = OutOfFuel \/ nc_post (o_loop fuel clk o).
Proof.
  induction fuel as [|f IH]; intros o s I0; [left; reflexivity|].
  destruct (loop_step o s I0) as (N & x & S1 & _ & P). destruct (S1 f) as [->| ->]; auto.
  destruct x as [q|o']; simpl; auto. destruct P as (_ & s' & I' & _). eauto.
Qed.

Lemma loop_end K : (forall k, (K <= k)%nat -> clk k = true) -> forall m o s, inv o s -> (K - tick s <= m)%nat ->
  exists N q, (forall fuel, (N <= fuel)%nat -> o_loop fuel clk o = q) /\ nc_post q.
Proof.
  intros HK. induction m as [|m IH]; intros o s I0 Hm;
    destruct (loop_step o s I0) as (N & x & _ & S2 & P).
  - destruct x as [q|o'].
    + exists (S N), q. split; auto. intros [|f] Hf; [lia|]. apply S2. lia.
    + exfalso. destruct P as (K0 & _). rewrite HK in K0 by lia. discriminate.
  - destruct x as [q|o'].
    + exists (S N), q. split; auto. intros [|f] Hf; [lia|]. apply S2. lia.
    + destruct P as (_ & s' & I' & T' & _). destruct (IH o' s' I' ltac:(lia)) as (N' & q & E & Q).
      exists (S (N + N')), q. split; auto. intros [|f] Hf; [lia|]. rewrite S2 by lia. apply E. lia.
Qed.

(** ** The number of conflicts *)

Lemma backtracks_le o s : inv o s -> 0 <= backtracks (ost o) <= Z.of_nat (length (atoms_from (tr s) 1)).
Proof.
  intro I0. destruct (i_cl _ _ I0) as (ex & _ & ND & Rx & ->). split; [lia|]. apply inj_le.
  rewrite <- (map_length at_of ex). apply NoDup_incl_length; auto. intros (v & d) I. apply in_map_iff in I.
  destruct I as (x & E & Ix). specialize (Rx x Ix). injection E as <- <-. apply in_atoms_from.
  unfold lrange, range in Rx. lia.
Qed.

Lemma atoms_len t : NV t = nvars p -> (forall v, DOM t v = domsize p v) -> Z.of_nat (length (atoms_from t 1)) = atoms p.
Proof.
  intros N D. unfold atoms_from. rewrite N. replace (nvars p + 1 - 1) with (nvars p) by lia.
  assert (G : forall L, Z.of_nat (length (flat_map (fun v => map (fun d => (v, d)) (zrange 0 (DOM t v))) L)) =
    sumz (fun v => Z.max 0 (domsize p v)) L).
  { induction L as [|v L IH]; auto. cbn [flat_map sumz fold_right]. rewrite app_length, Nat2Z.inj_add, IH, map_length.
    unfold zrange. rewrite map_length, seq_length, D. fold (sumz (fun v => Z.max 0 (domsize p v)) L). lia. }
  rewrite G. unfold zrange, nvars. rewrite Nat2Z.id.
  assert (P : forall d, In d (doms p) -> 0 <= d).
  { intros d I. destruct W as (W1 & _). specialize (W1 d I). lia. }
  unfold atoms, domsize. revert P. generalize (doms p) as L. clear. intros L P.
  assert (E : forall M, sumz (fun v => Z.max 0 (if 1 <=? v then nth (Z.to_nat (v - 1)) L 0 else 0))
     (map (fun i => 1 + Z.of_nat i) M) = sumz (fun i => Z.max 0 (nth i L 0)) M).
  { induction M as [|i M IH]; auto. cbn [map sumz fold_right].
    unfold sumz in IH. rewrite IH. destruct (Z.leb_spec 1 (1 + Z.of_nat i)); [|lia].
    replace (Z.to_nat (1 + Z.of_nat i - 1)) with i by lia. reflexivity. }
  rewrite E. clear E. induction L as [|d L IH] using rev_ind; auto.
  rewrite app_length. simpl. rewrite Nat.add_1_r, seq_S, sumz_app. simpl. rewrite app_nth2, Nat.sub_diag by lia. simpl.
  rewrite fold_right_app. simpl.
  replace (fold_right Z.add (d + 0) L) with (fold_right Z.add 0 L + d).
  2: { clear. induction L; simpl; lia. }
  rewrite <- IH by (intros; apply P, in_or_app; auto).
  rewrite (sumz_ext _ (fun i => Z.max 0 (nth i L 0))) by (intros i I; apply in_seq in I; rewrite app_nth1 by lia; auto).
  specialize (P d ltac:(apply in_or_app; right; left; auto)). lia.
Qed.

Definition small : Prop := (4 * atoms p + 3) * (literals p + atoms p) <= 1000000000.

Lemma loop_always : small -> forall n m o s, inv o s ->
  (Z.to_nat (atoms p - backtracks (ost o)) <= n)%nat -> (work s <= m)%nat ->
  exists N q, (forall fuel, (N <= fuel)%nat -> o_loop fuel clk o = q) /\ nc_post q.
Proof.
  intro SM. induction n as [n IHn] using lt_wf_ind. induction m as [m IHm] using lt_wf_ind.
  intros o s I0 Ln Lm. destruct (loop_step o s I0) as (N & x & _ & S2 & P). destruct x as [q|o'].
  { exists (S N), q. split; auto. intros [|f] Hf; [lia|]. apply S2. lia. }
  assert (BT : forall o s, inv o s -> 0 <= backtracks (ost o) <= atoms p).
  { intros o1 s1 I1. rewrite <- (atoms_len (tr s1) (i_nv _ _ I1) (i_dom _ _ I1)). apply backtracks_le; auto. }
  assert (G : exists N' q, (forall fuel, (N' <= fuel)%nat -> o_loop fuel clk o' = q) /\ nc_post q).
  { destruct P as (_ & s' & I' & _ & [(P1 & P2)|[P1|(v & d & P1)]]).
    - apply (IHm (work s')) with (s := s'); auto; lia.
    - pose proof (BT _ _ I0). pose proof (BT _ _ I').
      apply (IHn (Z.to_nat (atoms p - backtracks (ost o'))) ltac:(lia) (work s') o' s'); auto.
    - exfalso. pose proof (drift_choice _ _ (mkLit v d true) (mkLit v d false) (i_drift _ _ I0)) as X.
      pose proof (BT _ _ I0). unfold small in SM. unfold o_max0 in P1.
      assert (0 <= literals p) by (unfold literals; lia). nia. }
  destruct G as (N' & q & E & Q). exists (S (N + N')), q. split; auto.
  intros [|f] Hf; [lia|]. rewrite S2 by lia. apply E. lia.
Qed.
End Loop.

(** ** Runs *)

Definition nc_good (p : problem) (clk : nat -> bool) (rep : oreport) : Prop :=
  match or_verdict rep with
  | SAT => or_verified rep = Some true /\ satisfiable p
  | TIMEOUT => or_verified rep = None /\ clock_rang clk
  | UNSAT => or_verified rep = None /\ (or_decisions rep = 0 -> ~ satisfiable p)
  end /\
  or_message rep = false /\ or_variables rep = nvars p /\
  or_clauses rep = Z.of_nat (length (clauses p)) + or_backtracks rep /\ 0 <= or_backtracks rep <= atoms p.

Lemma o_finish_nc p clk q : wf p -> nc_post p clk (Ok q) -> ends (nc_good p clk) (o_finish q).
Proof.
  intros W. destruct q as (v & o). simpl. intros (s & I0 & P).
  pose proof (backtracks_le p o s I0) as BL. rewrite (atoms_len p W) in BL by apply I0.
  destruct I0 as [HR H Pt M C Nv D Kc Dr De Z]. pose proof HR as ((RC & _) & _).
  assert (X : Z.of_nat (length (cl (ost o))) = Z.of_nat (length (clauses p)) + backtracks (ost o) /\
    0 <= backtracks (ost o) <= atoms p).
  { split; auto. rewrite (rc_cl _ _ RC). destruct Kc as (ex & -> & _ & _ & ->). rewrite app_length, map_length. lia. }
  assert (Y : NV (tr (ost o)) = nvars p) by (rewrite (rc_nv _ _ RC); auto).
  destruct v; simpl.
  - destruct P as (Cf & Al). destruct (o_verify_ok o s HR H Cf) as (b & Ev & V1 & V2).
    rewrite Ev. simpl. rewrite (V1 Al) in *. split; [|split; [exact M|split; [exact Y|exact X]]]. split; auto.
    assert (B' := TB_noconf _ _ _ (cs_TB _ H) Cf). destruct (pick_agree (tr s) _ B') as (G1 & G2).
    exists (pick (tr s)). split; [apply (wf_legalT p (tr s)); auto|]. intros c Hc. apply V2; auto.
    destruct Kc as (ex & -> & _). apply in_or_app. auto.
  - split; [split; auto|]. split; [exact M|split; [exact Y|exact X]].
  - split; [split; auto|]. split; [exact M|split; [exact Y|exact X]].
Qed.

Lemma start_drift e t p o : obuilt e t (clauses p) o -> drift (literals p) (on (o_check_unit o) (set_level (ost (o_check_unit o)) 0)).
Proof.
  intros [b0 b1 b2 b3 b4 b5 b6 b7 b8].
  set (o1 := on _ _). assert (F : forall x, fr x o o1) by (intro x; apply fr_same; reflexivity).
  apply (drift_fr _ _ _ F). clear F o1.
  assert (B0 : backtracks (ost o) = 0) by intuition.
  assert (SZ : size (ost o) = literals p).
  { unfold size, literals. rewrite b2. clear. induction (clauses p) as [|c L IH]; auto. cbn [sumz fold_right map list_sum].
    unfold sumz in IH. rewrite IH. symmetry. apply Nat2Z.inj_add. }
  assert (LR : forall x, lrec x (ost o) <= literals p).
  { intro x. unfold lrec. rewrite (length_sum _ (length (clauses p)) (b6 x)), <- SZ. unfold size.
    rewrite <- (sumz_nth (fun c : clause => Z.of_nat (length c)) (cl (ost o))), b2. apply sumz_le. intros n I.
    apply in_seq in I. destruct (lt_nth_error (clauses p) n (proj2 I)) as (c & Hc). rewrite (b5 n c x Hc).
    rewrite (nth_error_nth _ _ [] Hc). apply inj_le. apply countb_length. }
  unfold drift. rewrite B0. split; [lia|]. split; [unfold literals; lia|]. split; [lia|]. intro x.
  specialize (LR x). split; [lia|]. pose proof (phi_le x o). unfold slack. rewrite b7.
  assert (Z.of_nat (occs x (clauses p)) <= literals p).
  { apply (occurrences_le p x). }
  lia.
Qed.

Lemma o_solve_nc clk p : wf p ->
  (forall fuel, o_solve fuel NonChrono PIgnore clk p = OutOfFuel \/
     ends (nc_good p clk) (o_solve fuel NonChrono PIgnore clk p)) /\
  ((exists K, forall k, (K <= k)%nat -> clk k = true) \/ small p ->
   exists N r, r <> OutOfFuel /\ forall fuel, (N <= fuel)%nat -> o_solve fuel NonChrono PIgnore clk p = r).
Proof.
  intro W. destruct (o_build_ok PIgnore p W) as (t & o & EB & OT & B).
  destruct (start_R _ _ _ _ (wf_usable _ W) OT B) as
    (HR & H & Lv & ST & Cl & Cf & Tk & Pt & Ms & Dc & Ul).
  set (o1 := o_check_unit o) in *. set (s := ghost o1) in *.
  pose proof HR as ((RC & _) & _). pose proof ST as (SN & SD & _).
  set (o2 := on o1 (set_level (ost o1) 0)).
  assert (I2 : inv p o2 s).
  { split; auto.
    - destruct RC. apply (R_on o1 s); auto.
    - assert (L2 : length (cl (ost o2)) = length (cl s)) by (simpl; rewrite (ob_cl _ _ _ _ B); auto).
      split; auto. destruct OT as (_ & _ & _ & _ & _ & OC). split.
      + intros v d m. simpl. rewrite (ob_tr _ _ _ _ B), OC. discriminate.
      + intros m. simpl. destruct B as [_ _ _ _ _ _ _ _ b8].
        destruct b8 as (_ & _ & _ & _ & b8 & _). rewrite b8. discriminate.
    - exists []. rewrite app_nil_r. split; auto. split; [constructor|]. split; [intros x []|].
      simpl. destruct B as [_ _ _ _ _ _ _ _ b8]. simpl. intuition.
    - apply (start_drift _ _ _ _ B).
    - simpl. change (decisions (ost o)) with (decisions (ost o1)). lia.
    - intros _. split; auto. split; auto. intros a _. eapply start_agree; eauto. }
  assert (EQ : forall fuel, o_solve fuel NonChrono PIgnore clk p =
     let* q := o_loop fuel clk o2 in o_finish q).
  { intro fuel. unfold o_solve. rewrite EB. reflexivity. }
  split.
  - intro fuel. rewrite EQ. destruct (loop_any p clk W fuel o2 s I2) as [->|P]; auto.
    right. destruct (o_loop fuel clk o2) as [q|u|]; simpl in P; auto.
    cbn [bind]. apply o_finish_nc; auto.
  - intro HK. assert (G : exists N q, (forall fuel, (N <= fuel)%nat -> o_loop fuel clk o2 = q) /\ nc_post p clk q).
    { destruct HK as [(K & HK)|SM]; [exact (loop_end p clk W K HK _ o2 s I2 (Nat.le_refl _))|].
      eapply (loop_always p clk W SM); eauto. }
    destruct G as (N & q & E & P).
    exists N, (let* q := q in o_finish q). split.
    + destruct q as [q|u|]; simpl in P; try discriminate; [|destruct P].
      cbn [bind]. pose proof (o_finish_nc p clk q W P) as Q. intro X. rewrite X in Q. exact Q.
    + intros fuel Hf. rewrite EQ, E by auto. reflexivity.
Qed.
