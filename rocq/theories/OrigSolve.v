(** * Runs of the first version *)

From Verif Require Import Spec WideSpec Outcome State ModelCounter ModelHeur ModelLearn ModelWatch
  ModelSearch ModelBuild ModelOrig
  Base Trail Reduce Counter CounterUndo Propagate Choose Scores Init Chrono Cdcl Solve
  OrigSpec OrigSim OrigProp OrigChrono OrigInit.

(** ** The search from level 0 *)

Lemma choose_same o o' : cnt (ost o') = cnt (ost o) -> tr (ost o') = tr (ost o) -> osat o' = osat o ->
  snd (o_choose o') = snd (o_choose o).
Proof. intros A B C. unfold o_choose, o_choose_step. simpl. rewrite A, B, C. reflexivity. Qed.

Definition top_post (clk : nat -> bool) (o : orig) (s : state) (q : verdict * orig) : Prop :=
  let (v, o') := q in
  exists s', R o' s' /\ cl s' = cl s /\ NV (tr s') = NV (tr s) /\ DOM (tr s') = DOM (tr s) /\
    match v with
    | SAT => CS s' /\ conflict s' = false /\ (omsg o' = true \/ all_sat s')
    | TIMEOUT => exists k, (tick s <= k)%nat /\ clk k = true
    | UNSAT => (decisions (ost o') = decisions (ost o) -> dead (tr s) (cl s)) /\
        (dead (tr s) (cl s) \/ exists l, leq l = true /\ lrange (tr s) l /\
           forall a, legalT a (tr s) -> (forall c, In c (cl s) -> clause_holds a c) ->
             agree a (tr s) -> lit_holds a l -> False)
    end /\
    (ulist s = [] -> conflict s = false -> o_check_sat o = false ->
     match snd (o_choose o) with
     | None => v = TIMEOUT \/ v = SAT /\ omsg o' = true
     | Some l =>
         match v with
         | SAT => lrange (tr s') l /\ lit_true (tr s') l = true
         | TIMEOUT => True
         | UNSAT => forall a, legalT a (tr s) -> (forall c, In c (cl s) -> clause_holds a c) ->
                      agree a (tr s) -> lit_holds a l -> False
         end
     end).

Lemma otop clk o s : R o s -> CS s -> optr o = PIgnore -> level s = 0 ->
  exists N q, (forall fuel, (N <= fuel)%nat -> o_chrono fuel clk o 0 = Ok q) /\ top_post clk o s q.
Proof.
  intros HR H Pt Lv.
  destruct (front clk o s 0 HR H Pt Lv) as [(N & (v & o') & E & P & D & T & _)|(N1 & o3 & s3 & STEP & M)].
  { exists N, (v, o'). split; auto. destruct P as (s' & R' & _ & Tk & Dc & Cl' & NV' & DM' & P).
    exists s'. split; auto. split; auto. split; auto. split; auto. cbn [fst snd] in *. split.
    - destruct v; auto. destruct P as (_ & P); auto.
    - intros U Cf Sf. rewrite (T U Cf Sf). destruct (snd (o_choose o)); auto. }
  pose proof M as [R3 H3 Cf3 Ul3 Cl3 Lv3 Tk3 X3 W3 M3 A3 K3 SM].
  assert (NV3 : NV (tr s3) = NV (tr s)) by apply X3.
  assert (DM3 : DOM (tr s3) = DOM (tr s)) by apply X3.
  assert (CH : ulist s = [] -> snd (o_choose o3) = snd (o_choose o)).
  { intro U. destruct (SM U) as (? & ? & ?). apply choose_same; auto. }
  unfold o_rest in STEP. rewrite (surjective_pairing (o_choose o3)) in STEP.
  destruct (snd (o_choose o3)) as [l|] eqn:Ech.
  2: { exists (S N1), (SAT, set_omsg (fst (o_choose o3))). split.
       { intros [|f] Hf; [lia|]. apply STEP. lia. }
       exists s3.
       assert (R3' : R (set_omsg (fst (o_choose o3))) s3).
       { unfold o_choose. cbn [fst]. destruct R3 as (([] & T) & D & V).
         split; [split; [split; auto|auto]|split; auto]. }
       split; auto. split; auto. split; auto. split; auto. split; auto.
       intros U _ _. rewrite <- (CH U). auto. }
  destruct (decide_sim o s o3 s3 l M Pt Ech) as
    (s5 & o5 & E5 & R5 & H5 & Lv5 & Cl5 & Tk5 & X5 & W5 & M5 & T5 & Rl & Ul' & A5 & Dc5 & Pt5 & Ms5).
  rewrite Lv in *. rewrite E5 in STEP. cbn [bind] in STEP.
  assert (LO5 : level (ost o5) = 1).
  { pose proof R5 as ((RC & _) & _). rewrite (rc_level _ _ RC). lia. }
  rewrite LO5 in STEP.
  destruct (ochrono_ok clk _ o5 s5 1 eq_refl) as (N2 & (v & o6) & E6 & P6); auto; try lia.
  destruct P6 as (s6 & R6 & Pt6 & K6 & Dc6 & CL6 & NV6 & DM6 & P6).
  assert (NV5 : NV (tr s5) = NV (tr s)) by (rewrite (ext_nv _ _ X5); auto).
  assert (DM5 : DOM (tr s5) = DOM (tr s)) by (rewrite (ext_dom _ _ X5); auto).
  exists (S (N1 + N2)), (v, o6). split.
  { intros [|f] Hf; [lia|]. rewrite STEP, E6 by lia. cbn [bind]. destruct v; auto.
    destruct P6 as ((_ & _ & _ & _ & Lv6 & _) & _).
    pose proof R6 as ((RC & _) & _). rewrite (rc_level _ _ RC), Lv6. reflexivity. }
  exists s6. split; auto. split; [congruence|]. split; [congruence|]. split; [congruence|]. split.
  - destruct v.
    + destruct P6 as (_ & P6); auto.
    + destruct P6 as (k & Q1 & Q2). exists k. split; auto. lia.
    + split; [intro Q; lia|]. right. exists l.
      destruct (choose_sim o3 s3 l R3 H3 Cf3 Ech) as (Q1 & _). split; auto.
      split; [destruct Rl as (Z1 & Z2); split; congruence|].
      intros a La Ha Aa Hl. destruct P6 as ((D6 & _) & _). apply (D6 a).
      * apply (legalT_dom a (tr s)); auto.
      * rewrite Cl5. auto.
      * apply A5; auto. apply (legalT_dom a (tr s)); auto.
  - intros U _ _. rewrite <- (CH U). destruct v; auto.
    + destruct P6 as (Q0 & _). assert (Rl6 : lrange (tr s6) l).
      { destruct Rl as (Q1 & Q2). split; congruence. }
      split; auto. assert (Rl5 : lrange (tr s5) l) by (destruct Rl as (Q1 & Q2); split; congruence).
      apply lit_true_asg. apply lit_true_asg in T5. rewrite Q0; auto. rewrite T5. destruct (leq l); discriminate.
    + intros a La Ha Aa Hl. destruct P6 as ((D6 & _) & _). apply (D6 a).
      * apply (legalT_dom a (tr s)); auto.
      * rewrite Cl5. auto.
      * apply A5; auto. apply (legalT_dom a (tr s)); auto.
Qed.

(** ** verifyModel *)

Lemma o_hit_ok s f l : (forall n, In n (rec s l) -> (n < length (cl s))%nat) ->
  exists f', o_hit s f l = Ok f' /\ forall n, f' n = true <-> f n = true \/ In n (rec s l).
Proof.
  unfold o_hit. generalize (rec s l). intro L. revert f.
  induction L as [|m L IH]; intros f B; cbn [foldM].
  - exists f. split; auto. intro n. simpl. intuition.
  - unfold getcl. destruct (nth_error (cl s) m) as [k|] eqn:E.
    + cbn [bind]. destruct (IH (updn f m true)) as (f' & E' & P). { intros; apply B; right; auto. }
      exists f'. split; auto. intro n. rewrite P. unfold updn. simpl.
      destruct (Nat.eqb_spec n m) as [->|Ne]; intuition congruence.
    + apply nth_error_None in E. specialize (B m (or_introl eq_refl)). lia.
Qed.

(** The literal that verifyModel uses for [v] and the value [j]. *)
Definition ver_lit (o : orig) (v j : Z) (l : lit) : Prop :=
  if oval o v =? -1 then l = mkLit v j false /\ ASG (tr (ost o)) v j = Neg
  else l = mkLit v j (j =? oval o v).

Lemma o_hit_value_ok o v f j : (forall l n, In n (rec (ost o) l) -> (n < length (cl (ost o)))%nat) ->
  exists f', o_hit_value o v f j = Ok f' /\
    forall n, f' n = true <-> f n = true \/ exists l, ver_lit o v j l /\ In n (rec (ost o) l).
Proof.
  intro B. unfold o_hit_value, ver_lit. destruct (oval o v =? -1).
  - destruct (ASG (tr (ost o)) v j) eqn:E.
    + exists f. split; auto. intro n. split; auto. intros [X|(l & (_ & X) & _)]; [auto|discriminate].
    + exists f. split; auto. intro n. split; auto. intros [X|(l & (_ & X) & _)]; [auto|discriminate].
    + destruct (o_hit_ok (ost o) f (mkLit v j false)) as (f' & E' & P); auto. { intros; eapply B; eauto. }
      exists f'. split; auto. intro n. rewrite P. split; [intros [X|X]; eauto 6|].
      intros [X|(l & (-> & _) & X)]; auto.
  - destruct (o_hit_ok (ost o) f (mkLit v j (j =? oval o v))) as (f' & E' & P); auto. { intros; eapply B; eauto. }
    exists f'. split; auto. intro n. rewrite P. split; [intros [X|X]; eauto 6|].
    intros [X|(l & -> & X)]; auto.
Qed.

Lemma hit_fold {A} (g : (nat -> bool) -> A -> outcome (nat -> bool)) (Q : A -> nat -> Prop) L :
  (forall f x, exists f', g f x = Ok f' /\ forall n, f' n = true <-> f n = true \/ Q x n) ->
  forall f, exists f', foldM g L f = Ok f' /\
    forall n, f' n = true <-> f n = true \/ exists x, In x L /\ Q x n.
Proof.
  intro G. induction L as [|x L IH]; intro f; cbn [foldM].
  - exists f. split; auto. intro n. split; auto. intros [X|(x & [] & _)]; auto.
  - destruct (G f x) as (f1 & -> & P1). cbn [bind]. destruct (IH f1) as (f' & -> & P).
    exists f'. split; auto. intro n. rewrite P, P1. split.
    + intros [[X|X]|(y & Y & X)]; auto; right; [exists x|exists y]; simpl; auto.
    + intros [X|(y & [->|Y] & X)]; auto. right. eauto.
Qed.

Lemma o_verify_ok o s : R o s -> CS s -> conflict s = false ->
  exists b, o_verify o = Ok b /\
    (all_sat s -> b = true) /\
    (b = true -> forall a, agree a (tr s) -> forall c, In c (cl s) -> clause_holds a c).
Proof.
  intros HR H Cf. pose proof HR as ((RC & RT) & _ & RV). pose proof (CS_si _ H) as [I1 I2 I3 I4].
  assert (B : forall l n, In n (rec (ost o) l) -> (n < length (cl (ost o)))%nat).
  { intros l n. rewrite (rc_rec _ _ RC), (rc_cl _ _ RC). apply I2. }
  unfold o_verify.
  destruct (hit_fold (fun f v => foldM (o_hit_value o v) (zrange 0 (DOM (tr (ost o)) v)) f)
    (fun v n => exists j, In j (zrange 0 (DOM (tr (ost o)) v)) /\
                  exists l, ver_lit o v j l /\ In n (rec (ost o) l))
    (zrange 1 (NV (tr (ost o))))) with (f := fun _ : nat => false) as (f & E & P).
  { intros f v. apply (hit_fold (o_hit_value o v)
      (fun j n => exists l, ver_lit o v j l /\ In n (rec (ost o) l))).
    intros g j. apply o_hit_value_ok; auto. }
  rewrite E. cbn [bind]. eexists. split; [reflexivity|].
  rewrite (rc_cl _ _ RC). split.
  - intro AS. apply forallb_forall. intros n Hn. apply in_seq in Hn. apply P. right.
    destruct (nth_error (cl s) n) as [k|] eqn:Ek; [|apply nth_error_None in Ek; lia].
    destruct (AS k) as (l & Hl & Tl); [eapply nth_error_In; eauto|].
    pose proof (I3 k l (nth_error_In _ _ Ek) Hl) as (G1 & G2).
    exists (lvar l). rewrite (rc_nv _ _ RC). split; [apply in_zrange; lia|].
    exists (lval l). rewrite (rc_dom _ _ RC). split; [apply in_zrange; lia|].
    exists l. split.
    + apply lit_true_asg in Tl. unfold ver_lit. rewrite (rt_asg _ _ RT).
      destruct (RV (lvar l) G1) as [(_ & V1 & V2 & _)|(_ & V1 & _ & V2)].
      * destruct (Z.eqb_spec (oval o (lvar l)) (-1)); [destruct V1; lia|].
        destruct l as [v j q]; simpl in *. f_equal. symmetry.
        destruct q; simpl in *.
        -- apply Z.eqb_eq. pose proof (cs_TB _ H) as HB.
           rewrite <- (tb_pos _ _ _ HB v j) by (auto; split; auto). apply (tb_pos _ _ _ HB); auto.
        -- apply Z.eqb_neq. intros ->. congruence.
      * rewrite V1. simpl. destruct l as [v j q]; simpl in *. destruct q; auto.
        exfalso. apply (V2 j); auto. split; auto.
    + rewrite (rc_rec _ _ RC). apply nocc_pos. rewrite (I1 n k l Ek). apply occ_pos. auto.
  - intros F a Aa c Hc. apply In_nth_error in Hc. destruct Hc as (n & Hn).
    rewrite forallb_forall in F. specialize (F n).
    assert (Fn : f n = true) by (apply F; apply in_seq; apply nth_error_lt in Hn; lia).
    apply P in Fn. destruct Fn as [Fn|(v & Hv & j & Hj & l & Vl & Il)]; [discriminate|].
    exists l. rewrite (rc_rec _ _ RC) in Il. split.
    + apply occ_pos. rewrite <- (I1 n c l Hn). apply nocc_pos. auto.
    + apply in_zrange in Hv, Hj. rewrite (rc_nv _ _ RC) in Hv. rewrite (rc_dom _ _ RC) in Hj.
      assert (G : range (tr s) v j) by (split; lia).
      unfold ver_lit in Vl. rewrite (rt_asg _ _ RT) in Vl.
      destruct (RV v ltac:(lia)) as [(_ & V1 & V2 & _)|(_ & V1 & _ & V2)].
      * destruct (Z.eqb_spec (oval o v) (-1)); [destruct V1; lia|]. subst l.
        destruct (Aa v (oval o v) V1) as (A1 & _). specialize (A1 V2).
        unfold lit_holds. simpl. destruct (Z.eqb_spec j (oval o v)); congruence.
      * rewrite V1 in Vl. simpl in Vl. destruct Vl as (-> & Vn).
        unfold lit_holds. simpl. apply (Aa v j G). auto.
Qed.

(** ** The first choice *)

Lemma first_max {A B} (k : A -> Z) (mk : A -> B) m0 L :
  (forall x, In x L -> m0 < k x) ->
  let r := fold_left (fun b x => if fst b <? k x then (k x, Some (mk x)) else b) L (m0, None) in
  L = [] /\ r = (m0, None) \/
  exists pre x suf, L = pre ++ x :: suf /\ r = (k x, Some (mk x)) /\
    (forall y, In y pre -> k y < k x) /\ (forall y, In y suf -> k y <= k x).
Proof.
  induction L as [|z L IH] using rev_ind; intro B0; [left; auto|]. right.
  cbv zeta. rewrite fold_left_app. simpl.
  destruct IH as [(-> & E)|(pre & x & suf & -> & E & P1 & P2)].
  { intros; apply B0; apply in_or_app; auto. }
  - rewrite E. simpl. destruct (Z.ltb_spec m0 (k z)); [|specialize (B0 z ltac:(left; auto)); lia].
    exists [], z, []. split; auto. split; auto. split; intros y [].
  - rewrite E. cbn [fst]. destruct (Z.ltb_spec (k x) (k z)) as [Hl|Hl].
    + exists (pre ++ x :: suf), z, []. split; auto. split; auto. split; [|intros y []].
      intros y Hy. apply in_app_or in Hy. destruct Hy as [Hy|[<-|Hy]]; auto.
      * specialize (P1 y Hy). lia.
      * specialize (P2 y Hy). lia.
    + exists pre, x, (suf ++ [z]). split; [rewrite <- app_assoc; auto|]. split; auto. split; auto.
      intros y Hy. apply in_app_or in Hy. destruct Hy as [Hy|[<-|[]]]; auto.
Qed.

Definition before (x y : Z * Z) : Prop := fst x < fst y \/ fst x = fst y /\ snd x < snd y.

Inductive ordered : list (Z * Z) -> Prop :=
| ord_nil : ordered []
| ord_cons x L : (forall y, In y L -> before x y) -> ordered L -> ordered (x :: L).

Lemma ordered_app L M : ordered L -> ordered M -> (forall x y, In x L -> In y M -> before x y) ->
  ordered (L ++ M).
Proof.
  induction 1 as [|x L Hx HL IH]; intros HM C; simpl; auto. constructor.
  - intros y Hy. apply in_app_or in Hy. destruct Hy; auto. apply C; auto. left; auto.
  - apply IH; auto. intros; apply C; auto. right; auto.
Qed.

Lemma ordered_split pre x suf : ordered (pre ++ x :: suf) -> forall y, In y suf -> before x y.
Proof.
  induction pre as [|z pre IH]; simpl; intro H; inversion H; subst; auto.
Qed.

Lemma ordered_row v lo n : ordered (map (fun d => (v, d)) (map (fun k => lo + Z.of_nat k) (seq 0 n))).
Proof.
  induction n as [|n IH]; [constructor|]. rewrite seq_S, !map_app. apply ordered_app; auto.
  - simpl. constructor; [intros y []|constructor].
  - intros x y Hx Hy. rewrite map_map in Hx. apply in_map_iff in Hx. destruct Hx as (k & <- & Hk).
    simpl in Hy. destruct Hy as [<-|[]]. right. simpl. apply in_seq in Hk. lia.
Qed.

Lemma ordered_atoms t : ordered (atoms_from t 0).
Proof.
  unfold atoms_from. replace (NV t + 1 - 0) with (NV t + 1) by lia. unfold zrange at 2.
  induction (Z.to_nat (NV t + 1)) as [|n IH]; [constructor|].
  rewrite seq_S, map_app, flat_map_app. apply ordered_app; auto.
  - simpl. rewrite app_nil_r. apply ordered_row.
  - intros (v & d) (v' & d') Hx Hy. apply in_flat_map in Hx. destruct Hx as (u & Hu & Hx).
    apply in_map_iff in Hu. destruct Hu as (k & <- & Hk). apply in_seq in Hk.
    apply in_map_iff in Hx. destruct Hx as (? & X & _). injection X as <- _.
    simpl in Hy. rewrite app_nil_r in Hy. apply in_map_iff in Hy. destruct Hy as (? & Y & _).
    injection Y as <- _. left. simpl. lia.
Qed.

Lemma list_sum_le {A} (f g : A -> nat) L : (forall x, In x L -> (f x <= g x)%nat) ->
  (list_sum (map f L) <= list_sum (map g L))%nat.
Proof.
  induction L as [|x L IH]; simpl; intro H; auto.
  specialize (IH (fun y Hy => H y (or_intror Hy))). specialize (H x (or_introl eq_refl)). lia.
Qed.

Lemma occurrences_le p l : 0 <= occurrences p l <= literals p.
Proof.
  unfold occurrences, literals. split; [lia|]. apply inj_le, list_sum_le. intros c _. induction c as [|x c IH]; simpl; auto. destruct (lit_eqb l x); simpl; lia.
Qed.

Lemma fold_left_ext {A B} (f g : A -> B -> A) L : forall b, (forall b x, In x L -> f b x = g b x) ->
  fold_left f L b = fold_left g L b.
Proof.
  induction L as [|x L IH]; intros b H; simpl; auto. rewrite H by (left; auto).
  apply IH. intros; apply H; right; auto.
Qed.

Lemma first_choice_ok e p t o v d : usable p -> otrail p t -> obuilt e t (clauses p) o ->
  first_choice p v d -> literals p <= 1000000000 ->
  snd (o_choose (o_check_unit o)) = Some (mkLit v d true).
Proof.
  intros U (N & D & A & _) B (V1 & V2 & V3) Lt. destruct B as [b0 b1 b2 b3 b4 b5 b6 b7 b8].
  destruct b0 as (_ & v2 & _).
  unfold o_choose. cbn [snd].
  assert (D0 : DOM t 0 = 0) by (rewrite D; reflexivity).
  assert (N0 : 0 <= NV t) by (rewrite N; unfold nvars; lia).
  set (k := fun a : Z * Z => lead p (fst a) (snd a)).
  set (mk := fun a : Z * Z => mkLit (fst a) (snd a) true).
  change (tr (ost (o_check_unit o))) with (tr (ost o)). rewrite b1.
  erewrite (fold_left_ext _ (fun b x => if fst b <? k x then (k x, Some (mk x)) else b)).
  2: { intros b (x & y) Hx. apply in_atoms0 in Hx; auto. destruct Hx as (Hx & Hy).
       unfold o_choose_step. cbn [o_check_unit on ost osat tr set_ulist cnt]. rewrite b1, v2, A.
       cbn [o_init osat]. destruct (Z.eqb_spec x 0); [lia|].
       rewrite !b7. reflexivity. }
  destruct (first_max k mk o_max0 (atoms_from t 0)) as [(E & _)|(pre & x & suf & E & F & P1 & P2)].
  { intros (x & y) _. unfold k, lead, o_max0. cbn [fst snd].
    pose proof (occurrences_le p (mkLit x y true)). pose proof (occurrences_le p (mkLit x y false)). lia. }
  { assert (I : In (v, d) (atoms_from t 0)) by (apply in_atoms0; auto; split; [lia|rewrite D; auto]).
    rewrite E in I. destruct I. }
  rewrite F. cbn [snd]. f_equal. destruct x as (x & y). unfold mk. cbn [fst snd].
  assert (I : In (v, d) (atoms_from t 0)) by (apply in_atoms0; auto; split; [lia|rewrite D; auto]).
  assert (J : In (x, y) (atoms_from t 0)) by (rewrite E; apply in_or_app; right; left; auto).
  apply in_atoms0 in J; auto. destruct J as (J1 & J2). rewrite N in J1. rewrite D in J2.
  destruct (V3 x y J1 J2) as (M1 & M2).
  rewrite E in I. apply in_app_or in I. destruct I as [I|[I|I]].
  - specialize (P1 _ I). unfold k in P1. cbn [fst snd] in P1. lia.
  - congruence.
  - pose proof (ordered_atoms t) as O. rewrite E in O. pose proof (ordered_split _ _ _ O _ I) as X.
    unfold before in X. cbn [fst snd] in X. specialize (P2 _ I). unfold k in P2. cbn [fst snd] in P2.
    assert (lead p x y < lead p v d) by (apply M2; lia). lia.
Qed.

(** ** Runs with chronological backtracking *)

Lemma wf_legalT p t a : wf p -> NV t = nvars p -> (forall v, DOM t v = domsize p v) ->
  (legal p a <-> legalT a t).
Proof.
  intros W N D. unfold legal, legalT. rewrite N.
  split; intros H v Hv; specialize (H v Hv); pose proof (wf_two p v W Hv) as X; rewrite ?D in *; lia.
Qed.

Definition clock_rang (clk : nat -> bool) : Prop := exists k, clk k = true.

Lemma o_solve_chrono clk p : wf p ->
  exists N rep, (forall fuel, (N <= fuel)%nat -> o_solve fuel Chrono PIgnore clk p = Ok rep) /\
    (or_verdict rep = SAT -> exists b, or_verified rep = Some b /\ (b = true -> satisfiable p) /\
       (or_message rep = false -> b = true)) /\
    (or_verdict rep <> SAT -> or_verified rep = None) /\
    (or_verdict rep = TIMEOUT -> clock_rang clk) /\
    (or_verdict rep = UNSAT -> or_decisions rep = 0 -> ~ satisfiable p) /\
    (forall v d, first_choice p v d -> no_units p -> clauses p <> [] -> literals p <= 1000000000 ->
       (or_verdict rep = UNSAT -> forall a, is_model p a -> a v <> d) /\
       (or_verified rep = Some true -> exists a, is_model p a /\ a v = d)) /\
    (or_verdict rep = UNSAT -> satisfiable p ->
       exists v d, 1 <= v <= nvars p /\ 0 <= d < domsize p v /\ forall a, is_model p a -> a v <> d) /\
    or_variables rep = nvars p /\ or_clauses rep = Z.of_nat (length (clauses p)).
Proof.
  intro W. destruct (o_build_ok PIgnore p W) as (t & o & EB & OT & B).
  destruct (start_R _ _ _ _ (wf_usable _ W) OT B) as
    (HR & H & Lv & ST & Cl & Cf & Tk & Pt & Ms & Dc & Ul).
  set (o1 := o_check_unit o) in *. set (s := ghost o1) in *.
  destruct (otop clk o1 s HR H Pt Lv) as (N & (v & o') & E & s' & R' & Cl' & NV' & DM' & P & Q).
  pose proof ST as (SN & SD & _).
  assert (NVs : NV (tr s') = nvars p) by congruence.
  assert (DMs : forall x, DOM (tr s') x = domsize p x) by (intro x; rewrite DM'; auto).
  assert (AG : forall a, is_model p a -> legalT a (tr s) /\ (forall c, In c (cl s) -> clause_holds a c) /\ agree a (tr s)).
  { intros a (La & Ha). split; [apply (wf_legalT p); auto|]. rewrite Cl. split; auto. eapply start_agree; eauto. }
  assert (UN : no_units p -> ulist s = []).
  { intro X. destruct (ulist s) as [|n l] eqn:Eu; auto. exfalso.
    destruct (proj1 (Ul n)) as (k & K1 & K2); [left; auto|]. apply nth_error_In in K1. apply (X k); auto. }
  assert (CH : clauses p <> [] -> o_check_sat o1 = false).
  { intro X. unfold o_check_sat. change (cl (ost o1)) with (cl s). rewrite Cl.
    destruct B as [(_ & _ & _ & b4 & _) _ _ _ _ _ _ _ _]. change (ocsat o1) with (ocsat o).
    rewrite b4. destruct (clauses p); [congruence|reflexivity]. }
  assert (FC : forall x d, first_choice p x d -> literals p <= 1000000000 ->
    snd (o_choose o1) = Some (mkLit x d true)).
  { intros x d X1 X2. eapply first_choice_ok; eauto. }
  assert (BUILD : forall fuel, (N <= fuel)%nat ->
     o_solve fuel Chrono PIgnore clk p = o_finish (v, o')).
  { intros fuel Hf. unfold o_solve. rewrite EB. cbn [bind o_search]. fold o1. rewrite E by auto. reflexivity. }
  pose proof R' as ((RC' & _) & _).
  destruct v.
  - destruct P as (H' & Cf' & Al).
    destruct (o_verify_ok o' s' R' H' Cf') as (b & Ev & V1 & V2).
    assert (B' := TB_noconf _ _ _ (cs_TB _ H') Cf').
    destruct (pick_agree (tr s') _ B') as (G1 & G2).
    assert (MD : b = true -> is_model p (pick (tr s'))).
    { intro X. split; [apply (wf_legalT p (tr s')); auto|]. intros c Hc. apply (V2 X); auto.
      rewrite Cl', Cl. auto. }
    eexists N, _. split.
    { intros fuel Hf. rewrite BUILD by auto. unfold o_finish. rewrite Ev. cbn [bind]. reflexivity. }
    cbn [or_verdict or_verified or_message or_decisions or_variables or_clauses].
    split. { intros _. exists b. split; auto. split; [intro X; exists (pick (tr s')); auto|].
             intro M0. destruct Al as [Al|Al]; [congruence|auto]. }
    split; [congruence|]. split; [discriminate|]. split; [discriminate|]. split.
    { intros x d F1 F2 F3 F4. split; [discriminate|]. intro X. injection X as ->.
      exists (pick (tr s')). split; auto.
      specialize (Q (UN F2) Cf (CH F3)). rewrite (FC x d F1 F4) in Q. destruct Q as (Q1 & Q2).
      apply (agree_true _ _ _ G2 Q1 Q2). }
    split; [discriminate|]. rewrite (rc_nv _ _ RC'), (rc_cl _ _ RC'), Cl', Cl. auto.
  - eexists N, _. split; [intros fuel Hf; rewrite BUILD by auto; reflexivity|].
    cbn [or_verdict or_verified or_message or_decisions or_variables or_clauses].
    split; [discriminate|]. split; auto. split; [destruct P as (k & _ & P); exists k; auto|].
    split; [discriminate|]. split; [intros; split; discriminate|]. split; [discriminate|].
    rewrite (rc_nv _ _ RC'), (rc_cl _ _ RC'), Cl', Cl. auto.
  - eexists N, _. split; [intros fuel Hf; rewrite BUILD by auto; reflexivity|].
    cbn [or_verdict or_verified or_message or_decisions or_variables or_clauses].
    split; [discriminate|]. split; auto. split; [discriminate|].
    split. { intros _ X (a & Ma). destruct (AG a Ma) as (A1 & A2 & A3). apply (proj1 P ltac:(congruence) a); auto. }
    split.
    { intros x d F1 F2 F3 F4. split; [|discriminate]. intros _ a Ma X. destruct (AG a Ma) as (A1 & A2 & A3).
      specialize (Q (UN F2) Cf (CH F3)). rewrite (FC x d F1 F4) in Q. apply (Q a); auto. }
    split.
    { intros _ (a0 & M0). destruct P as (_ & [P|(l & P1 & (P2 & P3) & P4)]).
      - exfalso. destruct (AG a0 M0) as (A1 & A2 & A3). apply (P a0); auto.
      - exists (lvar l), (lval l). rewrite <- SN, <- SD. split; auto. split; auto. intros a Ma X.
        destruct (AG a Ma) as (A1 & A2 & A3). apply (P4 a); auto. unfold lit_holds. rewrite P1. exact X. }
    rewrite (rc_nv _ _ RC'), (rc_cl _ _ RC'), Cl', Cl. auto.
Qed.
