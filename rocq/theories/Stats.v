(** * The statistics *)

From Coq Require Import Floats.SpecFloat.
From Verif Require Import Spec Outcome State ModelCounter ModelHeur ModelLearn ModelWatch
  ModelSearch ModelBuild Base Trail Reduce Counter Propagate Choose Scores Chrono
  Init Nc Solve Watch WatchProp Wl SolveWl Fuel Counts Steps Reach StepSpec StepFacts Runs StatSpec Frame.

(** Entries of the decision stack are assigned. *)
Definition held (s : state) : Prop := forall f, In f (DST (tr s)) -> ASG (tr s) (lvar f) (lval f) <> Un.

Lemma TD_held s : TD (tr s) -> held s.
Proof.
  intros H f Hf. apply In_nth_error in Hf. destruct Hf as (i & Hi).
  destruct (td_dst _ H i f Hi) as (_ & T & _). intro U. unfold lit_true in T. rewrite U in T.
  destruct (leq f); discriminate.
Qed.

(** Assigned atoms keep their reason. *)
Definition same_on (s s' : state) : Prop :=
  forall v d, ASG (tr s) v d <> Un -> CID (tr s') v d = CID (tr s) v d /\ ASG (tr s') v d <> Un.

Lemma same_on_refl s : same_on s s.
Proof. intros v d H; auto. Qed.
Lemma same_on_trans a b c : same_on a b -> same_on b c -> same_on a c.
Proof. intros H1 H2 v d H. destruct (H1 v d H) as (A & B). destruct (H2 v d B) as (C & D). split; congruence. Qed.

Definition sofar (s s' : state) : Prop :=
  DST (tr s') = DST (tr s) /\ DOM (tr s') = DOM (tr s) /\ outer s' = outer s /\ same_on s s'.

Lemma sofar_refl s : sofar s s.
Proof. split; [|split; [|split]]; auto. apply same_on_refl. Qed.
Lemma sofar_trans a b c : sofar a b -> sofar b c -> sofar a c.
Proof.
  intros (A1 & A2 & A3 & A4) (B1 & B2 & B3 & B4). split; [|split; [|split]]; try congruence.
  eapply same_on_trans; eauto.
Qed.

Lemma upd2_eq {A} (f : Z -> Z -> A) x d a : upd2 f x d a x d = a.
Proof. unfold upd2. rewrite !Z.eqb_refl. reflexivity. Qed.
Lemma upd2_ne {A} (f : Z -> Z -> A) x d a y e : (y, e) <> (x, d) -> upd2 f x d a y e = f y e.
Proof.
  intro H. unfold upd2. destruct (y =? x) eqn:E1, (e =? d) eqn:E2; auto.
  apply Z.eqb_eq in E1, E2. congruence.
Qed.

Lemma marked_sofar s v d a s' : marked s v d a s' -> ASG (tr s) v d = Un -> a <> Un ->
  sofar s s' /\ CID (tr s') v d = uclause s /\ ASG (tr s') v d = a.
Proof.
  intros (M1 & M2) U A. split.
  - split; [rewrite M1; reflexivity|]. split; [rewrite M1; reflexivity|]. split; auto.
    intros y e H. rewrite M1. unfold markT. cbn [CID ASG].
    assert (X : (y, e) <> (v, d)) by congruence. rewrite !upd2_ne by auto. auto.
  - rewrite M1. unfold markT. cbn [CID ASG]. rewrite !upd2_eq. auto.
Qed.

(** [s'] is [s] with the entries [xs] added to the decision stack. *)
Lemma entries_app k s s' xs : held s -> same_on s s' -> DST (tr s') = DST (tr s) ++ xs ->
  entries k s' = entries k s +
    Z.of_nat (length (filter (fun f => has_origin k (CID (tr s') (lvar f) (lval f))) xs)).
Proof.
  intros H SO E. unfold entries. rewrite E, filter_app, app_length, Nat2Z.inj_add. f_equal. f_equal. f_equal.
  apply filter_ext_in. intros f Hf. destruct (SO _ _ (H f Hf)) as (-> & _). reflexivity.
Qed.

Section Gen.
Variable assign : state -> Z -> Z -> aval -> outcome state.
Hypothesis assign_marked : forall s v d a s', assign s v d a = Ok s' -> marked s v d a s'.

Lemma gex_sofar v s i s' : gexclude assign v s i = Ok s' -> sofar s s'.
Proof.
  unfold gexclude. destruct (conflict s); [intro E; injection E as <-; apply sofar_refl|].
  destruct (ASG (tr s) v i) eqn:U; [|intro E; injection E as <-; apply sofar_refl..].
  intro E. apply assign_marked in E. apply (marked_sofar _ _ _ _ _ E); auto. discriminate.
Qed.

Lemma gexs_sofar v is s s' : foldM (gexclude assign v) is s = Ok s' -> sofar s s'.
Proof.
  apply foldM_inv_ok; [apply sofar_refl|]. intros x a b _ Q E. eapply sofar_trans; eauto.
  eapply gex_sofar; eauto.
Qed.

Record grown (s : state) (xs : list lit) (s' : state) : Prop := mkGrown {
  gr_dst : DST (tr s') = DST (tr s) ++ xs;
  gr_same : same_on s s';
  gr_new : forall f, In f xs -> ASG (tr s') (lvar f) (lval f) <> Un
}.

Lemma gpos_grow s v d s' : ASG (tr s) v d = Un -> gpos assign s v d = Ok s' ->
  grown s [mkLit v d true] s' /\ outer s' = outer s /\ CID (tr s') v d = uclause s.
Proof.
  unfold gpos. intros U E. apply do_ok in E. cbv zeta in E.
  apply bind_ok in E. destruct E as (s1 & E1 & E). apply bind_ok in E. destruct E as (s2 & E2 & E).
  apply assign_marked in E1. destruct (marked_sofar _ _ _ _ _ E1 U) as ((D1 & _ & O1 & S1) & C1 & A1); [discriminate|].
  apply gexs_sofar in E2. apply gexs_sofar in E.
  destruct (sofar_trans _ _ _ E2 E) as (D2 & _ & O2 & S2). clear E2 E.
  destruct (S2 v d) as (C2 & A2); [congruence|].
  split; [split|split].
  - rewrite D2, D1. reflexivity.
  - apply (same_on_trans _ s1); auto.
  - intros f [<-|[]]. exact A2.
  - rewrite O2, O1. reflexivity.
  - rewrite C2, C1. reflexivity.
Qed.

Lemma gneg_grow s v d s' : ASG (tr s) v d = Un -> gneg assign s v d = Ok s' ->
  CID (tr s') v d = uclause s /\
  (grown s [mkLit v d false] s' /\ outer s' = outer s \/
   exists e, grown s [mkLit v d false; mkLit v e true] s' /\ CID (tr s') v e = REnt /\
     outer s' = outer (set_uclause (set_entails s (entails s + 1)) REnt)).
Proof.
  unfold gneg. intros U E. apply do_ok in E. cbv zeta in E.
  apply bind_ok in E. destruct E as (s1 & E1 & E).
  apply assign_marked in E1. destruct (marked_sofar _ _ _ _ _ E1 U) as ((D1 & _ & O1 & S1) & C1 & A1); [discriminate|].
  destruct (check_entail (tr s1) v) as [e|] eqn:CE.
  - apply check_entail_some in CE. destruct CE as (_ & Ue & _).
    apply gpos_grow in E; [|exact Ue]. destruct E as (G & O & C).
    destruct (gr_same _ _ _ G v d) as (C2 & A2).
    { change (ASG (tr s1) v d <> Un). congruence. }
    change (CID (tr s') v d = CID (tr s1) v d) in C2.
    split; [rewrite C2, C1; reflexivity|]. right. exists e. split; [split|split].
    + rewrite (gr_dst _ _ _ G). change (DST (tr s1) ++ [mkLit v e true] = DST (tr s) ++ [mkLit v d false; mkLit v e true]).
      rewrite D1. cbn. rewrite <- app_assoc. reflexivity.
    + apply (same_on_trans _ s1); [exact S1|exact (gr_same _ _ _ G)].
    + intros f [<-|Hf]; [exact A2|]. apply (gr_new _ _ _ G). exact Hf.
    + exact C.
    + rewrite O. unfold outer in O1 |- *. cbn in O1 |- *. congruence.
  - injection E as <-. split; [exact C1|]. left. split; [split|].
    + rewrite D1. reflexivity.
    + exact S1.
    + intros f [<-|[]]. cbn. congruence.
    + rewrite O1. reflexivity.
Qed.

Definition origin_is (k : origin) (r : reason) : Z := if has_origin k r then 1 else 0.

Lemma has_count k (r : reason) :
  origin_is k r = Z.of_nat (if has_origin k r then 1 else 0).
Proof. unfold origin_is. destruct (has_origin k r); reflexivity. Qed.

Record booked (s : state) (s' : state) : Prop := mkBooked {
  bo_held : held s';
  bo_out : (cl s', vs s', level s', backtracks s', decisions s', units s', restarts s', tick s') =
           (cl s, vs s, level s, backtracks s, decisions s, units s, restarts s, tick s);
  bo_ent : forall k, entries k s' - entries k s =
     origin_is k (uclause s) + match k with Entailed => entails s' - entails s | _ => 0 end;
  bo_len : Z.of_nat (length (DST (tr s'))) - Z.of_nat (length (DST (tr s))) = 1 + (entails s' - entails s)
}.

Lemma greduce_booked s l s' : held s -> ASG (tr s) (lvar l) (lval l) = Un -> greduce assign s l = Ok s' -> booked s s'.
Proof.
  intros H U E. unfold greduce in E.
  assert (HELD : forall xs, grown s xs s' -> held s').
  { intros xs G f Hf. rewrite (gr_dst _ _ _ G) in Hf. apply in_app_or in Hf. destruct Hf as [Hf|Hf].
    - apply (gr_same _ _ _ G). apply H; auto.
    - apply (gr_new _ _ _ G); auto. }
  destruct (leq l).
  - apply gpos_grow in E; auto. destruct E as (G & O & C).
    assert (EE : entails s' = entails s) by (unfold outer in O; congruence).
    split.
    + eapply HELD; eauto.
    + unfold outer in O. congruence.
    + intro k. rewrite (entries_app k s s' _ H (gr_same _ _ _ G) (gr_dst _ _ _ G)). cbn [filter lvar lval].
      rewrite C. rewrite has_count. destruct (has_origin k (uclause s)), k; cbn [length]; lia.
    + rewrite (gr_dst _ _ _ G), app_length. cbn [length]. lia.
  - apply gneg_grow in E; auto. destruct E as (C & [(G & O)|(e & G & Ce & O)]).
    + assert (EE : entails s' = entails s) by (unfold outer in O; congruence).
      split.
      * eapply HELD; eauto.
      * unfold outer in O. congruence.
      * intro k. rewrite (entries_app k s s' _ H (gr_same _ _ _ G) (gr_dst _ _ _ G)). cbn [filter lvar lval].
        rewrite C. rewrite has_count. destruct (has_origin k (uclause s)), k; cbn [length]; lia.
      * rewrite (gr_dst _ _ _ G), app_length. cbn [length]. lia.
    + assert (EE : entails s' = entails s + 1) by (unfold outer in O; cbn in O; congruence).
      split.
      * eapply HELD; eauto.
      * unfold outer in O. cbn in O. congruence.
      * intro k. rewrite (entries_app k s s' _ H (gr_same _ _ _ G) (gr_dst _ _ _ G)). cbn [filter lvar lval].
        rewrite C, Ce. rewrite has_count. destruct (has_origin k (uclause s)), k; cbn [length has_origin]; lia.
      * rewrite (gr_dst _ _ _ G), app_length. cbn [length]. lia.
Qed.

End Gen.

Lemma reduce_booked c s l s' : held s -> ASG (tr s) (lvar l) (lval l) = Un -> reduce_theory c s l = Ok s' -> booked s s'.
Proof. intros H U E. exact (greduce_booked (assign_atom c) (assign_marked c) s l s' H U E). Qed.
Lemma wreduce_booked c s l s' : held s -> ASG (tr s) (lvar l) (lval l) = Un -> wreduce_theory c s l = Ok s' -> booked s s'.
Proof. intros H U E. exact (greduce_booked (wassign_atom c) (wassign_marked c) s l s' H U E). Qed.

(** ** Propagation and decisions *)

Record noted (s s' : state) : Prop := mkNoted {
  no_held : held s';
  no_out : (cl s', vs s', backtracks s', restarts s', tick s') = (cl s, vs s, backtracks s, restarts s, tick s);
  no_dec : decisions s <= decisions s';
  no_acc : accounted s s'
}.

Lemma noted_refl s : held s -> noted s s.
Proof. intro H. split; auto; try lia. intro k. lia. Qed.
Lemma noted_trans a b c : noted a b -> noted b c -> noted a c.
Proof.
  intros [A1 A2 A3 A4] [B1 B2 B3 B4]. split; auto; try congruence; try lia.
  intro k. specialize (A4 k). specialize (B4 k). lia.
Qed.

Lemma first_un_open t : forall ls l, first_un t ls = Ok (Some l) -> lit_un t l = true.
Proof.
  induction ls as [|x ls IH]; intros l E; [discriminate|]. cbn in E. apply do_ok in E.
  destruct (lit_un t x) eqn:U; [congruence|auto].
Qed.

Lemma lit_un_asg t l : lit_un t l = true -> ASG t (lvar l) (lval l) = Un.
Proof. unfold lit_un. destruct (ASG t (lvar l) (lval l)); congruence. Qed.

(** One more literal of origin [k], counted before or after. *)
Lemma booked_noted s s1 s' s2 k :
  held s -> tr s1 = tr s -> total_of k s1 - total_of k s + (total_of k s2 - total_of k s') = 1 ->
  (forall j, j <> k -> total_of j s1 = total_of j s /\ total_of j s2 = total_of j s') ->
  (cl s1, vs s1, backtracks s1, restarts s1, tick s1) = (cl s, vs s, backtracks s, restarts s, tick s) ->
  (cl s2, vs s2, backtracks s2, restarts s2, tick s2) = (cl s', vs s', backtracks s', restarts s', tick s') ->
  decisions s <= decisions s1 -> decisions s' <= decisions s2 ->
  tr s2 = tr s' -> has_origin k (uclause s1) = true -> k <> Entailed ->
  (forall j, has_origin j (uclause s1) = true -> j = k) ->
  booked s1 s' -> noted s s2.
Proof.
  intros H T1 K J O1 O2 Dec1 Dec2 T2 HO NE U B. destruct B as [B1 B2 B3 B4]. split.
  - unfold held. rewrite T2. exact B1.
  - rewrite O2, <- O1. congruence.
  - assert (decisions s' = decisions s1) by congruence. lia.
  - intro j. specialize (B3 j).
    assert (E1 : entries j s1 = entries j s) by (unfold entries; rewrite T1; auto).
    assert (E2 : entries j s2 = entries j s') by (unfold entries; rewrite T2; auto).
    assert (D1 : decisions s' = decisions s1 /\ units s' = units s1) by (split; congruence).
    unfold origin_is in B3. destruct (has_origin j (uclause s1)) eqn:Hj.
    + apply U in Hj. subst j. destruct k; cbn [total_of] in *; try congruence; lia.
    + assert (j <> k) by congruence. destruct (J j H0) as (J1 & J2). destruct j; cbn [total_of] in *; lia.
Qed.

Lemma up_noted c : forall fuel s s', held s -> unit_propagation fuel c s = Ok s' ->
  noted s s' /\ decisions s' = decisions s /\ level s' = level s.
Proof.
  induction fuel as [|fuel IH]; intros s s' H E; [discriminate|]. cbn [unit_propagation] in E.
  destruct (conflict s); [injection E as <-; auto using noted_refl|].
  destruct (ulist s) as [|n rest] eqn:Ul; [injection E as <-; auto using noted_refl|].
  apply bind_ok in E. destruct E as (C & _ & E). cbn in E.
  assert (SKIP : unit_propagation fuel c (set_ulist (set_uclause s (RCls n)) rest) = Ok s' ->
            noted s s' /\ decisions s' = decisions s /\ level s' = level s).
  { intro E1. apply IH in E1; auto. destruct E1 as (N & D & L). split; [|split]; auto.
    apply (noted_trans _ (set_ulist (set_uclause s (RCls n)) rest)); auto.
    split; auto; try reflexivity. intro k. change (total_of k s - total_of k s = entries k s - entries k s). lia. }
  destruct (clev s n =? -1); [|auto].
  apply bind_ok in E. destruct E as ([l|] & F & E); [|auto].
  apply first_un_open, lit_un_asg in F.
  apply bind_ok in E. destruct E as (s1 & E1 & E).
  set (s0 := set_units (set_ulist (set_uclause s (RCls n)) rest) (units s + 1)) in *.
  apply reduce_booked in E1; auto.
  assert (N1 : noted s s1).
  { apply (booked_noted s s0 s1 s1 Propagated); auto; try reflexivity; try lia; try discriminate.
    - cbn. lia. - intros [| |]; cbn; auto; congruence. 
    - intros [| |]; cbn; auto; discriminate. }
  destruct (IH s1 s' (bo_held _ _ E1) E) as (N2 & D2 & L2). pose proof (bo_out _ _ E1) as BO.
  assert (decisions s1 = decisions s) by (transitivity (decisions s0); [congruence|reflexivity]).
  assert (level s1 = level s) by (transitivity (level s0); [congruence|reflexivity]).
  split; [|split; congruence]. eapply noted_trans; eauto.
Qed.

Lemma sat_open t l : sat t l = Ok SatUn -> ASG t (lvar l) (lval l) = Un.
Proof.
  unfold sat. intro E. apply do_ok in E. injection E as E. apply lit_un_asg.
  destruct (lit_true t l); [discriminate|]. destruct (lit_un t l); congruence.
Qed.

Lemma wup_noted c : forall fuel s s', held s -> wunit_propagation fuel c s = Ok s' ->
  noted s s' /\ decisions s' = decisions s /\ level s' = level s.
Proof.
  induction fuel as [|fuel IH]; intros s s' H E; [discriminate|]. cbn [wunit_propagation] in E.
  destruct (conflict s); [injection E as <-; auto using noted_refl|].
  destruct (ulist s) as [|n rest] eqn:Ul; [injection E as <-; auto using noted_refl|].
  apply bind_ok in E. destruct E as (C & _ & E). cbn in E.
  set (s0 := set_ulist (set_uclause s (RCls n)) rest) in *.
  assert (SKIP : wunit_propagation fuel c s0 = Ok s' ->
            noted s s' /\ decisions s' = decisions s /\ level s' = level s).
  { intro E1. apply IH in E1; auto. destruct E1 as (N & D & L). split; [|split]; auto.
    apply (noted_trans _ s0); auto.
    split; auto; try reflexivity. intro k. change (total_of k s - total_of k s = entries k s - entries k s). lia. }
  assert (GO : forall l, ASG (tr s) (lvar l) (lval l) = Un ->
     (let* s := wreduce_theory c s0 l in wunit_propagation fuel c (set_units s (units s + 1))) = Ok s' ->
     noted s s' /\ decisions s' = decisions s /\ level s' = level s).
  { intros l U G. apply bind_ok in G. destruct G as (s1 & E1 & G). apply wreduce_booked in E1; auto.
    assert (N1 : noted s (set_units s1 (units s1 + 1))).
    { apply (booked_noted s s0 s1 _ Propagated); auto; try reflexivity; try lia; try discriminate.
      - cbn. lia. - intros [| |]; cbn; auto; congruence.
      - intros [| |]; cbn; auto; discriminate. }
    destruct (IH (set_units s1 (units s1 + 1)) s' (bo_held _ _ E1) G) as (N2 & D2 & L2). pose proof (bo_out _ _ E1) as BO.
    assert (decisions s1 = decisions s) by (transitivity (decisions s0); [congruence|reflexivity]).
    assert (level s1 = level s) by (transitivity (level s0); [congruence|reflexivity]).
    cbn in D2, L2. split; [|split; congruence]. eapply noted_trans; eauto. }
  apply bind_ok in E. destruct E as (r & R & E).
  assert (OTHER : forall r2, (if Nat.ltb 1 (length C) then sat (tr s) (w1 s n) else Ok SatFalse) = Ok r2 ->
     match r2 with
     | SatUn => let* s := wreduce_theory c s0 (w1 s0 n) in wunit_propagation fuel c (set_units s (units s + 1))
     | _ => wunit_propagation fuel c s0
     end = Ok s' -> noted s s' /\ decisions s' = decisions s /\ level s' = level s).
  { intros r2 R2 E2. destruct r2; auto. destruct (Nat.ltb 1 (length C)); [|discriminate].
    apply (GO (w1 s n)); auto. apply sat_open; auto. }
  destruct r.
  - apply bind_ok in E. destruct E as (r2 & R2 & E). apply (OTHER r2); auto.
  - apply (GO (w0 s n)); auto. apply sat_open; auto.
  - apply bind_ok in E. destruct E as (r2 & R2 & E). apply (OTHER r2); auto.
Qed.

Lemma dec_noted c s r l s' : held s -> ASG (tr s) (lvar l) (lval l) = Un ->
  nc_decide c (set_uclause s r) l = Ok s' -> noted s s' /\ decisions s' = decisions s + 1.
Proof.
  intros H U E. unfold nc_decide in E. cbv zeta in E. apply reduce_booked in E; auto. split.
  - refine (booked_noted s _ s' s' Decided _ _ _ _ _ _ _ _ _ _ _ _ E);  auto; try reflexivity; try lia; try discriminate.
    all: try (cbn; lia); intros [| |]; cbn; auto; (congruence || discriminate).
  - pose proof (bo_out _ _ E) as O. cbn in O. congruence.
Qed.
Lemma wdec_noted c s r l s' : held s -> ASG (tr s) (lvar l) (lval l) = Un ->
  wl_decide c (set_uclause s r) l = Ok s' -> noted s s' /\ decisions s' = decisions s + 1.
Proof.
  intros H U E. unfold wl_decide in E. cbv zeta in E. apply wreduce_booked in E; auto. split.
  - refine (booked_noted s _ s' s' Decided _ _ _ _ _ _ _ _ _ _ _ _ E);  auto; try reflexivity; try lia; try discriminate.
    all: try (cbn; lia); intros [| |]; cbn; auto; (congruence || discriminate).
  - pose proof (bo_out _ _ E) as O. cbn in O. congruence.
Qed.
