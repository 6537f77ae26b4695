(** * Counters of the recursive search of the first version

    How far the counters of the literals drift, and how the numbers of decisions and backtracks
    are related. *)

From Verif Require Import Spec WideSpec Outcome State ModelCounter ModelHeur ModelLearn ModelWatch
  ModelSearch ModelBuild ModelOrig
  Base Trail Reduce Counter CounterUndo Propagate Choose Scores Init Chrono Cdcl Solve
  OrigSpec OrigSim OrigProp OrigChrono OrigInit OrigSolve OrigPtr OrigCid OrigDrift OrigNC OrigMono.
#[local] Open Scope Z_scope.

(** ** What assigning and undoing leave alone *)

Definition late (j : Z) (t : trail) (v i : Z) : Prop := ASG t v i = Un \/ j <= ALEV t v i.

Section Keep.
Variables (k d b : Z) (m : bool) (t0 : trail).
Definition kp_st (s : state) : Prop :=
  level s = k /\ decisions s = d /\ backtracks s = b /\ NV (tr s) = NV t0 /\ DOM (tr s) = DOM t0 /\
  forall j v i, j <= k -> late j t0 v i -> late j (tr s) v i.
Definition kp (o : orig) : Prop := kp_st (ost o) /\ omsg o = m.

Lemma kp_atom o v i a c r : kp o -> k <= c \/ a = Un -> kp (on o (set_atom (ost o) v i a c r)).
Proof.
  intros ((H1 & H2 & H3 & H4 & H5 & H6) & H7) X. split; [|exact H7]. do 5 (split; [assumption|]).
  intros j w e J Z. specialize (H6 j w e J Z). unfold late in *. simpl. unfold upd2.
  destruct ((w =? v) && (e =? i)); auto. destruct X as [X|X]; [right; lia|auto].
Qed.
Lemma kp_fold {A} (f : orig -> A -> outcome orig) L o :
  (forall o x, kp o -> pres kp (f o x)) -> kp o -> pres kp (foldM f L o).
Proof. intros F H. apply (pres_fold kp); auto. Qed.
Lemma kp_st_fold {A} (f : state -> A -> outcome state) L s :
  (forall o x, kp_st o -> pres kp_st (f o x)) -> kp_st s -> pres kp_st (foldM f L s).
Proof. intros F H. apply (pres_fold kp_st); auto. Qed.

Lemma kp_satisfy o l : kp o -> pres kp (o_satisfy o l).
Proof.
  intro H. unfold o_satisfy. apply pres_any. intros _. apply kp_fold; auto. clear. intros o n H.
  unfold o_sat_step. apply pres_any. intro c. destruct (ocsat o n); [exact H|].
  apply (pres_bind kp_st).
  - apply kp_st_fold; [|apply H]. intros s x Hs. unfold o_dec. apply pres_any. intros _.
    destruct (lit_un (tr s) x); exact Hs.
  - intros s Hs. split; [exact Hs|apply H].
Qed.
Lemma kp_remove o l : kp o -> pres kp (o_remove o l).
Proof.
  intro H. unfold o_remove. apply pres_any. intros _. apply kp_fold; auto. clear. intros o n H.
  unfold o_remove_step. apply pres_any. intros _. destruct (ocsat o n); [exact H|].
  destruct (num (ost o) n - 1 =? 1), (num (ost o) n - 1 =? 0); exact H.
Qed.
Lemma kp_add o l : kp o -> pres kp (o_add o l).
Proof.
  intro H. unfold o_add. apply pres_any. intros _. apply kp_fold; auto. clear. intros o n H.
  unfold o_add_step. apply pres_any. intros _. destruct (ocsat o n); exact H.
Qed.
Lemma kp_unsatisfy lev o l : kp o -> pres kp (o_unsatisfy lev o l).
Proof.
  intro H. unfold o_unsatisfy. apply pres_any. intros _. apply kp_fold; auto. clear - k d b m t0. intros o n H.
  unfold o_unsat_step. apply pres_any. intros c. destruct (lev <? clev (ost o) n); [|exact H].
  apply (pres_bind kp_st).
  - apply kp_st_fold; [|apply H]. intros s x Hs. unfold o_inc. apply pres_any. intros _.
    destruct ((lev <? _) || _); exact Hs.
  - intros s Hs. split; [exact Hs|apply H].
Qed.
Lemma kp_assign o v i a : kp o -> pres kp (o_assign o v i a).
Proof.
  intro H. unfold o_assign. apply (pres_bind kp); [apply kp_satisfy; auto|].
  intros o1 H1. apply (pres_bind kp); [apply kp_remove; auto|]. intros o2 H2.
  apply kp_atom; auto. left. destruct H2 as ((X & _) & _). lia.
Qed.
Lemma kp_exclude v o i : kp o -> pres kp (o_exclude v o i).
Proof.
  intro H. unfold o_exclude. destruct (conflict (ost o)); [exact H|].
  destruct (ASG (tr (ost o)) v i); try exact H. apply kp_assign; auto.
Qed.
Lemma kp_reduce_pos o v i : kp o -> pres kp (o_reduce_pos o v i).
Proof.
  intro H. unfold o_reduce_pos. apply pres_any. intros _.
  apply (pres_bind kp); [apply kp_assign; auto|]. intros o1 H1.
  apply (pres_bind kp).
  - apply kp_fold; [intros; apply kp_exclude; auto|]. exact H1.
  - intros o2 H2. apply kp_fold; [intros; apply kp_exclude; auto|]. exact H2.
Qed.
Lemma kp_reduce o l : kp o -> pres kp (o_reduce o l).
Proof.
  intro H. unfold o_reduce. destruct (leq l); [apply kp_reduce_pos; auto|].
  unfold o_reduce_neg. apply pres_any. intros _. apply (pres_bind kp); [apply kp_assign; auto|].
  intros o1 H1. apply (pres_bind (fun q => kp (fst q))).
  - unfold o_check_entail. apply pres_any. intro e.
    destruct (if osat _ _ then None else check_entail _ _); exact H1.
  - intros (o2 & [e|]) H2; [|exact H2]. apply kp_reduce_pos. exact H2.
Qed.
Lemma kp_undo o lev : kp o -> pres kp (o_undo o lev).
Proof.
  intro H. unfold o_undo. apply (pres_bind kp).
  { apply kp_fold; auto. intros o1 (v & i) H1. unfold o_undo1.
    destruct (lev <? _); [|exact H1]. destruct (ASG (tr (ost o1)) v i); apply kp_add; auto. }
  intros o1 H1. apply (pres_bind kp).
  { apply kp_fold; auto. intros o2 v H2. unfold o_undo_var. apply (pres_bind kp).
    - apply kp_fold; auto. intros o3 i H3. unfold o_undo2. destruct (lev <? _); [|exact H3].
      apply (pres_bind kp).
      + destruct (ASG (tr (ost o3)) v i); apply kp_unsatisfy; auto.
      + intros o4 H4. apply kp_atom; auto.
    - intros o3 H3. destruct (lev <? ovlev o3 v); exact H3. }
  intros o2 H2. unfold prune_dst. destruct (forallb _ _); simpl; auto.
Qed.
Lemma kp_propagate_loop fuel : forall o, kp o -> pres (fun o => kp o /\ (conflict (ost o) = true \/ ulist (ost o) = [])) (o_propagate_loop fuel o).
Proof.
  induction fuel as [|f IH]; intros o H; [exact I|]. cbn [o_propagate_loop]. cbv zeta.
  destruct (conflict (ost o)) eqn:C; [split; auto|]. destruct (ulist (ost o)) as [|n rest] eqn:U; [split; auto|].
  destruct (getcl _ n) as [c| |]; cbn [bind]; try exact I.
  destruct (ocsat o n); [apply IH; exact H|]. apply pres_any. intros [l|]; [|apply IH; exact H].
  apply (pres_bind kp); [apply kp_reduce; exact H|]. exact IH.
Qed.
Lemma kp_units fuel o : kp o -> pres (fun o => kp o /\ (conflict (ost o) = true \/ ulist (ost o) = [])) (o_units fuel o).
Proof.
  intro H. unfold o_units. destruct (ulist (ost o)) as [|n L] eqn:U; [split; auto|]. clear n L U.
  unfold o_propagate. apply (pres_bind _ _ _ _ (kp_propagate_loop fuel o H)). intros o1 (H1 & H2).
  destruct (conflict (ost o1)) eqn:C; split; auto. right. destruct H2; auto. congruence.
Qed.
End Keep.

(** undoTheory makes what was assigned above the level unassigned. *)
Lemma fold_hit {A B} (P Y : B -> Prop) (f : B -> A -> outcome B) L x :
  (forall b y, P b -> pres P (f b y)) -> (forall b y, Y b -> pres Y (f b y)) ->
  (forall b, P b -> pres Y (f b x)) -> In x L -> forall b, P b -> pres Y (foldM f L b).
Proof.
  intros H1 H2 H3 I. induction L as [|y L IH]; intros b Pb; [destruct I|]. cbn [foldM]. destruct I as [->|I].
  - apply (pres_bind Y); auto. intros c Hc. apply (pres_fold Y); auto.
  - apply (pres_bind P); auto.
Qed.
Section Undone.
Variables (lev w e : Z).
Definition zlate (o : orig) : Prop := late (lev + 1) (tr (ost o)) w e.
Definition zun (o : orig) : Prop := ASG (tr (ost o)) w e = Un.
Lemma zlate_unsatisfy o l : zlate o -> pres zlate (o_unsatisfy lev o l).
Proof.
  intro H. pose proof (sco_unsatisfy lev o l) as X. destruct (o_unsatisfy lev o l); simpl in *; auto.
  destruct X as (_ & X & _). unfold zlate. rewrite X. exact H.
Qed.
Lemma zun_unsatisfy o l : zun o -> pres zun (o_unsatisfy lev o l).
Proof.
  intro H. pose proof (sco_unsatisfy lev o l) as X. destruct (o_unsatisfy lev o l); simpl in *; auto.
  destruct X as (_ & X & _). unfold zun. rewrite X. exact H.
Qed.
Lemma zlate_undo2 v o i : zlate o -> pres zlate (o_undo2 lev v o i).
Proof.
  intro H. unfold o_undo2. destruct (lev <? _); [|exact H].
  apply (pres_bind zlate); [destruct (ASG (tr (ost o)) v i); apply zlate_unsatisfy; auto|].
  intros o1 H1. unfold zlate, late in *. simpl. unfold upd2. destruct ((w =? v) && (e =? i)); auto.
Qed.
Lemma zun_undo2 v o i : zun o -> pres zun (o_undo2 lev v o i).
Proof.
  intro H. unfold o_undo2. destruct (lev <? _); [|exact H].
  apply (pres_bind zun); [destruct (ASG (tr (ost o)) v i); apply zun_unsatisfy; auto|].
  intros o1 H1. unfold zun in *. simpl. unfold upd2. destruct ((w =? v) && (e =? i)); auto.
Qed.
Lemma zhit_undo2 o : zlate o -> pres zun (o_undo2 lev w o e).
Proof.
  intro H. destruct (Z.ltb_spec lev (ALEV (tr (ost o)) w e)) as [X|X].
  - unfold o_undo2. destruct (Z.ltb_spec lev (ALEV (tr (ost o)) w e)); [|lia]. apply pres_any. intro o1.
    unfold zun. simpl. unfold upd2. rewrite !Z.eqb_refl. reflexivity.
  - apply zun_undo2. destruct H as [H|H]; [exact H|lia].
Qed.
Lemma undo_un o : zlate o -> lrange (tr (ost o)) (mkLit w e true) -> pres zun (o_undo o lev).
Proof.
  intros H ((R1 & R2) & R3). cbn [lvar lval] in *. unfold o_undo.
  set (P := fun o' : orig => zlate o' /\ DOM (tr (ost o')) = DOM (tr (ost o)) /\ NV (tr (ost o')) = NV (tr (ost o))).
  apply (pres_bind P).
  { apply (pres_fold P); [|split; auto]. intros o1 (v & i) H1. unfold o_undo1.
    assert (G : forall l, pres P (o_add o1 l)).
    { intro l. pose proof (sco_add o1 l) as X. destruct (o_add o1 l); simpl in *; auto. destruct X as (_ & X & _).
      unfold P, zlate in *. rewrite X. exact H1. }
    destruct (lev <? _); [|exact H1]. destruct (ASG (tr (ost o1)) v i); apply G. }
  intros o1 (H1 & D1 & N1). apply (pres_bind zun).
  - assert (PP : forall v o i, P o -> pres P (o_undo2 lev v o i)).
    { clear. intros v o0 i (A & B). pose proof (zlate_undo2 v o0 i A) as X. revert X. unfold o_undo2.
      destruct (lev <? _); [|intros _; split; auto].
      pose proof (fun l => sco_unsatisfy lev o0 l) as S.
      set (r := match ASG _ _ _ with Neg => _ | _ => _ end).
      assert (Sr : pres (sco o0) r) by (unfold r; destruct (ASG (tr (ost o0)) v i); apply S). clearbody r.
      destruct r as [o2| |]; simpl; auto. simpl in Sr. destruct Sr as (_ & Sr & _). intro X. split; auto. simpl. rewrite Sr. exact B. }
    apply (fold_hit P zun) with (x := w).
    + intros o2 v H2. unfold o_undo_var. apply (pres_bind P); [apply (pres_fold P); auto|].
      intros o3 H3. destruct (lev <? _); exact H3.
    + intros o2 v H2. unfold o_undo_var. apply (pres_bind zun); [apply (pres_fold zun); auto; intros; apply zun_undo2; auto|].
      intros o3 H3. destruct (lev <? _); exact H3.
    + intros o2 H2. unfold o_undo_var. apply (pres_bind zun).
      * apply (fold_hit P zun) with (x := e); auto.
        -- intros; apply zun_undo2; auto.
        -- intros o3 (H3 & _). apply zhit_undo2; auto.
        -- apply in_zrange. destruct H2 as (_ & H2 & _). rewrite H2. lia.
      * intros o3 H3. destruct (lev <? _); exact H3.
    + apply in_zrange. lia.
    + split; auto.
  - intros o2 H2. unfold prune_dst. destruct (forallb _ _); cbn [bind]; [|exact I]. exact H2.
Qed.
End Undone.

(** ** The counters of the literals *)

Definition cdrift (T : Z) (o : orig) : Prop :=
  let B := backtracks (ost o) in
  0 <= B /\ 0 <= T /\ size (ost o) = T /\
  forall x, lrec x (ost o) <= T /\ - (2 * (B + 1) * T) <= slack x o /\ cnt (ost o) x <= T + 2 * B * T.

Lemma cdrift_fr T o o' : (forall x, fr x o o') -> cdrift T o -> cdrift T o'.
Proof.
  intros F (B & T0 & S & H). assert (Q : backtracks (ost o') = backtracks (ost o)) by apply (fr_bt nolit _ _ (F nolit)).
  unfold cdrift. rewrite Q. split; auto. split; auto. split.
  { unfold size. rewrite (fr_cl nolit _ _ (F nolit)). exact S. }
  intro x. destruct (H x) as (H1 & H2 & H3). pose proof (fr_slack _ _ _ (F x)). pose proof (fr_up _ _ _ (F x)). split; [|lia]. unfold lrec. rewrite (fr_rec _ _ _ (F x)). exact H1.
Qed.
Lemma cdrift_same T o o' : cl (ost o') = cl (ost o) -> rec (ost o') = rec (ost o) ->
  backtracks (ost o') = backtracks (ost o) -> ASG (tr (ost o')) = ASG (tr (ost o)) -> ocsat o' = ocsat o ->
  cnt (ost o') = cnt (ost o) -> cdrift T o -> cdrift T o'.
Proof. intros. eapply cdrift_fr; eauto. intro x. apply fr_same; auto. Qed.
Lemma cdrift_pres T o r : (forall x, pres (fr x o) r) -> cdrift T o -> pres (cdrift T) r.
Proof. intros F H. destruct r as [o'| |]; simpl in *; auto. eapply cdrift_fr; eauto. Qed.
Lemma cdrift_choice T o l l' : cdrift T o ->
  - ((4 * backtracks (ost o) + 3) * T) <= cnt (ost o) l - cnt (ost o) l'.
Proof.
  intros (B & T0 & S & H). destruct (H l) as (_ & H2 & _). destruct (H l') as (_ & _ & H3).
  pose proof (phi_0 l o). unfold slack in H2. nia.
Qed.
Lemma cdrift_undo T o s lev : cdrift T o -> -1 <= lev -> cl s = cl (ost o) -> rec s = rec (ost o) -> cnt s = cnt (ost o) ->
  backtracks s = backtracks (ost o) + 1 -> pres (cdrift T) (o_undo (on o s) lev).
Proof.
  intros (B & T0 & S & H) Lv E1 E2 E3 E4.
  assert (U := fun x => un_undo x lev (on o s) Lv). destruct (o_undo (on o s) lev) as [o'| |]; try exact I.
  cbn [pres ost on] in *. unfold cdrift. destruct (U nolit) as (C1 & C2 & C3 & _). rewrite C3, E4.
  split; [lia|]. split; auto. split; [unfold size; rewrite C1, E1; exact S|].
  intro x. destruct (H x) as (H1 & H2 & H3). destruct (U x) as (_ & _ & _ & C4).
  assert (S' : size s = T) by (unfold size; rewrite E1; exact S).
  assert (L' : lrec x s = lrec x (ost o)) by (unfold lrec; rewrite E2; auto).
  assert (L2 : lrec x (ost o') = lrec x (ost o)) by (unfold lrec; rewrite C2, E2; auto).
  assert (S2 : size (ost o') = T) by (unfold size; rewrite C1, E1; exact S).
  rewrite E3, S', L' in C4. split; [lia|].
  pose proof (phi_0 x o). pose proof (phi_le x o') as Ph. rewrite S2, L2 in Ph. unfold slack in *.
  set (b := backtracks (ost o)) in *.
  replace (2 * (b + 1 + 1) * T) with (2 * (b + 1) * T + 2 * T) by ring.
  replace (2 * (b + 1) * T) with (2 * b * T + 2 * T) in * by ring. lia.
Qed.

(** ** The search *)

Definition stuck (o : orig) : Prop :=
  ulist (ost o) = [] /\ o_check_sat o = false /\ snd (o_choose o) = None.
Definition bpost (T : Z) (o : orig) (lev : Z) (q : verdict * orig) : Prop :=
  let (v, o') := q in
  let D := decisions (ost o') - decisions (ost o) in
  let B := backtracks (ost o') - backtracks (ost o) in
  cdrift T o' /\ 0 <= D /\ 0 <= B /\
  (omsg o' = omsg o \/ v = SAT /\ stuck o') /\
  match v with
  | UNSAT =>
      if lev =? 0 then B = Z.max 1 D
      else level (ost o') = lev - 1 /\ B = D + 1 /\
           NV (tr (ost o')) = NV (tr (ost o)) /\ DOM (tr (ost o')) = DOM (tr (ost o)) /\
           (forall w e, range (tr (ost o)) w e -> late lev (tr (ost o)) w e -> ASG (tr (ost o')) w e = Un) /\
           (forall j w e, j <= lev -> late j (tr (ost o)) w e -> late j (tr (ost o')) w e)
  | _ => B <= D
  end.

Lemma bound T clk fuel : forall o lev, 0 <= lev -> DOM (tr (ost o)) 0 = 0 -> cdrift T o -> pres (bpost T o lev) (o_chrono fuel clk o lev).
Proof.
  induction fuel as [|f IH]; intros o lev L D0 H; [exact I|]. cbn [o_chrono].
  set (o1 := on o (set_level (ost o) lev)).
  assert (H1 : cdrift T o1) by (apply (cdrift_same T o); auto).
  pose (KP := kp lev (decisions (ost o)) (backtracks (ost o)) (omsg o) (tr (ost o))).
  assert (K1 : KP o1) by (repeat split; auto).
  clearbody o1.
  assert (Q0 : forall v o', KP o' -> cdrift T o' -> v <> UNSAT -> bpost T o lev (v, o')).
  { intros v o' ((A & B & C & _) & D) E N. unfold bpost. rewrite B, C, D. split; auto. split; [lia|]. split; [lia|]. split; auto.
    destruct v; [lia|lia|congruence]. }
  destruct (o_check_sat o1); [apply Q0; auto; discriminate|].
  unfold o_time at 1. cbn [check_time].
  set (o2 := on o1 (set_tick (ost o1) (S (tick (ost o1))))).
  assert (H2 : cdrift T o2) by (apply (cdrift_same T o1); auto).
  assert (K2 : KP o2) by exact K1.
  clearbody o2. destruct (clk _); [apply Q0; auto; discriminate|].
  pose proof (kp_units _ _ _ _ _ (S f) o2 K2) as KU.
  assert (HU : pres (cdrift T) (o_units (S f) o2)).
  { apply (cdrift_pres T o2); auto. intro x. unfold o_units. destruct (ulist (ost o2)); [apply fr_refl|apply fr_propagate]. }
  destruct (o_units (S f) o2) as [o3| |]; cbn [bind]; try exact I. simpl in KU, HU. destruct KU as (K3 & C3).
  destruct (o_check_sat o3) eqn:CS3; [apply Q0; auto; discriminate|].
  unfold o_time. cbn [check_time].
  set (o4 := on o3 (set_tick (ost o3) (S (tick (ost o3))))).
  assert (H4 : cdrift T o4) by (apply (cdrift_same T o3); auto).
  assert (K4 : KP o4) by exact K3.
  assert (C4 : conflict (ost o4) = true \/ ulist (ost o4) = []) by exact C3.
  assert (S4 : o_check_sat o4 = false) by exact CS3.
  clearbody o4. destruct (clk _); [apply Q0; auto; discriminate|].
  pose proof K4 as ((KL & KD & KB & KN & KDm & KZ) & KM).
  destruct (conflict (ost o4)) eqn:Cf.
  - cbv zeta.
    set (s5 := set_conflict _ false).
    assert (U : pres (cdrift T) (o_undo (on o4 s5) (level s5 - 1))).
    { apply cdrift_undo; auto. simpl. lia. }
    assert (V : pres (kp lev (decisions (ost o)) (backtracks (ost o) + 1) (omsg o) (tr (ost o))) (o_undo (on o4 s5) (level s5 - 1))).
    { apply kp_undo. split; [|exact KM]. split; [exact KL|]. split; [exact KD|]. split; [simpl; lia|]. auto. }
    assert (Z := fun w e => undo_un (level s5 - 1) w e (on o4 s5)).
    destruct (o_undo (on o4 s5) (level s5 - 1)) as [o6| |]; cbn [bind]; try exact I. simpl in U, V, Z.
    destruct V as ((A & B & C & E & F & G) & D). unfold bpost.
    set (o7 := on o6 _). assert (H7 : cdrift T o7) by (apply (cdrift_same T o6); auto).
    assert (E1 : decisions (ost o7) = decisions (ost o6)) by reflexivity.
    assert (E2 : backtracks (ost o7) = backtracks (ost o6)) by reflexivity.
    assert (E3 : level (ost o7) = level (ost o6) - 1) by reflexivity.
    assert (E5 : tr (ost o7) = tr (ost o6)) by reflexivity.
    assert (E4 : omsg o7 = omsg o6) by reflexivity. clearbody o7.
    cbn [pres]. cbv zeta. rewrite E1, E2, E4, E5, B, C, D.
    split; auto. split; [lia|]. split; [lia|]. split; auto. destruct (lev =? 0); [lia|]. split; [lia|]. split; [lia|].
    split; auto. split; auto. split; auto. intros w e Rg Lt. apply Z.
    + unfold zlate. simpl. rewrite KL. replace (lev - 1 + 1) with lev by lia. apply KZ; auto. lia.
    + unfold lrange, range in *. simpl. rewrite KN, KDm. exact Rg.
  - destruct C4 as [C4|C4]; [congruence|].
    rewrite (surjective_pairing (o_choose o4)).
    set (o5 := fst (o_choose o4)).
    assert (H5 : cdrift T o5) by (apply (cdrift_same T o4); auto).
    assert (K5 : KP o5) by exact K4.
    destruct (snd (o_choose o4)) as [l|] eqn:Ech.
    2: { destruct K5 as ((A & B & C & _) & D). unfold bpost.
         assert (H6 : cdrift T (set_omsg o5)) by (apply (cdrift_same T o5); auto).
         split; auto. simpl. split; [lia|]. split; [lia|]. split; [|lia]. right. split; auto.
         split; [exact C4|]. split; [exact S4|exact Ech]. }
    assert (Un : lit_un (tr (ost o5)) l = true /\ lrange (tr (ost o5)) l).
    { unfold o_choose in Ech. cbn [snd] in Ech. change (tr (ost o5)) with (tr (ost o4)).
      assert (G : forall js b, (forall a, In a js -> In a (atoms_from (tr (ost o4)) 0)) ->
        (forall x, snd b = Some x -> lit_un (tr (ost o4)) x = true /\ lrange (tr (ost o4)) x) ->
        forall x, snd (fold_left (o_choose_step o4) js b) = Some x -> lit_un (tr (ost o4)) x = true /\ lrange (tr (ost o4)) x).
      { induction js as [|(v & d) js IJ]; intros b Hj Hb x Hx; cbn [fold_left] in Hx; auto.
        apply (IJ (o_choose_step o4 b (v, d))); auto. { intros a J. apply Hj. right. exact J. }
        intros y Hy. unfold o_choose_step in Hy.
        destruct (osat o4 v); auto. destruct (ASG (tr (ost o4)) v d) eqn:A; auto.
        destruct (fst b <? _); auto. simpl in Hy. injection Hy as <-. unfold lit_un. simpl. rewrite A. split; auto.
        assert (J : In (v, d) (atoms_from (tr (ost o4)) 0)) by (apply Hj; left; auto).
        apply in_atoms_from in J. assert (DOM (tr (ost o4)) 0 = 0) by (rewrite KDm; exact D0).
        assert (v <> 0) by (intros ->; lia). split; simpl; lia. }
      apply (G _ _) with (3 := Ech); [auto|discriminate]. }
    clearbody o5. destruct Un as (Un & Rl). destruct K5 as ((A5 & B5 & C5 & N5 & M5 & Z5) & D5).
    assert (HD : pres (cdrift T) (o_decide o5 l)) by (apply (cdrift_pres T o5); auto; intro x; apply fr_decide; auto).
    assert (KD5 : pres (kp (lev + 1) (decisions (ost o) + 1) (backtracks (ost o)) (omsg o) (tr (ost o5))) (o_decide o5 l)).
    { unfold o_decide. cbv zeta. apply kp_reduce. split; [|exact D5]. split; [simpl; lia|].
      split; [simpl; lia|]. split; [exact C5|]. simpl. auto. }
    destruct (o_decide o5 l) as [o6| |]; cbn [bind]; try exact I. simpl in HD, KD5.
    destruct KD5 as ((A6 & B6 & C6 & N6 & M6 & Z6) & D6).
    pose proof (IH o6 (level (ost o6)) ltac:(lia) ltac:(rewrite M6, M5; exact D0) HD) as P.
    destruct (o_chrono f clk o6 (level (ost o6))) as [(v & o7)| |]; cbn [bind]; try exact I. simpl in P.
    destruct P as (H7 & P1 & P2 & P3 & P4). rewrite B6, C6, D6, A6 in *.
    destruct v.
    + simpl. split; auto. split; [lia|]. split; [lia|]. split; auto. lia.
    + simpl. split; auto. split; [lia|]. split; [lia|]. split; auto. lia.
    + destruct (Z.eqb_spec (lev + 1) 0) as [X|X]; [lia|]. destruct P4 as (P4 & P5 & P6 & P7 & P8 & P9).
      destruct P3 as [P3|(P3 & _)]; [|discriminate].
      destruct (Z.eqb_spec (level (ost o7)) 0) as [Y|Y].
      * simpl. split; auto. split; [lia|]. split; [lia|]. split; auto.
        destruct (Z.eqb_spec lev 0); lia.
      * assert (U7 : lit_un (tr (ost o7)) (neg l) = true).
        { unfold lit_un. simpl. rewrite P8; [auto| |].
          { destruct Rl as ((X1 & X2) & X3). unfold range. rewrite N6, M6. repeat split; auto; apply X3. }
          apply Z6; [lia|]. left. unfold lit_un in Un. destruct (ASG (tr (ost o5)) _ _); auto; discriminate. }
        assert (HR : pres (cdrift T) (o_reduce o7 (neg l))).
        { apply (cdrift_pres T o7); auto. intro x. apply fr_reduce. exact U7. }
        assert (KR : pres (kp lev (decisions (ost o7)) (backtracks (ost o7)) (omsg o) (tr (ost o7))) (o_reduce o7 (neg l))).
        { apply kp_reduce. split; [|exact P3]. split; [lia|]. repeat split; auto. }
        destruct (o_reduce o7 (neg l)) as [o8| |]; cbn [bind]; try exact I. simpl in HR, KR.
        destruct KR as ((A8 & B8 & C8 & N8 & M8 & Z8) & D8).
        pose proof (IH o8 (level (ost o8)) ltac:(lia) ltac:(rewrite M8, P7, M6, M5; exact D0) HR) as P.
        destruct (o_chrono f clk o8 (level (ost o8))) as [(v & o9)| |]; try exact I. simpl in P.
        destruct P as (H9 & R1 & R2 & R3 & R4). rewrite B8, C8, D8, A8 in *. simpl. split; auto.
        split; [lia|]. split; [lia|]. split; auto. destruct v; try lia.
        destruct (Z.eqb_spec lev 0); [lia|]. destruct R4 as (R4 & R5 & R6 & R7 & R8 & R9).
        split; auto. split; [lia|]. split; [congruence|]. split; [congruence|].
        assert (LT : forall j w e, j <= lev -> late j (tr (ost o)) w e -> late j (tr (ost o8)) w e).
        { intros j w e J Lt. apply Z8; auto. apply P9; [lia|]. apply Z6; [lia|]. apply Z5; auto. }
        split; [|intros; apply R9; auto].
        intros w e Rg Lt. apply R8; [|apply LT; auto; lia].
        unfold range. rewrite N8, P6, N6, N5, M8, P7, M6, M5. exact Rg.
Qed.

(** ** Reports *)

Lemma cdrift_start e t p o : obuilt e t (clauses p) o -> cdrift (literals p) (o_check_unit o).
Proof.
  intro B. destruct (start_drift e t p o B) as (D1 & D2 & D3 & D4).
  assert (B0 : backtracks (ost o) = 0) by (destruct B as [_ _ _ _ _ _ _ _ b8]; intuition).
  change (backtracks (ost (on (o_check_unit o) (set_level (ost (o_check_unit o)) 0)))) with (backtracks (ost o)) in *.
  rewrite B0 in *.
  set (o1 := on (o_check_unit o) _) in *. apply (cdrift_same _ o1); auto.
  assert (E : backtracks (ost o1) = 0) by exact B0. unfold cdrift. rewrite E. split; [lia|]. split; [auto|].
  split; [rewrite D3; lia|]. intro x. destruct (D4 x) as (X1 & X2 & X3). split; lia.
Qed.

Lemma chrono_counts fuel e clk p rep : wf p -> o_solve fuel Chrono e clk p = Ok rep ->
  (or_message rep = true -> or_verdict rep = SAT /\ 1874919423 <= (4 * or_backtracks rep + 3) * literals p) /\
  0 <= or_backtracks rep /\
  (or_verdict rep = UNSAT -> or_backtracks rep = Z.max 1 (or_decisions rep)) /\
  (or_verdict rep <> UNSAT -> or_backtracks rep <= or_decisions rep).
Proof.
  intros W ES. destruct (chrono_any _ _ _ _ _ W ES) as (N0 & EA).
  destruct (o_build_ok PIgnore p W) as (t & o & EB & OT & B).
  destruct (start_R _ _ _ _ (wf_usable _ W) OT B) as
    (HR & H & Lv & ST & Cl & Cf & Tk & Pt & Ms & Dc & Ul).
  pose proof (cdrift_start _ _ _ _ B) as CD.
  assert (B0 : backtracks (ost (o_check_unit o)) = 0) by (destruct B as [_ _ _ _ _ _ _ _ b8]; simpl; intuition).
  set (o1 := o_check_unit o) in *. set (s := ghost o1) in *.
  destruct (otop clk o1 s HR H Pt Lv) as (N & (v & o') & E & s' & R' & Cl' & NV' & DM' & P & _).
  assert (D0 : DOM (tr (ost o1)) 0 = 0).
  { pose proof HR as ((RC & _) & _). rewrite (rc_dom _ _ RC). apply (cs_TB _ H). }
  pose proof (bound (literals p) clk (N + N0) o1 0 ltac:(lia) D0 CD) as Q. rewrite E in Q by lia.
  cbn [pres] in Q. unfold bpost in Q. rewrite B0, Dc, Ms, Z.eqb_refl in Q. destruct Q as (Q1 & Q2 & Q3 & Q4 & Q5).
  assert (F : o_finish (v, o') = Ok rep).
  { rewrite <- (EA (N + N0)%nat) by lia. unfold o_solve. rewrite EB. cbn [bind o_search]. fold o1. rewrite E by lia. reflexivity. }
  assert (G : or_verdict rep = v /\ or_message rep = omsg o' /\ or_backtracks rep = backtracks (ost o') /\ or_decisions rep = decisions (ost o')).
  { unfold o_finish in F. destruct v; [destruct (o_verify o'); try discriminate; cbn [bind] in F| |]; injection F as <-; repeat split. }
  destruct G as (-> & -> & -> & ->).
  split; [|split; [lia|split; [intros ->; lia|intro X; destruct v; [lia|lia|congruence]]]].
  intro M. destruct Q4 as [Q4|(-> & U & S & C)]; [congruence|].
  split; [reflexivity|]. destruct P as (H' & Cf' & _). pose proof R' as ((RC & _) & _).
  destruct (choose_none o' s' R' H' Cf') as (w & i & X); auto.
  { rewrite <- (rc_ulist _ _ RC). exact U. }
  pose proof (cdrift_choice _ _ (mkLit w i true) (mkLit w i false) Q1). unfold o_max0 in X. lia.
Qed.

Lemma chrono_right fuel e clk p rep : wf p -> o_solve fuel Chrono e clk p = Ok rep ->
  (4 * or_backtracks rep + 3) * literals p <= 1000000000 ->
  or_message rep = false /\ (or_verdict rep = SAT -> or_verified rep = Some true /\ satisfiable p).
Proof.
  intros W E L. destruct (chrono_counts _ _ _ _ _ W E) as (M & _).
  assert (M0 : or_message rep = false) by (destruct (or_message rep); auto; destruct (M eq_refl); lia).
  split; auto. intro V. destruct (chrono_rep _ _ _ _ _ W E) as (S & _). destruct (S V) as (b & B1 & B2 & B3).
  rewrite (B3 M0) in *. auto.
Qed.
