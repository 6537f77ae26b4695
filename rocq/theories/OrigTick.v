(** * The checks of the clock of the first version *)

From Coq Require Import Ascii String.
From Verif Require Import Spec WideSpec Outcome State ModelCounter ModelSearch ModelBuild ModelOrig Base TextSpec CliSpec ModelCli ModelMain MainFacts
  OrigSpec OrigInit OrigCid OrigSolve OrigMono OrigMainSpec ModelOrigMain OrigMainFacts TimeFacts.
#[local] Open Scope Z_scope.

(** ** What assigning and undoing leave alone *)

Section Keep.
Variables (d b : Z) (n0 : nat).
Definition ck_st (s : state) : Prop := decisions s = d /\ backtracks s = b /\ tick s = n0.
Definition ck (o : orig) : Prop := ck_st (ost o).

Lemma ck_fold {A} (f : orig -> A -> outcome orig) L o :
  (forall o x, ck o -> pres ck (f o x)) -> ck o -> pres ck (foldM f L o).
Proof. intros F H. apply (pres_fold ck); auto. Qed.
Lemma ck_st_fold {A} (f : state -> A -> outcome state) L s :
  (forall o x, ck_st o -> pres ck_st (f o x)) -> ck_st s -> pres ck_st (foldM f L s).
Proof. intros F H. apply (pres_fold ck_st); auto. Qed.

Lemma ck_satisfy o l : ck o -> pres ck (o_satisfy o l).
Proof.
  intro H. unfold o_satisfy. apply pres_any. intros _. apply ck_fold; auto. clear. intros o n H.
  unfold o_sat_step. apply pres_any. intro c. destruct (ocsat o n); [exact H|].
  apply (pres_bind ck_st).
  - apply ck_st_fold; [|apply H]. intros s x Hs. unfold o_dec. apply pres_any. intros _.
    destruct (lit_un (tr s) x); exact Hs.
  - intros s Hs. exact Hs.
Qed.
Lemma ck_remove o l : ck o -> pres ck (o_remove o l).
Proof.
  intro H. unfold o_remove. apply pres_any. intros _. apply ck_fold; auto. clear. intros o n H.
  unfold o_remove_step. apply pres_any. intros _. destruct (ocsat o n); [exact H|].
  destruct (State.num (ost o) n - 1 =? 1), (State.num (ost o) n - 1 =? 0); exact H.
Qed.
Lemma ck_add o l : ck o -> pres ck (o_add o l).
Proof.
  intro H. unfold o_add. apply pres_any. intros _. apply ck_fold; auto. clear. intros o n H.
  unfold o_add_step. apply pres_any. intros _. destruct (ocsat o n); exact H.
Qed.
Lemma ck_unsatisfy lev o l : ck o -> pres ck (o_unsatisfy lev o l).
Proof.
  intro H. unfold o_unsatisfy. apply pres_any. intros _. apply ck_fold; auto. clear - d b n0. intros o n H.
  unfold o_unsat_step. apply pres_any. intros c. destruct (lev <? clev (ost o) n); [|exact H].
  apply (pres_bind ck_st).
  - apply ck_st_fold; [|apply H]. intros s x Hs. unfold o_inc. apply pres_any. intros _.
    destruct ((lev <? _) || _); exact Hs.
  - intros s Hs. exact Hs.
Qed.
Lemma ck_assign o v i a : ck o -> pres ck (o_assign o v i a).
Proof.
  intro H. unfold o_assign. apply (pres_bind ck); [apply ck_satisfy; auto|].
  intros o1 H1. apply (pres_bind ck); [apply ck_remove; auto|]. intros o2 H2.
  exact H2.
Qed.
Lemma ck_exclude v o i : ck o -> pres ck (o_exclude v o i).
Proof.
  intro H. unfold o_exclude. destruct (conflict (ost o)); [exact H|].
  destruct (ASG (tr (ost o)) v i); try exact H. apply ck_assign; auto.
Qed.
Lemma ck_reduce_pos o v i : ck o -> pres ck (o_reduce_pos o v i).
Proof.
  intro H. unfold o_reduce_pos. apply pres_any. intros _.
  apply (pres_bind ck); [apply ck_assign; auto|]. intros o1 H1.
  apply (pres_bind ck).
  - apply ck_fold; [intros; apply ck_exclude; auto|]. exact H1.
  - intros o2 H2. apply ck_fold; [intros; apply ck_exclude; auto|]. exact H2.
Qed.
Lemma ck_reduce o l : ck o -> pres ck (o_reduce o l).
Proof.
  intro H. unfold o_reduce. destruct (leq l); [apply ck_reduce_pos; auto|].
  unfold o_reduce_neg. apply pres_any. intros _. apply (pres_bind ck); [apply ck_assign; auto|].
  intros o1 H1. apply (pres_bind (fun q => ck (fst q))).
  - unfold o_check_entail. apply pres_any. intro e.
    destruct (if osat _ _ then None else check_entail _ _); exact H1.
  - intros (o2 & [e|]) H2; [|exact H2]. apply ck_reduce_pos. exact H2.
Qed.
Lemma ck_undo o lev : ck o -> pres ck (o_undo o lev).
Proof.
  intro H. unfold o_undo. apply (pres_bind ck).
  { apply ck_fold; auto. intros o1 (v & i) H1. unfold o_undo1.
    destruct (lev <? _); [|exact H1]. destruct (ASG (tr (ost o1)) v i); apply ck_add; auto. }
  intros o1 H1. apply (pres_bind ck).
  { apply ck_fold; auto. intros o2 v H2. unfold o_undo_var. apply (pres_bind ck).
    - apply ck_fold; auto. intros o3 i H3. unfold o_undo2. destruct (lev <? _); [|exact H3].
      apply (pres_bind ck).
      + destruct (ASG (tr (ost o3)) v i); apply ck_unsatisfy; auto.
      + intros o4 H4. exact H4.
    - intros o3 H3. destruct (lev <? ovlev o3 v); exact H3. }
  intros o2 H2. unfold prune_dst. destruct (forallb _ _); simpl; auto.
Qed.
Lemma ck_propagate_loop fuel : forall o, ck o -> pres ck (o_propagate_loop fuel o).
Proof.
  induction fuel as [|f IH]; intros o H; [exact I|]. cbn [o_propagate_loop]. cbv zeta.
  destruct (conflict (ost o)); [exact H|]. destruct (ulist (ost o)) as [|n rest]; [exact H|].
  destruct (getcl _ n) as [c| |]; cbn [bind]; try exact I.
  destruct (ocsat o n); [apply IH; exact H|]. apply pres_any. intros [l|]; [|apply IH; exact H].
  apply (pres_bind ck); [apply ck_reduce; exact H|]. exact IH.
Qed.
Lemma ck_propagate fuel o : ck o -> pres ck (o_propagate fuel o).
Proof.
  intro H. unfold o_propagate. apply (pres_bind _ _ _ _ (ck_propagate_loop fuel o H)). intros o1 H1.
  destruct (conflict (ost o1)); exact H1.
Qed.
Lemma ck_units fuel o : ck o -> pres ck (o_units fuel o).
Proof. intro H. unfold o_units. destruct (ulist (ost o)); [exact H|apply ck_propagate; exact H]. Qed.
Lemma ck_analyze o : ck o -> pres ck (o_analyze o).
Proof. intro H. unfold o_analyze. cbv zeta. apply pres_any. intro i. apply pres_any. intro l. exact H. Qed.
End Keep.

Lemma ck_self o : ck (decisions (ost o)) (backtracks (ost o)) (tick (ost o)) o.
Proof. repeat split. Qed.

(** ** The searches *)

(** From check number [n0] on: the checks before [n] are in time, and the last one is late if the answer is TIMEOUT. *)
Definition checks (clk : nat -> bool) (n0 n : nat) (v : verdict) : Prop :=
  (n0 <= n)%nat /\
  match v with
  | TIMEOUT => exists k, n = S k /\ (n0 <= k)%nat /\ clk k = true /\ forall j, (n0 <= j < k)%nat -> clk j = false
  | _ => forall j, (n0 <= j < n)%nat -> clk j = false
  end.

Lemma checks_more clk n0 n1 n v : (n0 <= n1)%nat -> (forall j, (n0 <= j < n1)%nat -> clk j = false) -> checks clk n1 n v -> checks clk n0 n v.
Proof.
  intros L H (A & B). split; [lia|]. assert (S : forall j k, (forall i, (n1 <= i < k)%nat -> clk i = false) -> (n0 <= j < k)%nat -> clk j = false).
  { intros j k X J. destruct (Nat.lt_ge_cases j n1); [apply H|apply X]; lia. }
  destruct v; try (intros j J; apply (S j n); auto; fail).
  destruct B as (k & -> & B1 & B2 & B3). exists k. split; auto. split; [lia|]. split; auto. intros j J. apply (S j k); auto.
Qed.

Definition tpost (clk : nat -> bool) (o : orig) (q : verdict * orig) : Prop :=
  let n := tick (ost o) in let n' := tick (ost (snd q)) in
  let dd := decisions (ost (snd q)) - decisions (ost o) in let db := backtracks (ost (snd q)) - backtracks (ost o) in
  checks clk n n' (fst q) /\ 0 <= dd /\ 0 <= db /\ 2 * dd <= Z.of_nat n' - Z.of_nat n <= 2 * (dd + db) + match fst q with UNSAT => 0 | _ => 2 end.

Lemma chrono_checks clk fuel : forall o lev, pres (tpost clk o) (o_chrono fuel clk o lev).
Proof.
  induction fuel as [|f IH]; intros o lev; [exact I|]. cbn [o_chrono].
  set (o1 := on o (set_level (ost o) lev)). set (n := tick (ost o)). set (d := decisions (ost o)). set (b := backtracks (ost o)).
  assert (K1 : ck d b n o1) by (repeat split). clearbody o1.
  destruct (o_check_sat o1).
  { destruct K1 as (A & B & C). cbn [pres]. unfold tpost. cbn [fst snd]. rewrite A, B, C. fold d b n. split; [split; [lia|intros; lia]|lia]. }
  unfold o_time at 1. cbn [check_time]. set (o2 := on o1 (set_tick (ost o1) (S (tick (ost o1))))).
  assert (K2 : ck d b (S n) o2) by (destruct K1 as (A & B & C); repeat split; cbn; congruence).
  assert (T1 : tick (ost o1) = n) by apply K1. rewrite T1. clearbody o2.
  destruct (clk n) eqn:E1.
  { destruct K2 as (A & B & C). cbn [pres]. unfold tpost. cbn [fst snd]. rewrite A, B, C. fold d b n. split; [|lia]. split; [lia|].
    exists n. split; auto. split; [lia|]. split; auto. intros; lia. }
  pose proof (ck_units _ _ _ (S f) o2 K2) as KU. destruct (o_units (S f) o2) as [o3| |]; cbn [bind]; try exact I. cbn [pres] in KU.
  assert (C1 : forall j, (n <= j < S n)%nat -> clk j = false) by (intros j J; replace j with n by lia; exact E1).
  destruct (o_check_sat o3).
  { destruct KU as (A & B & C). cbn [pres]. unfold tpost. cbn [fst snd]. rewrite A, B, C. fold d b n. split; [|lia]. split; [lia|auto]. }
  unfold o_time. cbn [check_time]. set (o4 := on o3 (set_tick (ost o3) (S (tick (ost o3))))).
  assert (K4 : ck d b (S (S n)) o4) by (destruct KU as (A & B & C); repeat split; cbn; congruence).
  assert (T3 : tick (ost o3) = S n) by apply KU. rewrite T3. clearbody o4.
  destruct (clk (S n)) eqn:E2.
  { destruct K4 as (A & B & C). cbn [pres]. unfold tpost. cbn [fst snd]. rewrite A, B, C. fold d b n. split; [|lia]. split; [lia|].
    exists (S n). split; [reflexivity|]. split; [lia|]. split; [exact E2|exact C1]. }
  assert (C2 : forall j, (n <= j < S (S n))%nat -> clk j = false) by (intros j J; assert (X : j = n \/ j = S n) by lia; destruct X; subst; auto).
  destruct (conflict (ost o4)).
  { cbv zeta. match goal with |- context [o_undo (on o4 ?s) ?l] => assert (KC : ck d (b + 1) (S (S n)) (on o4 s)) end.
    { destruct K4 as (A & B & C). repeat split; cbn; congruence. }
    match goal with |- context [o_undo (on o4 ?s) ?l] => pose proof (ck_undo _ _ _ (on o4 s) l KC) as KV; destruct (o_undo (on o4 s) l) as [o5| |]; cbn [bind]; try exact I end.
    cbn [pres] in *. destruct KV as (A & B & C). unfold tpost. cbn [fst snd on ost]. cbn [decisions backtracks tick set_level].
    fold d b n. rewrite A, B, C. split; [|lia]. split; [lia|exact C2]. }
  unfold o_choose. cbv beta iota zeta.
  set (o5 := on o4 (set_uclause (ost o4) RDec)). assert (K5 : ck d b (S (S n)) o5) by exact K4.
  destruct (snd (fold_left _ _ _)) as [l|].
  2:{ destruct K5 as (A & B & C). cbn [pres]. unfold tpost. cbn [fst snd set_omsg ost]. rewrite A, B, C. fold d b n. split; [|lia]. split; [lia|exact C2]. }
  clearbody o5.
  assert (KD : pres (ck (d + 1) b (S (S n))) (o_decide o5 l)).
  { unfold o_decide. cbv zeta. apply ck_reduce. destruct K5 as (A & B & C). repeat split; cbn; congruence. }
  destruct (o_decide o5 l) as [o6| |]; cbn [bind]; try exact I. cbn [pres] in KD. destruct KD as (A6 & B6 & C6).
  pose proof (IH o6 (level (ost o6))) as I1. destruct (o_chrono f clk o6 (level (ost o6))) as [(v & o7)| |]; cbn [bind]; try exact I. cbn [pres] in I1.
  unfold tpost in I1. cbn [fst snd] in I1. rewrite A6, B6, C6 in I1. destruct I1 as (J1 & J2 & J3 & J4).
  assert (C7 : checks clk n (tick (ost o7)) v) by (apply (checks_more clk n (S (S n))); auto).
  assert (DONE : v = UNSAT \/ pres (tpost clk o) (Ok (v, o7))).
  { destruct v; [right|right|left; reflexivity]; cbn [pres]; unfold tpost; cbn [fst snd]; fold d b n; split; auto; lia. }
  destruct v; [destruct DONE as [|DONE]; [discriminate|exact DONE]|destruct DONE as [|DONE]; [discriminate|exact DONE]|].
  destruct (level (ost o7) =? 0).
  { cbn [pres]. unfold tpost. cbn [fst snd]. fold d b n. split; auto. lia. }
  pose proof (ck_reduce _ _ _ o7 (neg l) (ck_self o7)) as KR. destruct (o_reduce o7 (neg l)) as [o8| |]; cbn [bind]; try exact I. cbn [pres] in KR.
  destruct KR as (A8 & B8 & C8). specialize (IH o8 (level (ost o8))). destruct (o_chrono f clk o8 (level (ost o8))) as [(v & o9)| |]; try exact I.
  cbn [pres] in *. unfold tpost in *. cbn [fst snd] in *. rewrite A8, B8, C8 in IH. destruct IH as (I1 & I2 & I3 & I4). fold d b n.
  split; [|destruct v; lia]. apply (checks_more clk n (tick (ost o7))); auto; apply C7.
Qed.

Definition lpost (clk : nat -> bool) (o : orig) (q : verdict * orig) : Prop :=
  let n := tick (ost o) in let n' := tick (ost (snd q)) in
  let dd := decisions (ost (snd q)) - decisions (ost o) in let db := backtracks (ost (snd q)) - backtracks (ost o) in
  checks clk n n' (fst q) /\ 0 <= dd /\ 0 <= db /\ dd + db <= Z.of_nat n' - Z.of_nat n.

Lemma loop_checks clk fuel : forall o, pres (lpost clk o) (o_loop fuel clk o).
Proof.
  induction fuel as [|f IH]; intros o; [exact I|]. cbn [o_loop].
  set (n := tick (ost o)). set (d := decisions (ost o)). set (b := backtracks (ost o)).
  destruct (o_check_sat o).
  { cbn [pres]. unfold lpost. cbn [fst snd]. fold d b n. split; [split; [lia|intros; lia]|lia]. }
  unfold o_time at 1. cbn [check_time]. set (o2 := on o (set_tick (ost o) (S (tick (ost o))))).
  assert (K2 : ck d b (S n) o2) by (repeat split). fold n. clearbody o2.
  destruct (clk n) eqn:E1.
  { destruct K2 as (A & B & C). cbn [pres]. unfold lpost. cbn [fst snd]. rewrite A, B, C. fold d b n. split; [|lia]. split; [lia|].
    exists n. split; auto. split; [lia|]. split; auto. intros; lia. }
  assert (C1 : forall j, (n <= j < S n)%nat -> clk j = false) by (intros j J; replace j with n by lia; exact E1).
  assert (NEXT : forall d' b' n' o', ck d' b' n' o' -> (S n <= n')%nat -> (forall j, (n <= j < n')%nat -> clk j = false) ->
    d <= d' -> b <= b' -> d' + b' <= d + b + 1 -> pres (lpost clk o) (o_loop f clk o')).
  { intros d' b' n' o' (A & B & C) N1 N2 D1 B1 L. specialize (IH o'). destruct (o_loop f clk o') as [(v & o9)| |]; try exact I.
    cbn [pres] in *. unfold lpost in *. cbn [fst snd] in *. fold d b n. rewrite A, B, C in IH. destruct IH as (I1 & I2 & I3 & I4).
    split; [apply (checks_more clk n n'); auto; lia|]. lia. }
  destruct (ulist (ost o2)) as [|u us].
  - destruct (conflict (ost o2)).
    + destruct (level (ost o2) =? 0).
      { destruct K2 as (A & B & C). cbn [pres]. unfold lpost. cbn [fst snd]. rewrite A, B, C. fold d b n. split; [|lia]. split; [lia|auto]. }
      assert (KC : pres (ck d (b + 1) (S n)) (o_conflict o2)).
      { unfold o_conflict. apply (pres_bind (ck d b (S n))); [apply ck_analyze; auto|]. intros o3 K3. cbv zeta.
        apply (pres_bind (ck d (b + 1) (S n))); [|intros o4 K4; exact K4]. apply ck_undo. destruct K3 as (A & B & C). repeat split; cbn; congruence. }
      destruct (o_conflict o2) as [o3| |]; cbn [bind]; try exact I. apply (NEXT _ _ _ _ KC); auto; lia.
    + unfold o_choose. cbv beta iota zeta. set (o5 := on o2 (set_uclause (ost o2) RDec)). assert (K5 : ck d b (S n) o5) by exact K2.
      destruct (snd (fold_left _ _ _)) as [l|]; [|apply (NEXT _ _ _ _ K5); auto; lia]. clearbody o5.
      assert (KD : pres (ck (d + 1) b (S n)) (o_decide o5 l)).
      { unfold o_decide. cbv zeta. apply ck_reduce. destruct K5 as (A & B & C). repeat split; cbn; congruence. }
      destruct (o_decide o5 l) as [o6| |]; cbn [bind]; try exact I. apply (NEXT _ _ _ _ KD); auto; lia.
  - pose proof (ck_propagate _ _ _ (S f) o2 K2) as KU. destruct (o_propagate (S f) o2) as [o3| |]; cbn [bind]; try exact I. cbn [pres] in KU.
    destruct (o_check_sat o3).
    { destruct KU as (A & B & C). cbn [pres]. unfold lpost. cbn [fst snd]. rewrite A, B, C. fold d b n. split; [|lia]. split; [lia|auto]. }
    unfold o_time. cbn [check_time]. set (o4 := on o3 (set_tick (ost o3) (S (tick (ost o3))))).
    assert (K4 : ck d b (S (S n)) o4) by (destruct KU as (A & B & C); repeat split; cbn; congruence).
    assert (T3 : tick (ost o3) = S n) by apply KU. rewrite T3. clearbody o4.
    destruct (clk (S n)) eqn:E2.
    { destruct K4 as (A & B & C). cbn [pres]. unfold lpost. cbn [fst snd]. rewrite A, B, C. fold d b n. split; [|lia]. split; [lia|].
      exists (S n). split; [reflexivity|]. split; [lia|]. split; [exact E2|exact C1]. }
    apply (NEXT _ _ _ _ K4); try lia. intros j J; assert (X : j = n \/ j = S n) by lia; destruct X; subst; auto.
Qed.

(** ** Whole runs *)

Definition run_checks (clk : nat -> bool) (m : mode) (rep : oreport) (n : nat) : Prop :=
  checks clk 0 n (or_verdict rep) /\
  match m with
  | Chrono => 2 * or_decisions rep <= Z.of_nat n <= 2 * (or_decisions rep + or_backtracks rep) + match or_verdict rep with UNSAT => 0 | _ => 2 end
  | NonChrono => or_decisions rep + or_backtracks rep <= Z.of_nat n
  end.

Lemma solve_checks fuel m e clk p rep : wf p -> o_solve fuel m e clk p = Ok rep -> exists n, run_checks clk m rep n.
Proof.
  intros W H. assert (U : usable p) by (apply wf_usable; auto). unfold o_solve in H.
  destruct (o_build_ok e p U) as (t & o & E & _ & OB). rewrite E in H. cbn [bind] in H.
  pose proof (ob_misc _ _ _ _ OB) as (_ & _ & _ & _ & _ & _ & M7 & M8 & _ & _ & _ & M12).
  assert (K : ck 0 0 0 (o_check_unit o)) by (repeat split; assumption). set (o1 := o_check_unit o) in *. clearbody o1.
  destruct (o_search fuel m clk o1) as [(v & o2)| |] eqn:ES; try discriminate. cbn [bind] in H.
  assert (X : or_verdict rep = v /\ or_decisions rep = decisions (ost o2) /\ or_backtracks rep = backtracks (ost o2)).
  { unfold o_finish in H. destruct v; [apply bind_ok in H; destruct H as (bb & _ & H)| |]; injection H as <-; auto. }
  destruct X as (X1 & X2 & X3). exists (tick (ost o2)). unfold run_checks. rewrite X1, X2, X3. destruct K as (A & B & C).
  destruct m; cbn [o_search] in ES.
  - pose proof (chrono_checks clk fuel o1 0) as P. rewrite ES in P. cbn [pres] in P. unfold tpost in P. cbn [fst snd] in P.
    rewrite A, B, C in P. destruct P as (P1 & P2 & P3 & P4). split; auto. destruct v; lia.
  - pose proof (loop_checks clk fuel (on o1 (set_level (ost o1) 0))) as P. rewrite ES in P. cbn [pres] in P. unfold lpost in P. cbn [fst snd on ost] in P.
    change (tick (set_level (ost o1) 0)) with (tick (ost o1)) in P. change (decisions (set_level (ost o1) 0)) with (decisions (ost o1)) in P.
    change (backtracks (set_level (ost o1) 0)) with (backtracks (ost o1)) in P.
    rewrite A, B, C in P. destruct P as (P1 & P2 & P3 & P4). split; auto. lia.
Qed.

Theorem omain_clock fuel e learning os w f p r : good_run os (files_of w) f p ->
  o_main fuel e (solve_word learning :: args_of os) w = Ok r ->
  exists v note rest d u b k l n c,
    screen r = orig_screen f (time1 w) (time2 w) (time3 w) note (orig_answer v d u b k l (nvars p) c ++ rest) /\
    (v = txt "TIMEOUT" -> exists i, n = S i /\ latest sel_time os 3600 < elapsed w i /\
       forall j, (j < i)%nat -> elapsed w j <= latest sel_time os 3600) /\
    (v <> txt "TIMEOUT" -> forall j, (j < n)%nat -> elapsed w j <= latest sel_time os 3600) /\
    (if learning then d + b <= Z.of_nat n
     else 2 * d <= Z.of_nat n <= 2 * (d + b) + (if text_eqb v (txt "UNSAT") then 0 else 2)).
Proof.
  intros G H. pose proof G as [G1 G2 G3 G4 (t & T & FI & A & L & N) G5 W].
  set (m := if learning then NonChrono else Chrono).
  assert (R : exists rep, o_solve fuel m e (late_at w (latest sel_time os 3600)) p = Ok rep /\ r = mkRan (o_screen_of w f rep) 0 (files_of w)).
  { assert (Q : o_main fuel e (mode_word m :: args_of os) w = Ok r) by (subst m; destruct learning; exact H).
    rewrite (run_of fuel e m os w f t p) in Q by auto. apply bind_ok in Q. destruct Q as (rep & Q1 & Q2). injection Q2 as <-. eauto. }
  destruct R as (rep & R & ->). destruct (solve_checks _ _ _ _ _ _ W R) as (n & (C1 & C2) & C3).
  assert (V : or_variables rep = nvars p).
  { subst m. destruct learning; [destruct (nc_other _ _ _ _ _ W R) as (_ & _ & _ & _ & V & _); exact V|].
    destruct (chrono_rep _ _ _ _ _ W R) as (_ & _ & _ & _ & _ & _ & V & _). exact V. }
  exists (word (or_verdict rep)), (o_note_lines rep), (o_rest rep), (or_decisions rep), (or_units rep), (or_backtracks rep), (or_entails rep), (or_level rep), n, (or_clauses rep).
  split; [cbn [screen]; unfold o_screen_of; rewrite V; reflexivity|].
  split; [|split].
  - intro E. apply word_timeout in E. rewrite E in C2. destruct C2 as (i & -> & _ & Q1 & Q2). exists i. split; auto. split; [apply out_of_time; auto|].
    intros j J. apply in_time. apply Q2. lia.
  - intros NE j J. apply in_time. destruct (or_verdict rep) eqn:E; try (apply C2; lia). exfalso. apply NE. reflexivity.
  - subst m. destruct learning; [exact C3|]. destruct (or_verdict rep); exact C3.
Qed.
