(** * What the steps of the searches leave alone

    Partial correctness: from the result being [Ok], without any precondition. *)

From Verif Require Import Spec Outcome State ModelCounter ModelHeur ModelLearn ModelWatch
  ModelSearch Base Trail Reduce.

(** Everything outside the clause bookkeeping. *)
Definition outer (s : state) :=
  (cl s, vs s, level s, uclause s, (backtracks s, decisions s, units s, entails s, restarts s, tick s)).
Definition quiet (s s' : state) : Prop := tr s' = tr s /\ outer s' = outer s.
Definition marked (s : state) (v d : Z) (a : aval) (s' : state) : Prop :=
  tr s' = markT (tr s) (level s) (uclause s) v d a /\ outer s' = outer s.

Lemma quiet_refl s : quiet s s.
Proof. split; auto. Qed.
Lemma quiet_trans a b c : quiet a b -> quiet b c -> quiet a c.
Proof. intros (H1 & H2) (H3 & H4). split; congruence. Qed.

Lemma quiet_fold {A} (f : state -> A -> outcome state) ls s s' :
  (forall x a b, f a x = Ok b -> quiet a b) -> foldM f ls s = Ok s' -> quiet s s'.
Proof.
  intro H. apply foldM_inv_ok; [apply quiet_refl|].
  intros x a b _ Q E. eapply quiet_trans; eauto.
Qed.

Lemma do_ok {A B} (o : outcome A) (b : outcome B) r : (bind o (fun _ => b)) = Ok r -> b = Ok r.
Proof. intro H. apply bind_ok in H. destruct H as (_ & _ & H). exact H. Qed.

Ltac qinj E := injection E as <-; split; reflexivity.

Lemma quiet_dec l s s' : dec_count s l = Ok s' -> quiet s s'.
Proof. intro E. apply do_ok in E. destruct (lit_un (tr s) l); qinj E. Qed.

Lemma quiet_satisfy_step c s n s' : satisfy_step c s n = Ok s' -> quiet s s'.
Proof.
  intro E. apply bind_ok in E. destruct E as (ls & _ & E). destruct (clev s n =? -1); [|qinj E].
  cbv zeta in E. destruct (is_bk c); [|qinj E].
  apply (quiet_trans _ (set_num (set_clev s (updn (clev s) n (level s))) (updn (num s) n 0))); [split; reflexivity|].
  eapply quiet_fold; [|exact E]. intros. eapply quiet_dec; eauto.
Qed.

Lemma quiet_satisfy c s l s' : satisfy_clauses c s l = Ok s' -> quiet s s'.
Proof. intro E. apply do_ok in E. eapply quiet_fold; [|exact E]. intros; eapply quiet_satisfy_step; eauto. Qed.

Lemma quiet_remove_step s n s' : remove_step s n = Ok s' -> quiet s s'.
Proof.
  intro E. apply do_ok in E. destruct (clev s n =? -1); [|qinj E]. cbv zeta in E.
  destruct (num s n - 1 =? 1), (num s n - 1 =? 0); qinj E.
Qed.

Lemma quiet_remove s l s' : remove_literal s l = Ok s' -> quiet s s'.
Proof. intro E. apply do_ok in E. eapply quiet_fold; [|exact E]. intros; eapply quiet_remove_step; eauto. Qed.

Lemma mark_marked c s v d a : marked s v d a (mark c s v d a).
Proof. unfold mark. destruct (is_bk c); split; reflexivity. Qed.

Lemma assign_marked c s v d a s' : assign_atom c s v d a = Ok s' -> marked s v d a s'.
Proof.
  unfold assign_atom. cbv zeta. intro E. apply bind_ok in E. destruct E as (s1 & E1 & E2).
  apply quiet_satisfy in E1. apply quiet_remove in E2. destruct (mark_marked c s v d a) as (M1 & M2).
  destruct E1, E2. split; congruence.
Qed.

(** ** Watched literals *)

Lemma quiet_add_record s l n s' : add_record s l n = Ok s' -> quiet s s'.
Proof. intro E. apply do_ok in E. qinj E. Qed.
Lemma quiet_remove_record s k l n s' : remove_record s k l n = Ok s' -> quiet s s'.
Proof.
  intro E. apply do_ok in E. destruct (lit_eqb k l); [|discriminate].
  destruct (remove_one n (wls s l)); [qinj E|discriminate].
Qed.
Lemma quiet_swap s n : quiet s (swap_w s n).
Proof. split; reflexivity. Qed.

Lemma quiet_swap_pointer s k n s' : swap_pointer s k n = Ok s' -> quiet s s'.
Proof.
  unfold swap_pointer. intro E. apply bind_ok in E. destruct E as (ls & _ & E). cbv zeta in E.
  apply bind_ok in E. destruct E as (r & _ & E). destruct r; try qinj E.
  apply bind_ok in E. destruct E as ([l|] & _ & E); [|qinj E].
  apply bind_ok in E. destruct E as (s1 & E1 & E). apply bind_ok in E. destruct E as (s2 & E2 & E).
  apply quiet_remove_record in E1. apply quiet_add_record in E2.
  apply (quiet_trans _ s1); auto. apply (quiet_trans _ s2); auto. qinj E.
Qed.

Lemma quiet_wfalsify s l s' : wfalsify s l = Ok s' -> quiet s s'.
Proof.
  intro E. apply do_ok in E. eapply quiet_fold; [|exact E]. clear. intros n s s' E.
  unfold wfalsify_step in E. destruct (conflict s); [qinj E|].
  apply bind_ok in E. destruct E as (ls & _ & E). apply bind_ok in E. destruct E as (r & _ & E).
  destruct r; try qinj E.
  - apply bind_ok in E. destruct E as (r2 & _ & E). destruct r2; try qinj E; cbv zeta in E;
      destruct (lit_eqb (w1 s n) l); apply quiet_swap_pointer in E; auto;
      apply (quiet_trans _ _ _ (quiet_swap s n) E).
  - apply bind_ok in E. destruct E as (r2 & _ & E). destruct r2; try qinj E; cbv zeta in E;
      destruct (lit_eqb (w1 s n) l); apply quiet_swap_pointer in E; auto;
      apply (quiet_trans _ _ _ (quiet_swap s n) E).
Qed.

Lemma wassign_marked c s v d a s' : wassign_atom c s v d a = Ok s' -> marked s v d a s'.
Proof.
  unfold wassign_atom. cbv zeta. intro E. apply quiet_wfalsify in E. destruct (mark_marked c s v d a) as (M1 & M2).
  destruct E. split; congruence.
Qed.

(** ** Undoing: only the assignment changes *)

Definition still (s s' : state) : Prop := outer s' = outer s.

Lemma still_fold {A} (f : state -> A -> outcome state) ls s s' :
  (forall x a b, f a x = Ok b -> still a b) -> foldM f ls s = Ok s' -> still s s'.
Proof.
  intro H. unfold still. apply (foldM_inv_ok f (fun x => outer x = outer s)); auto.
  intros x a b _ Q E. rewrite (H _ _ _ E). auto.
Qed.

Ltac sinj E := injection E as <-; reflexivity.

Lemma still_add_literal c s l s' : add_literal c s l = Ok s' -> still s s'.
Proof.
  intro E. apply do_ok in E. eapply still_fold; [|exact E]. clear. intros n s s' E.
  apply do_ok in E. destruct (clev s n =? -1); [|sinj E]. cbv zeta in E. destruct (is_bk c); sinj E.
Qed.
Lemma still_unsatisfy c lev s l s' : unsatisfy_clauses c lev s l = Ok s' -> still s s'.
Proof.
  intro E. apply do_ok in E. eapply still_fold; [|exact E]. clear. intros n s s' E.
  apply bind_ok in E. destruct E as (ls & _ & E). destruct (lev <? clev s n); [|sinj E].
  apply bind_ok in E. destruct E as (s1 & E1 & E). injection E as <-.
  change (still s s1). eapply still_fold; [|exact E1]. clear. intros l s s' E.
  apply do_ok in E. destruct (_ || _); [|sinj E]. cbv zeta in E. destruct (is_bk c); sinj E.
Qed.
Lemma still_undo c s k s' : undo_theory c s k = Ok s' -> still s s'.
Proof.
  unfold undo_theory. intro E. apply bind_ok in E. destruct E as (s1 & E1 & E).
  apply bind_ok in E. destruct E as (s2 & E2 & E). cbv beta in E1, E2.
  assert (H1 : still s s1).
  { eapply still_fold; [|exact E1]. clear. intros (v, d) s s' E. unfold undo1 in E.
    destruct (k <? _); [|sinj E]. destruct (ASG (tr s) v d); apply still_add_literal in E; auto. }
  assert (H2 : still s1 s2).
  { eapply still_fold; [|exact E2]. clear. intros (v, d) s s' E. unfold undo2 in E.
    destruct (k <? _); [|sinj E]. apply bind_ok in E. destruct E as (s1 & E1 & E). injection E as <-.
    change (still s s1). destruct (ASG (tr s) v d); apply still_unsatisfy in E1; auto. }
  unfold prune_dst in E. destruct (forallb _ _); [|discriminate]. injection E as <-.
  unfold still in *. change (outer s2 = outer s). congruence.
Qed.
Lemma still_wundo s k s' : wundo_theory s k = Ok s' -> still s s'.
Proof.
  unfold wundo_theory. intro E. apply bind_ok in E. destruct E as (s1 & E1 & E). cbv beta in E1.
  assert (H1 : still s s1).
  { eapply still_fold; [|exact E1]. clear. intros (v, d) s s' E. unfold wundo1 in E.
    injection E as <-. destruct (k <? _); reflexivity. }
  unfold prune_dst in E. destruct (forallb _ _); [|discriminate]. injection E as <-. exact H1.
Qed.

(** ** Learning: the clauses and the scores change *)

Definition kept (s : state) :=
  (tr s, level s, uclause s, (backtracks s, decisions s, units s, entails s, restarts s, tick s)).

Lemma kept_bump s l : kept (bump s l) = kept s.
Proof. reflexivity. Qed.
Lemma kept_fold {A} (f : state -> A -> state) ls s :
  (forall x a, kept (f a x) = kept a) -> kept (fold_left f ls s) = kept s.
Proof. intro H. revert s. induction ls; simpl; intro s; auto. rewrite IHls. auto. Qed.
Lemma kept_others s v d : kept (bump_others s v d) = kept s.
Proof. apply kept_fold. intros x a. destruct (x =? d); reflexivity. Qed.
Lemma kept_decay c s : kept (decay c s) = kept s.
Proof. unfold decay. destruct (heur c); auto; apply kept_fold; reflexivity. Qed.

Lemma kept_learn c s ls a b s' : learn_clause c s ls a b = Ok s' -> kept s' = kept s.
Proof.
  unfold learn_clause. cbv zeta. intro E. apply bind_ok in E. destruct E as (s1 & E1 & E).
  apply bind_ok in E. destruct E as (s2 & E2 & E). destruct (lenient c); [|discriminate]. injection E as <-.
  rewrite kept_decay.
  assert (H1 : kept s1 = kept s).
  { destruct (watch c); [|sinj E1]. apply bind_ok in E1. destruct E1 as (s3 & E3 & E1). apply do_ok in E3.
    injection E3 as <-. destruct (Nat.ltb 1 (length ls)); [|sinj E1]. apply do_ok in E1. sinj E1. }
  assert (H2 : kept s2 = kept s1); [|congruence].
  apply (foldM_inv_ok (learn_atom c (length (cl s))) (fun x => kept x = kept s1) ls s1); auto.
  intros x u w _ Q E. apply do_ok in E. injection E as <-.
  destruct (watch c), (heur c), (leq x); rewrite <- Q; try reflexivity; rewrite kept_others; reflexivity.
Qed.

Lemma kept_analyze c : forall fuel s ls a b t s' x, analyze fuel c s ls a b t = Ok (s', x) -> kept s' = kept s.
Proof.
  induction fuel as [|fuel IH]; intros s ls a b t s' x E; [discriminate|]. cbn [analyze] in E.
  apply bind_ok in E. destruct E as (p & _ & E). destruct p.
  - destruct t; [|discriminate]. apply bind_ok in E. destruct E as (s1 & E1 & E). injection E as <- _.
    eapply kept_learn; eauto.
  - apply bind_ok in E. destruct E as (l & _ & E). apply bind_ok in E. destruct E as (q & _ & E).
    cbv zeta in E. apply bind_ok in E. destruct E as (w & _ & E). eapply IH; eauto.
Qed.

Definition stats (s : state) := (decisions s, units s, entails s, tick s).

Lemma outer_stats s s' : outer s' = outer s -> stats s' = stats s.
Proof. unfold outer, stats. congruence. Qed.

(** Conflict handling changes BACKTRACKS, and RESTARTS. *)
Lemma nc_conflict_stats fuel c r rc s s' rc' :
  nc_conflict fuel c r rc s = Ok (s', rc') -> backtracks s' = backtracks s + 1 /\ stats s' = stats s.
Proof.
  unfold nc_conflict. intro E. apply bind_ok in E. destruct E as (ls & _ & E).
  apply bind_ok in E. destruct E as ((s1, x) & E1 & E). apply kept_analyze in E1.
  apply bind_ok in E. destruct E as (lv & _ & E). cbv zeta in E. cbn in E.
  assert (B : backtracks s1 = backtracks s) by (unfold kept in E1; congruence).
  assert (ST : stats s1 = stats s) by (unfold kept in E1; unfold stats; congruence).
  destruct (backtracks s1 + 1 =? rc).
  - apply bind_ok in E. destruct E as (s2 & E2 & E). apply still_undo in E2.
    assert (B2 : backtracks s2 = backtracks s1 + 1) by (unfold still, outer in E2; cbn in E2; congruence).
    apply outer_stats in E2. assert (S2 : stats s2 = stats s) by (rewrite E2; exact ST).
    injection E as <- _. destruct (level s2 =? 0); split; auto; cbn; lia.
  - apply bind_ok in E. destruct E as (s2 & E2 & E). apply still_undo in E2.
    assert (B2 : backtracks s2 = backtracks s1 + 1) by (unfold still, outer in E2; cbn in E2; congruence).
    apply outer_stats in E2. assert (S2 : stats s2 = stats s) by (rewrite E2; exact ST).
    injection E as <- _. split; auto; cbn; lia.
Qed.

Lemma wl_conflict_stats fuel c r rc s s' rc' :
  wl_conflict fuel c r rc s = Ok (s', rc') -> backtracks s' = backtracks s + 1 /\ stats s' = stats s.
Proof.
  unfold wl_conflict. intro E. apply bind_ok in E. destruct E as (ls & _ & E).
  apply bind_ok in E. destruct E as ((s1, x) & E1 & E). apply kept_analyze in E1.
  apply bind_ok in E. destruct E as (lv & _ & E). cbv zeta in E. cbn in E.
  assert (B : backtracks s1 = backtracks s) by (unfold kept in E1; congruence).
  assert (ST : stats s1 = stats s) by (unfold kept in E1; unfold stats; congruence).
  destruct (backtracks s1 + 1 =? rc).
  - apply bind_ok in E. destruct E as (s2 & E2 & E). apply still_wundo in E2.
    assert (B2 : backtracks s2 = backtracks s1 + 1) by (unfold still, outer in E2; cbn in E2; congruence).
    apply outer_stats in E2. assert (S2 : stats s2 = stats s) by (rewrite E2; exact ST).
    injection E as <- _. destruct (level s2 =? 0); split; auto; cbn; lia.
  - apply bind_ok in E. destruct E as (s2 & E2 & E). apply still_wundo in E2.
    assert (B2 : backtracks s2 = backtracks s1 + 1) by (unfold still, outer in E2; cbn in E2; congruence).
    apply outer_stats in E2. assert (S2 : stats s2 = stats s) by (rewrite E2; exact ST).
    injection E as <- _. split; auto; cbn; lia.
Qed.
