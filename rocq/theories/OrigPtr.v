(** * The pointer ENTAILLITERAL of the first version

    A run that keeps track of the pointer is the run that ignores it, or it ends where the
    pointer is used wrongly. *)

From Verif Require Import Spec Outcome State ModelCounter ModelSearch ModelBuild ModelOrig.

Definition np (o : orig) : orig := set_optr o PIgnore.

Definition rel {A B} (g : A -> B) (x : outcome A) (y : outcome B) : Prop :=
  match x with
  | Ok a => y = Ok (g a)
  | Undef u => u = Uninit \/ u = BadPtr \/ y = Undef u
  | OutOfFuel => y = OutOfFuel
  end.

Lemma rel_bind {A B C D} (g : A -> B) (h : C -> D) x y f k :
  rel g x y -> (forall a, rel h (f a) (k (g a))) -> rel h (bind x f) (bind y k).
Proof.
  destruct x; simpl; intros E F; subst; simpl; auto.
  destruct E as [E|[E|E]]; subst; auto.
Qed.
Lemma rel_refl {A} (x : outcome A) : rel (fun a => a) x x.
Proof. destruct x; simpl; auto. Qed.
Lemma rel_same {A B C} (h : B -> C) (x : outcome A) f k :
  (forall a, rel h (f a) (k a)) -> rel h (bind x f) (bind x k).
Proof. intro F. apply (rel_bind (fun a => a)); auto. apply rel_refl. Qed.
Lemma rel_ok {A B} (g : A -> B) a b : b = g a -> rel g (Ok a) (Ok b).
Proof. intros ->. reflexivity. Qed.
Lemma rel_fold {A} (f : orig -> A -> outcome orig) L :
  (forall o x, rel np (f o x) (f (np o) x)) -> forall o, rel np (foldM f L o) (foldM f L (np o)).
Proof.
  intro F. induction L as [|x L IH]; intro o; cbn [foldM]; [reflexivity|].
  apply (rel_bind np); auto.
Qed.

Ltac same := first [reflexivity | apply rel_ok; reflexivity].

Lemma np_sat_step o n : rel np (o_sat_step o n) (o_sat_step (np o) n).
Proof.
  unfold o_sat_step. apply rel_same. intro c. cbn [ocsat np set_optr]. destruct (ocsat o n); [same|].
  apply rel_same. intro s. same.
Qed.
Lemma np_satisfy o l : rel np (o_satisfy o l) (o_satisfy (np o) l).
Proof. unfold o_satisfy. apply rel_same. intros _. apply (rel_fold _ _ np_sat_step). Qed.
Lemma np_remove_step l o n : rel np (o_remove_step l o n) (o_remove_step l (np o) n).
Proof.
  unfold o_remove_step. apply rel_same. intro c. cbn [ocsat np set_optr]. destruct (ocsat o n); same.
Qed.
Lemma np_remove o l : rel np (o_remove o l) (o_remove (np o) l).
Proof. unfold o_remove. apply rel_same. intros _. apply (rel_fold _ _ (np_remove_step l)). Qed.
Lemma np_assign o v d a : rel np (o_assign o v d a) (o_assign (np o) v d a).
Proof.
  unfold o_assign. apply (rel_bind np); [apply np_satisfy|]. intro o1.
  apply (rel_bind np); [apply np_remove|]. intro o2. same.
Qed.
Lemma np_exclude v o i : rel np (o_exclude v o i) (o_exclude v (np o) i).
Proof.
  unfold o_exclude. cbn [ost np set_optr]. destruct (conflict (ost o)); [same|].
  destruct (ASG (tr (ost o)) v i); try same. apply np_assign.
Qed.
Lemma np_reduce_pos o v d : rel np (o_reduce_pos o v d) (o_reduce_pos (np o) v d).
Proof.
  unfold o_reduce_pos. apply rel_same. intros _. apply (rel_bind np); [apply np_assign|]. intro o1.
  apply (rel_bind np); [apply (rel_fold _ _ (np_exclude v))|]. intro o2. apply (rel_fold _ _ (np_exclude v)).
Qed.
Lemma np_check_entail o v :
  rel (fun q => (np (fst q), snd q)) (o_check_entail o v) (o_check_entail (np o) v).
Proof.
  unfold o_check_entail. cbn [optr osat ost np set_optr delete_ptr bind].
  destruct (optr o); simpl; auto; destruct (if osat o v then None else check_entail (tr (ost o)) v); same.
Qed.
Lemma np_reduce o l : rel np (o_reduce o l) (o_reduce (np o) l).
Proof.
  unfold o_reduce. destruct (leq l); [apply np_reduce_pos|].
  unfold o_reduce_neg. apply rel_same. intros _. apply (rel_bind np); [apply np_assign|]. intro o1.
  apply (rel_bind (fun q => (np (fst q), snd q))); [apply (np_check_entail (on o1 _))|].
  intros (o2 & [e|]); cbn [fst snd]; [|same]. apply (np_reduce_pos (on o2 _)).
Qed.

Lemma np_add_step l o n : rel np (o_add_step l o n) (o_add_step l (np o) n).
Proof. unfold o_add_step. apply rel_same. intro c. cbn [ocsat np set_optr]. destruct (ocsat o n); same. Qed.
Lemma np_add o l : rel np (o_add o l) (o_add (np o) l).
Proof. unfold o_add. apply rel_same. intros _. apply (rel_fold _ _ (np_add_step l)). Qed.
Lemma np_unsat_step b lev o n : rel np (o_unsat_step b lev o n) (o_unsat_step b lev (np o) n).
Proof.
  unfold o_unsat_step. apply rel_same. intro c. cbn [ost np set_optr].
  destruct (lev <? clev (ost o) n); [|same]. apply rel_same. intro s. same.
Qed.
Lemma np_unsatisfy lev o l : rel np (o_unsatisfy lev o l) (o_unsatisfy lev (np o) l).
Proof. unfold o_unsatisfy. apply rel_same. intros _. apply (rel_fold _ _ (np_unsat_step (leq l) lev)). Qed.
Lemma np_undo1 lev o a : rel np (o_undo1 lev o a) (o_undo1 lev (np o) a).
Proof.
  destruct a as (v & d). unfold o_undo1. cbn [ost np set_optr].
  destruct (lev <? ALEV (tr (ost o)) v d); [|same]. destruct (ASG (tr (ost o)) v d); apply np_add.
Qed.
Lemma np_undo2 lev v o d : rel np (o_undo2 lev v o d) (o_undo2 lev v (np o) d).
Proof.
  unfold o_undo2. cbn [ost np set_optr]. destruct (lev <? ALEV (tr (ost o)) v d); [|same].
  apply (rel_bind np); [destruct (ASG (tr (ost o)) v d); apply np_unsatisfy|]. intro o1. same.
Qed.
Lemma np_undo_var lev o v : rel np (o_undo_var lev o v) (o_undo_var lev (np o) v).
Proof.
  unfold o_undo_var. apply (rel_bind np); [apply (rel_fold _ _ (np_undo2 lev v))|]. intro o1.
  cbn [ovlev np set_optr]. destruct (lev <? ovlev o1 v); same.
Qed.
Lemma np_undo o lev : rel np (o_undo o lev) (o_undo (np o) lev).
Proof.
  unfold o_undo. apply (rel_bind np); [apply (rel_fold _ _ (np_undo1 lev))|]. intro o1.
  apply (rel_bind np); [apply (rel_fold _ _ (np_undo_var lev))|]. intro o2.
  apply rel_same. intro s. same.
Qed.

Lemma np_propagate_loop fuel : forall o, rel np (o_propagate_loop fuel o) (o_propagate_loop fuel (np o)).
Proof.
  induction fuel as [|f IH]; intro o; [reflexivity|]. cbn [o_propagate_loop].
  change (ost (np o)) with (ost o). cbv zeta. destruct (conflict (ost o)); [same|].
  destruct (ulist (ost o)) as [|n rest]; [same|]. apply rel_same. intro c.
  change (ocsat (np o) n) with (ocsat o n). destruct (ocsat o n); [apply (IH (on o _))|].
  apply rel_same. intros [l|]; [|apply (IH (on o _))].
  apply (rel_bind np); [apply (np_reduce (on o _))|]. intro o1. apply IH.
Qed.
Lemma np_propagate fuel o : rel np (o_propagate fuel o) (o_propagate fuel (np o)).
Proof.
  unfold o_propagate. apply (rel_bind np); [apply np_propagate_loop|]. intro o1.
  change (ost (np o1)) with (ost o1). destruct (conflict (ost o1)); same.
Qed.
Lemma np_units fuel o : rel np (o_units fuel o) (o_units fuel (np o)).
Proof.
  unfold o_units. change (ost (np o)) with (ost o). destruct (ulist (ost o)); [same|]. apply np_propagate.
Qed.

Definition np2 (q : verdict * orig) : verdict * orig := (fst q, np (snd q)).

Lemma np_decide o l : rel np (o_decide o l) (o_decide (np o) l).
Proof. unfold o_decide. apply (np_reduce (on o _)). Qed.

Lemma np_chrono clk fuel : forall o lev, rel np2 (o_chrono fuel clk o lev) (o_chrono fuel clk (np o) lev).
Proof.
  induction fuel as [|f IH]; intros o lev; [reflexivity|]. cbn [o_chrono].
  set (o1 := on o (set_level (ost o) lev)).
  change (on (np o) (set_level (ost (np o)) lev)) with (np o1).
  change (o_check_sat (np o1)) with (o_check_sat o1). destruct (o_check_sat o1); [same|].
  change (o_time clk (np o1)) with (fst (o_time clk o1), np (snd (o_time clk o1))).
  destruct (o_time clk o1) as (late & o2). cbn [fst snd]. destruct late; [same|].
  apply (rel_bind np); [apply np_units|]. intro o3.
  change (o_check_sat (np o3)) with (o_check_sat o3). destruct (o_check_sat o3); [same|].
  change (o_time clk (np o3)) with (fst (o_time clk o3), np (snd (o_time clk o3))).
  destruct (o_time clk o3) as (late & o4). cbn [fst snd]. destruct late; [same|].
  change (conflict (ost (np o4))) with (conflict (ost o4)). destruct (conflict (ost o4)).
  { apply (rel_bind np); [apply (np_undo (on o4 _))|]. intro o5. same. }
  change (o_choose (np o4)) with (np (fst (o_choose o4)), snd (o_choose o4)).
  destruct (o_choose o4) as (o5 & [l|]); cbn [fst snd]; [|same].
  apply (rel_bind np); [apply np_decide|]. intro o6.
  apply (rel_bind np2); [apply IH|]. intros (v & o7). cbn [np2 fst snd].
  destruct v; try same. change (level (ost (np o7))) with (level (ost o7)).
  destruct (level (ost o7) =? 0); [same|]. apply (rel_bind np); [apply np_reduce|]. intro o8. apply IH.
Qed.

Lemma np_conflict o : rel np (o_conflict o) (o_conflict (np o)).
Proof.
  unfold o_conflict. apply (rel_bind np).
  - unfold o_analyze. change (ost (np o)) with (ost o). apply rel_same. intro i. apply rel_same. intro l. same.
  - intro o1. apply (rel_bind np); [apply (np_undo (on o1 _))|]. intro o2. same.
Qed.

Lemma np_loop clk fuel : forall o, rel np2 (o_loop fuel clk o) (o_loop fuel clk (np o)).
Proof.
  induction fuel as [|f IH]; intros o; [reflexivity|]. cbn [o_loop].
  change (o_check_sat (np o)) with (o_check_sat o). destruct (o_check_sat o); [same|].
  change (o_time clk (np o)) with (fst (o_time clk o), np (snd (o_time clk o))).
  destruct (o_time clk o) as (late & o2). cbn [fst snd]. destruct late; [same|].
  change (ost (np o2)) with (ost o2). destruct (ulist (ost o2)).
  - destruct (conflict (ost o2)).
    + destruct (level (ost o2) =? 0); [same|].
      apply (rel_bind np); [apply np_conflict|]. intro o3. apply IH.
    + change (o_choose (np o2)) with (np (fst (o_choose o2)), snd (o_choose o2)).
      destruct (o_choose o2) as (o5 & [l|]); cbn [fst snd]; [|apply IH].
      apply (rel_bind np); [apply np_decide|]. intro o6. apply IH.
  - apply (rel_bind np); [apply np_propagate|]. intro o3.
    change (o_check_sat (np o3)) with (o_check_sat o3). destruct (o_check_sat o3); [same|].
    change (o_time clk (np o3)) with (fst (o_time clk o3), np (snd (o_time clk o3))).
    destruct (o_time clk o3) as (late & o4). cbn [fst snd]. destruct late; [same|]. apply IH.
Qed.

Lemma np_add_item o i : rel np (o_add_item o i) (o_add_item (np o) i).
Proof.
  destruct i; unfold o_add_item; change (ost (np o)) with (ost o).
  - apply rel_same. intro s. same.
  - apply (rel_bind np); [apply rel_fold|].
    + intros o1 l. unfold o_add_lit. apply rel_same. intros _. same.
    + intro o1. same.
Qed.

Lemma solve_ptr fuel m e clk p :
  rel (fun rep => rep) (o_solve fuel m e clk p) (o_solve fuel m PIgnore clk p).
Proof.
  unfold o_solve. apply (rel_bind np).
  - unfold o_build. change (o_init PIgnore) with (np (o_init e)). apply (rel_fold _ _ np_add_item).
  - intro o. apply (rel_bind np2).
    + unfold o_search. destruct m; [apply (np_chrono _ _ (o_check_unit o))|].
      apply (np_loop _ _ (on (o_check_unit o) _)).
    + intros (v & o'). unfold o_finish. cbn [np2 fst snd]. change (ost (np o')) with (ost o').
      destruct v; try same. change (o_verify (np o')) with (o_verify o'). apply rel_refl.
Qed.
