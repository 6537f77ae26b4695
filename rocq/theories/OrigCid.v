(** * The clause numbers kept by the first version are those of clauses *)

From Verif Require Import Spec Outcome State ModelCounter ModelSearch ModelBuild ModelOrig Base.

(** CLAUSEID and UNITCLAUSE hold numbers of clauses. *)
Definition cidok (n : nat) (o : orig) : Prop :=
  length (cl (ost o)) = n /\
  (forall v d m, CID (tr (ost o)) v d = RCls m -> (m < n)%nat) /\
  (forall m, uclause (ost o) = RCls m -> (m < n)%nat).

Definition pres {A} (P : A -> Prop) (x : outcome A) : Prop :=
  match x with Ok a => P a | _ => True end.

Lemma pres_bind {A B} (P : A -> Prop) (Q : B -> Prop) x f :
  pres P x -> (forall a, P a -> pres Q (f a)) -> pres Q (bind x f).
Proof. destruct x; simpl; auto. Qed.
Lemma pres_any {A B} (Q : B -> Prop) (x : outcome A) f : (forall a, pres Q (f a)) -> pres Q (bind x f).
Proof. destruct x; simpl; auto. Qed.
Lemma pres_fold {A B} (P : B -> Prop) (f : B -> A -> outcome B) L :
  (forall b x, P b -> pres P (f b x)) -> forall b, P b -> pres P (foldM f L b).
Proof.
  intro F. induction L as [|x L IH]; intros b H; cbn [foldM]; [exact H|].
  apply (pres_bind P); auto.
Qed.
Lemma pres_ok {A} (P : A -> Prop) x a : pres P x -> x = Ok a -> P a.
Proof. intros H ->. exact H. Qed.

(** The part of a state that matters here. *)
Definition sc (s s' : state) : Prop :=
  cl s' = cl s /\ tr s' = tr s /\ uclause s' = uclause s.
Definition sco (o : orig) : orig -> Prop := fun o' => sc (ost o) (ost o').

Lemma sc_trans a b c : sc a b -> sc b c -> sc a c.
Proof. intros (A & B & C) (A' & B' & C'). split; [|split]; congruence. Qed.
Lemma sco_cid n o o' : cidok n o -> sco o o' -> cidok n o'.
Proof. intros (A & B & C) (A' & B' & C'). unfold cidok. rewrite A', B', C'. auto. Qed.

Lemma sc_dec n s l : pres (sc s) (o_dec n s l).
Proof. unfold o_dec. apply pres_any. intros _. destruct (lit_un (tr s) l); repeat split. Qed.
Lemma sc_fold {A} (f : state -> A -> outcome state) L s :
  (forall s x, pres (sc s) (f s x)) -> pres (sc s) (foldM f L s).
Proof.
  intro F. apply (pres_fold (sc s)); [|repeat split]. intros b x Hb. specialize (F b x).
  destruct (f b x); simpl in *; auto. eapply sc_trans; eauto.
Qed.
Lemma sco_fold {A} (f : orig -> A -> outcome orig) L o :
  (forall o x, pres (sco o) (f o x)) -> pres (sco o) (foldM f L o).
Proof.
  intro F. apply (pres_fold (sco o)); [|repeat split]. intros b x Hb. specialize (F b x).
  destruct (f b x); simpl in *; auto. eapply sc_trans; eauto.
Qed.
Lemma sco_satisfy o l : pres (sco o) (o_satisfy o l).
Proof.
  unfold o_satisfy. apply pres_any. intros _. apply sco_fold. clear. intros o n.
  unfold o_sat_step. apply pres_any. intro c. destruct (ocsat o n); [repeat split|].
  apply (pres_bind (sc (ost o))).
  - pose proof (sc_fold (o_dec n) c (set_clev (ost o) (updn (clev (ost o)) n (level (ost o)))) (sc_dec n)) as H.
    simpl ost. destruct (foldM _ _ _); simpl in *; auto.
  - intros s H. exact H.
Qed.
Lemma sco_remove o l : pres (sco o) (o_remove o l).
Proof.
  unfold o_remove. apply pres_any. intros _. apply sco_fold. clear. intros o n.
  unfold o_remove_step. apply pres_any. intros _. destruct (ocsat o n); [repeat split|].
  destruct (num (ost o) n - 1 =? 1), (num (ost o) n - 1 =? 0); repeat split.
Qed.
Lemma sco_add o l : pres (sco o) (o_add o l).
Proof.
  unfold o_add. apply pres_any. intros _. apply sco_fold. clear. intros o n.
  unfold o_add_step. apply pres_any. intros _. destruct (ocsat o n); repeat split.
Qed.
Lemma sco_unsatisfy lev o l : pres (sco o) (o_unsatisfy lev o l).
Proof.
  unfold o_unsatisfy. apply pres_any. intros _. apply sco_fold. intros o1 n.
  unfold o_unsat_step. apply pres_any. intros c. destruct (lev <? clev (ost o1) n); [|repeat split].
  apply (pres_bind (sc (ost o1))).
  - apply sc_fold. intros s x. unfold o_inc. apply pres_any. intros _.
    destruct ((lev <? _) || _); repeat split.
  - intros s H. exact H.
Qed.

Section Cid.
Variable n : nat.
Notation P := (cidok n).

Lemma sco_P o x : P o -> pres (sco o) x -> pres P x.
Proof. intros H. destruct x; simpl; auto. intro S. eapply sco_cid; eauto. Qed.

Lemma cid_assign o v d a : P o -> pres P (o_assign o v d a).
Proof.
  intro H. unfold o_assign. apply (pres_bind P); [eapply sco_P; eauto; apply sco_satisfy|].
  intros o1 H1. apply (pres_bind P); [eapply sco_P; eauto; apply sco_remove|].
  intros o2 (A & B & C). split; [exact A|]. split; [|exact C]. simpl. intros w e m. unfold upd2.
  destruct ((w =? v) && (e =? d)); [apply C|apply B].
Qed.
Lemma cid_exclude v o i : P o -> pres P (o_exclude v o i).
Proof.
  intro H. unfold o_exclude. destruct (conflict (ost o)); [exact H|].
  destruct (ASG (tr (ost o)) v i); try exact H. apply cid_assign; auto.
Qed.
Lemma cid_reduce_pos o v d : P o -> pres P (o_reduce_pos o v d).
Proof.
  intro H. unfold o_reduce_pos. apply pres_any. intros _.
  apply (pres_bind P); [apply cid_assign; auto|]. intros o1 H1.
  apply (pres_bind P).
  - apply (pres_fold P); [intros; apply cid_exclude; auto|]. exact H1.
  - intros o2 H2. apply (pres_fold P); [intros; apply cid_exclude; auto|]. exact H2.
Qed.
Lemma cid_reduce o l : P o -> pres P (o_reduce o l).
Proof.
  intro H. unfold o_reduce. destruct (leq l); [apply cid_reduce_pos; auto|].
  unfold o_reduce_neg. apply pres_any. intros _. apply (pres_bind P); [apply cid_assign; auto|].
  intros o1 H1. apply (pres_bind (fun q => P (fst q))).
  - unfold o_check_entail. apply pres_any. intro e.
    destruct (if osat _ _ then None else check_entail _ _); exact H1.
  - intros (o2 & [e|]) H2; [|exact H2]. apply cid_reduce_pos. exact H2.
Qed.
Lemma cid_undo o lev : P o -> pres P (o_undo o lev).
Proof.
  intro H. unfold o_undo. apply (pres_bind P).
  { apply (pres_fold P); auto. intros o1 (v & d) H1. unfold o_undo1.
    destruct (lev <? _); [|exact H1].
    destruct (ASG (tr (ost o1)) v d); (eapply sco_P; [eauto|apply sco_add]). }
  intros o1 H1. apply (pres_bind P).
  { apply (pres_fold P); auto. intros o2 v H2. unfold o_undo_var. apply (pres_bind P).
    - apply (pres_fold P); auto. intros o3 d H3. unfold o_undo2. destruct (lev <? _); [|exact H3].
      apply (pres_bind P).
      + destruct (ASG (tr (ost o3)) v d); (eapply sco_P; [eauto|apply sco_unsatisfy]).
      + intros o4 (A & B & C). split; [exact A|]. split; [|exact C]. simpl. intros w e m. unfold upd2.
        destruct ((w =? v) && (e =? d)); [discriminate|apply B].
    - intros o3 H3. destruct (lev <? ovlev o3 v); exact H3. }
  intros o2 H2. unfold prune_dst. destruct (forallb _ _); simpl; auto.
Qed.
Lemma cid_propagate_loop fuel : forall o, P o -> pres P (o_propagate_loop fuel o).
Proof.
  induction fuel as [|f IH]; intros o H; [exact I|]. cbn [o_propagate_loop]. cbv zeta.
  destruct (conflict (ost o)); [exact H|]. destruct (ulist (ost o)) as [|k rest]; [exact H|].
  unfold getcl. cbn [cl set_ulist set_uclause set_units].
  destruct (nth_error (cl (ost o)) k) as [c|] eqn:E; cbn [bind]; [|exact I].
  assert (G : forall s', cl s' = cl (ost o) -> tr s' = tr (ost o) -> uclause s' = RCls k -> P (on o s')).
  { destruct H as (A & B & C). intros s' E1 E2 E3. split; [|split].
    - simpl. congruence.
    - simpl. rewrite E2. exact B.
    - simpl. intros m X. rewrite E3 in X. injection X as <-. rewrite <- A. eapply nth_error_lt; eauto. }
  destruct (ocsat o k); [apply IH; apply G; auto|]. apply pres_any. intros [l|]; [|apply IH; apply G; auto].
  apply (pres_bind P); [apply cid_reduce; apply G; auto|]. exact IH.
Qed.
Lemma cid_propagate fuel o : P o -> pres P (o_propagate fuel o).
Proof.
  intro H. unfold o_propagate. apply (pres_bind P); [apply cid_propagate_loop; auto|].
  intros o1 H1. destruct (conflict (ost o1)); exact H1.
Qed.
Lemma cid_decide o l : P o -> uclause (ost o) = RDec -> pres P (o_decide o l).
Proof.
  intros (A & B & C) U. unfold o_decide. apply cid_reduce. split; [exact A|]. split; [exact B|].
  simpl. rewrite U. discriminate.
Qed.
End Cid.
