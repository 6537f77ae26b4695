(** * The lazy heuristics: proofs *)

From Coq Require Import Floats.SpecFloat.
From Verif Require Import Spec WideSpec Outcome State ModelCounter ModelHeur ModelLearn ModelWatch
  ModelSearch ModelBuild Base Trail Reduce Counter Propagate Choose Scores Chrono Init Nc Watch WatchProp Wl
  Fuel Steps Reach StepSpec StepFacts Frame LazySpec.

Lemma un_iff s l : lit_un (tr s) l = true <-> is_open s l.
Proof. apply open_iff. Qed.

Lemma has_true_iff s C : has_true s C <-> exists x, In x C /\ lit_true (tr s) x = true.
Proof. split; intros (x & H & T); exists x; split; auto; apply true_iff; auto. Qed.

Lemma lazy_lits_first s : forall C o, lazy_lits (tr s) C = Ok o -> (forall x, In x C -> lit_true (tr s) x = false) ->
  match o with
  | Some l => exists falses rest, C = falses ++ l :: rest /\ (forall x, In x falses -> is_false s x) /\ is_open s l
  | None => countb (lit_un (tr s)) C = 0%nat
  end.
Proof.
  induction C as [|x C IH]; intros o E T; [injection E as <-; reflexivity|].
  cbn [lazy_lits] in E. apply bind_ok in E. destruct E as (q & Q & E). unfold sat in Q. apply do_ok in Q.
  injection Q as <-. rewrite (T x) in E by (left; auto).
  assert (T' : forall y, In y C -> lit_true (tr s) y = false) by (intros; apply T; right; auto).
  destruct (lit_cases (tr s) x) as [(T1 & U1 & F1)|[(T1 & U1 & F1)|(T1 & U1 & F1)]].
  - rewrite (T x) in T1 by (left; auto). discriminate.
  - rewrite U1 in E. injection E as <-. exists [], C. split; auto. split; [intros y []|]. apply un_iff; auto.
  - rewrite U1 in E. specialize (IH o E T'). destruct o as [l|].
    + destruct IH as (fs & rest & -> & A & B). exists (x :: fs), rest. split; auto. split; auto.
      intros y [<-|Hy]; auto. apply false_iff; auto.
    + rewrite countb_cons, U1. exact IH.
Qed.

Lemma lazy_first s l : CS s -> conflict s = false -> ulist s = [] -> choose_lazy s = Ok l -> lazy_choice s l.
Proof.
  intros H Cf Ul E. unfold choose_lazy in E.
  assert (G : forall cs pre, cl s = pre ++ cs -> (forall D, In D pre -> has_true s D) ->
    lazy_clauses s (length pre) cs = Ok l -> lazy_choice s l); [|apply (G (cl s) []); auto; intros D []].
  clear E. induction cs as [|C cs IH]; intros pre Ep P E.
  - injection E as <-. left. split; auto. rewrite app_nil_r in Ep. rewrite Ep. auto.
  - cbn [lazy_clauses] in E.
    assert (Hn : nth_error (cl s) (length pre) = Some C) by (rewrite Ep, nth_error_app2, Nat.sub_diag; auto).
    assert (REST : has_true s C -> lazy_clauses s (S (length pre)) cs = Ok l -> lazy_choice s l).
    { intros T E1. apply (IH (pre ++ [C])).
      - rewrite <- app_assoc. auto.
      - intros D HD. apply in_app_or in HD. destruct HD as [HD|[<-|[]]]; auto.
      - rewrite app_length. cbn [length]. rewrite Nat.add_1_r. auto. }
    destruct (CS_ci _ H _ _ Hn) as [(C1 & C2 & C3)|(C1 & _ & (x & L1 & L2 & _) & _)].
    + rewrite C1 in E. cbn [Z.eqb Pos.eqb] in E.
      apply bind_ok in E. destruct E as (o & Eo & E). apply lazy_lits_first in Eo; auto.
      destruct o as [l'|].
      * injection E as ->. right. destruct Eo as (fs & rest & A & B & O). exists pre, C, cs, fs, rest.
        split; auto. split; auto. split; auto. rewrite has_true_iff. intros (x & X1 & X2). rewrite C2 in X2; auto. discriminate.
      * exfalso. destruct (ui_two _ _ (CS_ui _ H) Cf _ C Hn C1) as [X|(X & _)]; lia.
    + destruct (clev s (length pre) =? -1) eqn:Q; [apply Z.eqb_eq in Q; lia|].
      apply REST; auto. apply has_true_iff. eauto.
Qed.

Lemma lazy_watch_first s l : WCS s -> conflict s = false -> ulist s = [] -> choose_lazy_watched s = Ok l -> lazy_watch_choice s l.
Proof.
  intros H Cf Ul E. unfold choose_lazy_watched in E.
  assert (G : forall cs pre, cl s = pre ++ cs -> (forall D, In D pre -> has_true s D) ->
    (forall n, (n < length pre)%nat -> ~ is_open s (w0 s n)) ->
    lazy_watched s (length pre) cs = Ok l -> lazy_watch_choice s l).
  2: { apply (G (cl s) []); auto; [intros D []|cbn; lia]. }
  clear E. induction cs as [|C cs IH]; intros pre Ep P Q E.
  - injection E as <-. left. split; auto. rewrite app_nil_r in Ep. rewrite Ep. auto.
  - cbn [lazy_watched] in E.
    assert (Hn : nth_error (cl s) (length pre) = Some C) by (rewrite Ep, nth_error_app2, Nat.sub_diag; auto).
    apply bind_ok in E. destruct E as (q & Sq & E). unfold sat in Sq. apply do_ok in Sq. injection Sq as <-.
    assert (REST : lit_un (tr s) (w0 s (length pre)) = false -> lazy_watched s (S (length pre)) cs = Ok l -> lazy_watch_choice s l).
    { intros U E1. apply (IH (pre ++ [C])).
      - rewrite <- app_assoc. auto.
      - intros D HD. apply in_app_or in HD. destruct HD as [HD|[<-|[]]]; auto. apply has_true_iff.
        eapply WCS_true_or; eauto.
      - intros n Hlt. rewrite app_length in Hlt. cbn [length] in Hlt.
        destruct (Nat.eq_dec n (length pre)) as [->|Ne]; [|apply Q; lia]. rewrite <- un_iff. congruence.
      - rewrite app_length. cbn [length]. rewrite Nat.add_1_r. auto. }
    destruct (lit_cases (tr s) (w0 s (length pre))) as [(T1 & U1 & F1)|[(T1 & U1 & F1)|(T1 & U1 & F1)]];
      rewrite T1, ?U1 in E; auto.
    injection E as <-. right. exists pre, C, cs. split; auto. split; auto. split; auto. split; auto.
    split; [|apply un_iff; auto]. apply (ws_w0 _ (WCS_ws _ H)); auto.
Qed.

Lemma nc_lazy_choice c clk r p s l :
  wf p -> no_repeats p -> watch c = false -> lenient c = true -> heur c = Lazy ->
  nc_decision_at c clk r p s l -> lazy_choice s l.
Proof.
  intros W ND Hw Le Hh H. destruct (nc_decision_at_ok c clk r p s l W ND Hw Le H) as (t0 & s2 & ST & I & CN & Cf & Ul & Ch).
  unfold choose_nc in Ch. rewrite Hh in Ch. apply bind_ok in Ch. destruct Ch as (x & E & Ch). injection Ch as _ ->.
  apply lazy_first; auto. apply I.
Qed.

Lemma ch_lazy_choice c clk p s l :
  wf p -> watch c = false -> heur c = Lazy -> ch_decision_at c clk p s l -> lazy_choice s l.
Proof.
  intros W Hw Hh H. destruct (ch_decision_at_ok c clk p (or_intror Hh) s l W Hw H) as (lev & s2 & HC & Cf & Ul & Ch).
  unfold choose_ch in Ch. rewrite Hh in Ch. apply bind_ok in Ch. destruct Ch as (x & E & Ch). injection Ch as _ ->.
  apply lazy_first; auto. apply HC.
Qed.

Lemma wl_lazy_choice c clk r p s l :
  wf p -> no_repeats p -> watch c = true -> lenient c = true -> heur c = Lazy ->
  wl_decision_at c clk r p s l -> lazy_watch_choice s l.
Proof.
  intros W ND Hw Le Hh H. assert (NB : heur c <> BK) by congruence.
  destruct (wl_decision_at_ok c clk r p s l W ND Hw Le NB H) as (t0 & s2 & ST & I & Cf & Ul & Ch).
  unfold choose_wl in Ch. rewrite Hh in Ch. apply bind_ok in Ch. destruct Ch as (x & E & Ch). injection Ch as _ ->.
  apply lazy_watch_first; auto. apply I.
Qed.
