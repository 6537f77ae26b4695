(** * No clause is lost

    Partial correctness, without any precondition: whatever the state a search starts from, its
    clauses are still there, in the same order, when it ends.  So the self-check covers every
    clause that was read, whatever the input file looks like. *)

From Coq Require Import Ascii String.
From Verif Require Import Spec WideSpec Outcome State ModelCounter ModelHeur ModelLearn ModelWatch ModelSearch ModelBuild
  Base Reduce Init Frame TextSpec ModelText ModelRead Text Read.
#[local] Open Scope Z_scope.

Definition grows (s s' : state) : Prop := exists cs, cl s' = cl s ++ cs.

Lemma grows_same s s' : cl s' = cl s -> grows s s'.
Proof. intro E. exists []. rewrite app_nil_r. exact E. Qed.
Lemma grows_trans a b c : grows a b -> grows b c -> grows a c.
Proof. intros (x & E1) (y & E2). exists (x ++ y). rewrite E2, E1, app_assoc. reflexivity. Qed.

Lemma outer_cl s s' : outer s' = outer s -> cl s' = cl s.
Proof. unfold outer. congruence. Qed.

(** ** Assigning a literal *)

Section Assign.
Variable assign : state -> Z -> Z -> aval -> outcome state.
Hypothesis assign_cl : forall s v d a s', assign s v d a = Ok s' -> cl s' = cl s.

Lemma gexs_cl v is s s' : foldM (gexclude assign v) is s = Ok s' -> cl s' = cl s.
Proof.
  apply (foldM_inv_ok (gexclude assign v) (fun x => cl x = cl s)); auto. intros i a b _ Q E. unfold gexclude in E.
  destruct (conflict a); [injection E as <-; auto|]. destruct (ASG (tr a) v i); try (injection E as <-; auto; fail).
  apply assign_cl in E. congruence.
Qed.
Lemma gpos_cl s v d s' : gpos assign s v d = Ok s' -> cl s' = cl s.
Proof.
  unfold gpos. intro E. apply do_ok in E. cbv zeta in E. apply bind_ok in E. destruct E as (s1 & E1 & E).
  apply bind_ok in E. destruct E as (s2 & E2 & E). apply assign_cl in E1. apply gexs_cl in E2, E. rewrite E, E2, E1. reflexivity.
Qed.
Lemma greduce_cl s l s' : greduce assign s l = Ok s' -> cl s' = cl s.
Proof.
  unfold greduce. destruct (leq l); [apply gpos_cl|]. unfold gneg. intro E. apply do_ok in E. cbv zeta in E.
  apply bind_ok in E. destruct E as (s1 & E1 & E). apply assign_cl in E1. destruct (check_entail (tr s1) (lvar l)).
  - apply gpos_cl in E. rewrite E. exact E1.
  - injection E as <-. exact E1.
Qed.
End Assign.

Lemma reduce_cl c s l s' : reduce_theory c s l = Ok s' -> cl s' = cl s.
Proof. apply (greduce_cl (assign_atom c)). intros. apply outer_cl. apply (assign_marked _ _ _ _ _ _ H). Qed.
Lemma wreduce_cl c s l s' : wreduce_theory c s l = Ok s' -> cl s' = cl s.
Proof. apply (greduce_cl (wassign_atom c)). intros. apply outer_cl. apply (wassign_marked _ _ _ _ _ _ H). Qed.

(** ** Propagation *)

Lemma up_cl c : forall fuel s s', unit_propagation fuel c s = Ok s' -> cl s' = cl s.
Proof.
  induction fuel as [|fuel IH]; intros s s' E; [discriminate|]. cbn [unit_propagation] in E.
  destruct (conflict s); [injection E as <-; auto|]. destruct (ulist s) as [|n rest]; [injection E as <-; auto|].
  cbv zeta in E. apply bind_ok in E. destruct E as (ls & _ & E). destruct (clev _ n =? -1); [|apply IH in E; exact E].
  apply bind_ok in E. destruct E as ([l|] & _ & E); [|apply IH in E; exact E].
  apply bind_ok in E. destruct E as (s1 & E1 & E). apply reduce_cl in E1. apply IH in E. rewrite E, E1. reflexivity.
Qed.

Lemma wup_cl c : forall fuel s s', wunit_propagation fuel c s = Ok s' -> cl s' = cl s.
Proof.
  induction fuel as [|fuel IH]; intros s s' E; [discriminate|]. cbn [wunit_propagation] in E.
  destruct (conflict s); [injection E as <-; auto|]. destruct (ulist s) as [|n rest]; [injection E as <-; auto|].
  cbv zeta in E. apply bind_ok in E. destruct E as (ls & _ & E). apply bind_ok in E. destruct E as (r & _ & E).
  assert (G : forall l, (let* s1 := wreduce_theory c (set_ulist (set_uclause s (RCls n)) rest) l in wunit_propagation fuel c (set_units s1 (units s1 + 1))) = Ok s' -> cl s' = cl s).
  { intros l E'. apply bind_ok in E'. destruct E' as (s1 & E1 & E'). apply wreduce_cl in E1. apply IH in E'. cbn in E', E1. congruence. }
  assert (H : (let* r2 := if Nat.ltb 1 (length ls) then sat (tr s) (w1 s n) else Ok SatFalse in
              match r2 with
              | SatUn => let* s1 := wreduce_theory c (set_ulist (set_uclause s (RCls n)) rest) (w1 s n) in wunit_propagation fuel c (set_units s1 (units s1 + 1))
              | _ => wunit_propagation fuel c (set_ulist (set_uclause s (RCls n)) rest)
              end) = Ok s' -> cl s' = cl s).
  { intro E'. apply bind_ok in E'. destruct E' as (r2 & _ & E'). destruct r2; try (apply G in E'; exact E'); apply IH in E'; exact E'. }
  destruct r; [apply H in E; exact E|apply H in E; exact E|apply G in E; exact E] || (destruct r; first [apply G in E; exact E|apply H in E; exact E]).
Qed.

(** ** Learning *)

Lemma learn_clause_cl c s ls a b s' : learn_clause c s ls a b = Ok s' -> cl s' = cl s ++ [ls].
Proof.
  unfold learn_clause. cbv zeta. intro E. apply bind_ok in E. destruct E as (s1 & E1 & E).
  apply bind_ok in E. destruct E as (s2 & E2 & E). destruct (lenient c); [|discriminate]. injection E as <-.
  assert (D : forall x, cl (decay c x) = cl x).
  { intro x. unfold decay. destruct (heur c); auto;
      match goal with |- cl (fold_left ?f ?l x) = _ => generalize l; intro l0; revert x; induction l0 as [|y l0 IH]; intro x; auto; simpl; rewrite IH; reflexivity end. }
  rewrite D.
  assert (H2 : cl s2 = cl s1).
  { apply (foldM_inv_ok (learn_atom c (length (cl s))) (fun x => cl x = cl s1) ls s1); auto.
    intros x u w _ Q E. apply do_ok in E. injection E as <-.
    destruct (watch c), (heur c), (leq x); rewrite <- Q; try reflexivity; rewrite bump_others_cl; reflexivity. }
  rewrite H2. destruct (watch c); [|injection E1 as <-; reflexivity].
  apply bind_ok in E1. destruct E1 as (s3 & E3 & E1). apply add_record_cl in E3. destruct (Nat.ltb 1 (length ls)).
  - apply add_record_cl in E1. rewrite E1, E3. reflexivity.
  - injection E1 as <-. rewrite E3. reflexivity.
Qed.
Lemma learn_grows c s ls a b s' : learn_clause c s ls a b = Ok s' -> grows s s'.
Proof. intro E. exists [ls]. eapply learn_clause_cl; eauto. Qed.

Lemma analyze_grows c : forall fuel s ls a b t s' x, analyze fuel c s ls a b t = Ok (s', x) -> grows s s'.
Proof.
  induction fuel as [|fuel IH]; intros s ls a b t s' x E; [discriminate|]. cbn [analyze] in E.
  apply bind_ok in E. destruct E as (p & _ & E). destruct p.
  - destruct t; [|discriminate]. apply bind_ok in E. destruct E as (s1 & E1 & E). injection E as <- _.
    eapply learn_grows; eauto.
  - apply bind_ok in E. destruct E as (l & _ & E). apply bind_ok in E. destruct E as (q & _ & E).
    cbv zeta in E. apply bind_ok in E. destruct E as (w & _ & E). eapply IH; eauto.
Qed.

Lemma still_cl s s' : still s s' -> cl s' = cl s.
Proof. apply outer_cl. Qed.

Lemma nc_conflict_grows fuel c r rc s s' rc' : nc_conflict fuel c r rc s = Ok (s', rc') -> grows s s'.
Proof.
  unfold nc_conflict. intro E. apply bind_ok in E. destruct E as (ls & _ & E).
  apply bind_ok in E. destruct E as ((s1, x) & E1 & E). apply analyze_grows in E1. destruct E1 as (ex & E1). exists ex. rewrite <- E1.
  apply bind_ok in E. destruct E as (lv & _ & E). cbv zeta in E. destruct (backtracks _ =? rc).
  - apply bind_ok in E. destruct E as (s2 & E2 & E). apply still_undo, still_cl in E2. injection E as <- _.
    destruct (level s2 =? 0); exact E2.
  - apply bind_ok in E. destruct E as (s2 & E2 & E). apply still_undo, still_cl in E2. injection E as <- _. exact E2.
Qed.

Lemma wl_conflict_grows fuel c r rc s s' rc' : wl_conflict fuel c r rc s = Ok (s', rc') -> grows s s'.
Proof.
  unfold wl_conflict. intro E. apply bind_ok in E. destruct E as (ls & _ & E).
  apply bind_ok in E. destruct E as ((s1, x) & E1 & E). apply analyze_grows in E1. destruct E1 as (ex & E1). exists ex. rewrite <- E1.
  apply bind_ok in E. destruct E as (lv & _ & E). cbv zeta in E. destruct (backtracks _ =? rc).
  - apply bind_ok in E. destruct E as (s2 & E2 & E). apply still_wundo, still_cl in E2. injection E as <- _.
    destruct (level s2 =? 0); exact E2.
  - apply bind_ok in E. destruct E as (s2 & E2 & E). apply still_wundo, still_cl in E2. injection E as <- _. exact E2.
Qed.

(** ** The searches *)

Lemma choose_nc_cl c s s' l : choose_nc c s = Ok (s', l) -> cl s' = cl s.
Proof.
  unfold choose_nc. destruct (heur c); try (intro E; injection E as <- _; reflexivity).
  intro E. apply bind_ok in E. destruct E as (l0 & _ & E). injection E as <- _. reflexivity.
Qed.
Lemma choose_ch_cl c s s' l : choose_ch c s = Ok (s', l) -> cl s' = cl s.
Proof.
  unfold choose_ch. destruct (heur c); try (intro E; injection E as <- _; reflexivity).
  intro E. apply bind_ok in E. destruct E as (l0 & _ & E). injection E as <- _. reflexivity.
Qed.
Lemma choose_wl_cl c s s' l : choose_wl c s = Ok (s', l) -> cl s' = cl s.
Proof.
  unfold choose_wl. destruct (heur c); try (intro E; injection E as <- _; reflexivity).
  intro E. apply bind_ok in E. destruct E as (l0 & _ & E). injection E as <- _. reflexivity.
Qed.

Lemma nc_loop_grows c clk r : forall fuel rc s v s', nc_loop fuel c clk r rc s = Ok (v, s') -> grows s s'.
Proof.
  induction fuel as [|fuel IH]; intros rc s v s' E; [discriminate|]. cbn [nc_loop check_time] in E.
  destruct (clk (tick s)); [injection E as _ <-; apply grows_same; reflexivity|].
  set (t := set_tick s (S (tick s))) in *. destruct (conflict t && (level t =? 0)); [injection E as _ <-; apply grows_same; reflexivity|].
  apply bind_ok in E. destruct E as ((s1, rc1) & E1 & E).
  assert (G1 : grows s s1). { apply (grows_trans _ t); [apply grows_same; reflexivity|]. destruct (conflict t); [eapply nc_conflict_grows; eauto|injection E1 as <- _; apply grows_same; auto]. }
  apply bind_ok in E. destruct E as (s2 & E2 & E).
  assert (G2 : grows s s2). { apply (grows_trans _ s1); auto. apply grows_same. destruct (ulist s1); [injection E2 as <-; auto|eapply up_cl; eauto]. }
  destruct (conflict s2); [apply IH in E; eapply grows_trans; eauto|].
  apply bind_ok in E. destruct E as ((s3, l) & E3 & E). apply choose_nc_cl, grows_same in E3. pose proof (grows_trans _ _ _ G2 E3) as G3.
  destruct (lvar l =? -1); [injection E as _ <-; exact G3|].
  apply bind_ok in E. destruct E as (s4 & E4 & E). unfold nc_decide in E4. cbv zeta in E4. apply reduce_cl in E4. cbn in E4.
  apply IH in E. apply (grows_trans _ s3); auto. apply (grows_trans _ s4); auto. apply grows_same; auto.
Qed.

Lemma wl_loop_grows c clk r : forall fuel rc s v s', wl_loop fuel c clk r rc s = Ok (v, s') -> grows s s'.
Proof.
  induction fuel as [|fuel IH]; intros rc s v s' E; [discriminate|]. cbn [wl_loop check_time] in E.
  destruct (clk (tick s)); [injection E as _ <-; apply grows_same; reflexivity|].
  set (t := set_tick s (S (tick s))) in *. destruct (conflict t && (level t =? 0)); [injection E as _ <-; apply grows_same; reflexivity|].
  apply bind_ok in E. destruct E as ((s1, rc1) & E1 & E).
  assert (G1 : grows s s1). { apply (grows_trans _ t); [apply grows_same; reflexivity|]. destruct (conflict t); [eapply wl_conflict_grows; eauto|injection E1 as <- _; apply grows_same; auto]. }
  apply bind_ok in E. destruct E as (s2 & E2 & E).
  assert (G2 : grows s s2). { apply (grows_trans _ s1); auto. apply grows_same. destruct (ulist s1); [injection E2 as <-; auto|eapply wup_cl; eauto]. }
  destruct (conflict s2); [apply IH in E; eapply grows_trans; eauto|].
  apply bind_ok in E. destruct E as ((s3, l) & E3 & E). apply choose_wl_cl, grows_same in E3. pose proof (grows_trans _ _ _ G2 E3) as G3.
  destruct (lvar l =? -1); [injection E as _ <-; exact G3|].
  apply bind_ok in E. destruct E as (s4 & E4 & E). unfold wl_decide in E4. cbv zeta in E4. apply wreduce_cl in E4. cbn in E4.
  apply IH in E. apply (grows_trans _ s3); auto. apply (grows_trans _ s4); auto. apply grows_same; auto.
Qed.

Lemma chrono_grows c clk : forall fuel s lev v s', chrono fuel c clk s lev = Ok (v, s') -> grows s s'.
Proof.
  induction fuel as [|fuel IH]; intros s lev v s' E; [discriminate|]. cbn [chrono] in E. unfold check_time in E.
  destruct (clk (tick (set_level s lev))); [injection E as _ <-; apply grows_same; reflexivity|].
  apply bind_ok in E. destruct E as (s1 & E1 & E).
  assert (G1 : cl s1 = cl s).
  { destruct (ulist _) in E1; [injection E1 as <-; reflexivity|]. apply up_cl in E1. exact E1. }
  destruct (clk (tick s1)); [injection E as _ <-; apply grows_same; exact G1|].
  set (t := set_tick s1 (S (tick s1))) in *. destruct (conflict t).
  { cbv zeta in E. apply bind_ok in E. destruct E as (s2 & E2 & E). apply still_undo, still_cl in E2. injection E as _ <-. apply grows_same. cbn in *. congruence. }
  apply bind_ok in E. destruct E as ((s2, l) & E2 & E). apply choose_ch_cl in E2. assert (G2 : cl s2 = cl s) by (cbn in E2; congruence).
  destruct (lvar l =? -1); [injection E as _ <-; apply grows_same; exact G2|]. cbv zeta in E.
  apply bind_ok in E. destruct E as (s3 & E3 & E). apply reduce_cl in E3. cbn in E3.
  apply bind_ok in E. destruct E as ((w, s4) & E4 & E). apply IH in E4. assert (G4 : grows s s4) by (apply (grows_trans _ s3); auto; apply grows_same; congruence).
  destruct w; try (injection E as _ <-; exact G4). destruct (0 <=? level s4); [|injection E as _ <-; exact G4].
  apply bind_ok in E. destruct E as (s5 & E5 & E). apply reduce_cl in E5. apply IH in E. apply (grows_trans _ s4); auto.
  apply (grows_trans _ s5); auto. apply grows_same; auto.
Qed.

Theorem search_grows fuel m c clk r s v s' : run_search fuel m c clk r s = Ok (v, s') -> grows s s'.
Proof.
  destruct m; cbn [run_search]; [apply chrono_grows|]. destruct (watch c); [apply wl_loop_grows|apply nc_loop_grows].
Qed.

(** ** The self-check *)

Lemma verify_clause_true t : forall ls, verify_clause t ls = Ok true -> exists l, In l ls /\ lit_true t l = true.
Proof.
  induction ls as [|l ls IH]; intro E; [discriminate|]. cbn in E. apply do_ok in E. destruct (lit_true t l) eqn:T; [exists l; split; [left|]; auto|].
  destruct (IH E) as (x & Hx & Tx). exists x. split; [right|]; auto.
Qed.
Lemma verify_clauses_true t : forall cs, verify_clauses t cs = Ok true -> forall C, In C cs -> exists l, In l C /\ lit_true t l = true.
Proof.
  induction cs as [|c cs IH]; intros E C []; cbn in E; apply bind_ok in E; destruct E as ([] & E1 & E); try discriminate.
  - subst c. apply verify_clause_true; auto.
  - apply IH; auto.
Qed.

Theorem solve_checked fuel m c clk r s rep s' : solve_state fuel m c clk r s = Ok (rep, s') -> r_verdict rep = SAT ->
  exists b, r_verified rep = Some b /\ (b = true -> forall C, In C (cl s) -> exists l, In l C /\ lit_true (tr s') l = true).
Proof.
  unfold solve_state. intros E V. apply bind_ok in E. destruct E as ((v, s1) & E1 & E). destruct v.
  - apply bind_ok in E. destruct E as (b & E2 & E). injection E as <- <-. exists b. split; auto. intros -> C HC.
    apply search_grows in E1. destruct E1 as (ex & E1). apply (verify_clauses_true _ _ E2). rewrite E1. apply in_or_app; auto.
  - injection E as <- _. discriminate.
  - injection E as <- _. discriminate.
Qed.

Lemma build_cls c : forall is s s', foldM (add_item c) is s = Ok s' -> forall C, In (ICls C) is -> In C (cl s').
Proof.
  assert (G : forall is s s', foldM (add_item c) is s = Ok s' -> grows s s').
  { induction is as [|i is IH]; intros s s' E; cbn [foldM] in E; [injection E as <-; apply grows_same; auto|].
    apply bind_ok in E. destruct E as (s1 & E1 & E). apply IH in E. apply (grows_trans _ s1); auto. destruct i as [d|ls]; cbn [add_item] in E1.
    - unfold add_domain in E1. destruct (d <? 0); [discriminate|]. injection E1 as <-. apply grows_same. reflexivity.
    - apply add_clause_cl in E1. exists [ls]. auto. }
  induction is as [|i is IH]; intros s s' E C H; [destruct H|]. cbn [foldM] in E. apply bind_ok in E. destruct E as (s1 & E1 & E).
  destruct H as [->|H]; [|eapply IH; eauto]. cbn [add_item] in E1. apply add_clause_cl in E1. apply G in E. destruct E as (ex & E).
  rewrite E, E1. apply in_or_app. left. apply in_or_app. right. left. auto.
Qed.

Theorem file_checked fuel m c clk r t rep s : solve_file fuel m c clk r t = Ok (rep, s) -> r_verdict rep = SAT ->
  exists is b, read_file t = Ok is /\ r_verified rep = Some b /\
    (b = true -> forall C, In (ICls C) is -> exists l, In l C /\ lit_true (tr s) l = true).
Proof.
  unfold solve_file, build_file. intros E V. apply bind_ok in E. destruct E as (s0 & E0 & E). apply bind_ok in E0. destruct E0 as (is & E1 & E0).
  destruct (solve_checked _ _ _ _ _ _ _ _ E V) as (b & Eb & H). exists is, b. split; auto. split; auto. intros T C HC. apply H; auto.
  apply (build_cls c _ _ _ E0); auto.
Qed.

Theorem any_file_checked fuel m c clk r t rep s : solve_file fuel m c clk r t = Ok (rep, s) -> r_verdict rep = SAT ->
  exists s0 b, build_file c t = Ok s0 /\ r_verified rep = Some b /\
    (b = true -> forall C, In C (cl s0) -> exists l, In l C /\ ASG (tr s) (lvar l) (lval l) = if leq l then Pos else Neg).
Proof.
  unfold solve_file. intros E V. apply bind_ok in E. destruct E as (s0 & E0 & E).
  destruct (solve_checked _ _ _ _ _ _ _ _ E V) as (b & Eb & H). exists s0, b. split; auto. split; auto. intros T C HC.
  destruct (H T C HC) as (l & Hl & L). exists l. split; auto. unfold lit_true in L. destruct (ASG (tr s) (lvar l) (lval l)), (leq l); auto; discriminate.
Qed.

(** ** Blank lines *)

Lemma words_none : forall t w, words_from w t = [] -> w = [] /\ forall a, In a t -> blank a = true.
Proof.
  induction t as [|a t IH]; intros w E; cbn [words_from] in E; [destruct w; [split; [auto|intros a []]|discriminate]|].
  destruct (blank a) eqn:B.
  - destruct w as [|b w]; [|discriminate]. split; auto. intros x [<-|Hx]; auto. apply (IH [] E); auto.
  - destruct (IH _ E) as (Ew & _). destruct w; discriminate.
Qed.

Lemma blank_not_nul a : blank a = true -> Ascii.eqb a NUL = false.
Proof. unfold blank. intro B. apply orb_prop in B. destruct B as [B|B]; apply Ascii.eqb_eq in B; subst a; reflexivity. Qed.

Lemma blank_line_reads l : words l = [] -> reads l (ICls []).
Proof.
  intros W g. exists g. destruct (words_none l [] W) as (_ & B).
  assert (C : cstr l = l).
  { clear W. induction l as [|a l IH]; auto. cbn [cstr]. rewrite (blank_not_nul a) by (apply B; left; auto). f_equal. apply IH. intros; apply B; right; auto. }
  unfold read_line. rewrite C, line_words_eq, W. cbv zeta. destruct l as [|a l]; [reflexivity|].
  assert (Ba : blank a = true) by (apply B; left; auto). unfold blank in Ba. apply orb_prop in Ba.
  destruct Ba as [Ba|Ba]; apply Ascii.eqb_eq in Ba; subst a; reflexivity.
Qed.

Lemma read_lines_some i : forall ls l, In l ls -> reads l i -> forall g is, read_lines g ls = Ok is -> In i is.
Proof.
  induction ls as [|x ls IH]; intros l H R g is E; [destruct H|]. cbn [read_lines] in E. apply bind_ok in E. destruct E as ((g1, j) & E1 & E).
  apply bind_ok in E. destruct E as (is' & E2 & E). injection E as <-. destruct H as [->|H].
  - destruct (R g) as (g' & E'). rewrite E1 in E'. injection E' as _ ->. left; auto.
  - pose proof (IH l H R _ _ E2). destruct j; [right|]; auto.
Qed.

Theorem blank_unverified fuel m c clk r t ls l rep s : has_lines t ls -> lines_below 3000 t -> In l ls -> words l = [] ->
  solve_file fuel m c clk r t = Ok (rep, s) -> r_verdict rep = SAT -> r_verified rep = Some false.
Proof.
  intros HL LB Hl W E V. destruct (file_checked _ _ _ _ _ _ _ _ E V) as (is & b & E1 & E2 & H). rewrite E2. f_equal. destruct b; auto. exfalso.
  unfold read_file in E1. rewrite (getlines_has t ls HL (LB ls HL)) in E1.
  pose proof (read_lines_some (ICls []) ls l Hl (blank_line_reads l W) _ _ E1) as HI. destruct (H eq_refl [] HI) as (x & [] & _).
Qed.

Theorem blank_watched fuel m c clk r t ls l : has_lines t ls -> lines_below 3000 t -> In l ls -> words l = [] -> watch c = true ->
  forall x, solve_file fuel m c clk r t <> Ok x.
Proof.
  intros HL LB Hl W Wc x E. unfold solve_file, build_file, read_file in E. rewrite (getlines_has t ls HL (LB ls HL)) in E.
  apply bind_ok in E. destruct E as (s & E & _). apply bind_ok in E. destruct E as (is & E1 & E).
  pose proof (read_lines_some (ICls []) ls l Hl (blank_line_reads l W) _ _ E1) as HI. clear - E HI Wc. unfold build in E. revert E. generalize init_state.
  induction is as [|i is IH]; intros s0 E; [destruct HI|]. cbn [foldM] in E. apply bind_ok in E. destruct E as (s1 & E1 & E).
  destruct HI as [->|HI]; [|eapply IH; eauto]. cbn [add_item] in E1. unfold add_clause in E1. cbn [foldM bind] in E1. rewrite Wc in E1. discriminate.
Qed.

(** A blank line after a file that is read. *)
Lemma read_lines_snoc i l : reads l i -> forall ls g is, read_lines g ls = Ok is -> read_lines g (ls ++ [l]) = Ok (is ++ [i]).
Proof.
  intro R. induction ls as [|x ls IH]; intros g is E.
  - injection E as <-. cbn. destruct (R g) as (g' & ->). reflexivity.
  - cbn [read_lines app] in *. apply bind_ok in E. destruct E as ((g1, j) & E1 & E). rewrite E1. cbn [bind].
    apply bind_ok in E. destruct E as (is' & E2 & E). rewrite (IH _ _ E2). cbn [bind]. injection E as <-. destruct j; reflexivity.
Qed.

Theorem blank_end_watched c p ls : wf p -> fits_int p -> (forall l, In l ls -> ~ In LF l) -> lines_below 3000 (unlines ls) -> accepted p (unlines ls) ->
  watch c = true -> build_file c (unlines ls ++ [LF]) = Undef OobClause.
Proof.
  intros W F NL LB A Wc. assert (HL : has_lines (unlines ls) ls) by (split; auto). assert (S : forall l, In l ls -> short l) by (apply (LB ls HL)).
  unfold build_file, read_file. rewrite getlines_unlines_app by auto. change (getlines [] [LF]) with ([[]] : list text).
  pose proof (read_accepted p _ W F A LB) as E. unfold read_file in E. rewrite (getlines_has _ ls HL S) in E.
  pose proof (read_lines_snoc (ICls []) [] (blank_line_reads [] eq_refl) _ _ _ E) as E2.
  match goal with |- bind ?x _ = _ => replace x with (Ok (items_of p ++ [ICls []])) by (symmetry; exact E2) end. cbn [bind].
  unfold build. rewrite foldM_app. destruct (build_ok c p W) as (t0 & s & Eb & _). unfold build in Eb. rewrite Eb. cbn [bind foldM add_item].
  unfold add_clause. cbn [foldM bind]. rewrite Wc. reflexivity.
Qed.
