(** * The missing return of learnClause

    Compares a run of the two readings of learnClause: [mkCfg h w true] continues after it,
    [mkCfg h w false] has undefined behaviour at its end. *)

From Verif Require Import Spec Outcome State ModelCounter ModelHeur ModelLearn ModelWatch
  ModelSearch ModelBuild ModelText ModelRead Base Trail Reduce Frame StatRuns.

Lemma bind_same {A B} (o o' : outcome A) (f g : A -> outcome B) :
  o = o' -> (forall x, f x = g x) -> bind o f = bind o' g.
Proof. intros -> H. destruct o'; simpl; auto. Qed.

Section Readings.
Variables (h : heuristic) (w : bool).
Let c1 := mkCfg h w true.
Let c0 := mkCfg h w false.

Lemma up_same : forall fuel s, unit_propagation fuel c0 s = unit_propagation fuel c1 s.
Proof.
  induction fuel as [|fuel IH]; intro s; [reflexivity|]. cbn [unit_propagation].
  destruct (conflict s); auto. destruct (ulist s) as [|n rest]; auto. apply bind_same; [reflexivity|]. intro ls.
  cbv zeta. destruct (_ =? -1); [|apply IH]. apply bind_same; [reflexivity|]. intros [l|]; [|apply IH].
  apply bind_same; [reflexivity|]. intro s1. apply IH.
Qed.

Lemma wup_same : forall fuel s, wunit_propagation fuel c0 s = wunit_propagation fuel c1 s.
Proof.
  induction fuel as [|fuel IH]; intro s; [reflexivity|]. cbn [wunit_propagation].
  destruct (conflict s); auto. destruct (ulist s) as [|n rest]; auto. apply bind_same; [reflexivity|]. intro ls.
  apply bind_same; [reflexivity|]. intros [ | | ];
    try (apply bind_same; [reflexivity|]; intro s1; apply IH);
    (apply bind_same; [reflexivity|]; intros [ | | ]; try apply IH; apply bind_same; [reflexivity|]; intro s1; apply IH).
Qed.

Lemma chrono_same clk : forall fuel s lev, chrono fuel c0 clk s lev = chrono fuel c1 clk s lev.
Proof.
  induction fuel as [|fuel IH]; intros s lev; [reflexivity|]. cbn [chrono]. destruct (check_time _ _) as (late, s0).
  destruct late; auto. apply bind_same; [destruct (ulist s0); auto; apply up_same|]. intro s1.
  destruct (check_time _ _) as (late, s2). destruct late; auto. destruct (conflict s2); [reflexivity|].
  apply bind_same; [reflexivity|]. intros (s3, l). destruct (lvar l =? -1); auto.
  apply bind_same; [reflexivity|]. intro s4. apply bind_same; [apply IH|]. intros (v, s5). destruct v; auto.
  destruct (0 <=? level s5); auto. apply bind_same; [reflexivity|]. intro s6. apply IH.
Qed.

Lemma learn_strict s ls a b s' : learn_clause c1 s ls a b = Ok s' -> learn_clause c0 s ls a b = Undef NoReturn.
Proof.
  unfold learn_clause. cbv zeta. intro E. apply bind_ok in E. destruct E as (s1 & E1 & E).
  apply bind_ok in E. destruct E as (s2 & E2 & E).
  change (watch c0) with (watch c1). rewrite E1. cbn [bind].
  change (learn_atom c0) with (learn_atom c1). rewrite E2. reflexivity.
Qed.

Lemma analyze_strict : forall fuel s ls a b t x, analyze fuel c1 s ls a b t = Ok x ->
  analyze fuel c0 s ls a b t = Undef NoReturn.
Proof.
  induction fuel as [|fuel IH]; intros s ls a b t x E; [discriminate|]. cbn [analyze] in *.
  change (potent c0) with (potent c1). change (watch c0) with (watch c1).
  apply bind_ok in E. destruct E as (p & -> & E). cbn [bind]. destruct p.
  - destruct t; [|discriminate]. apply bind_ok in E. destruct E as (s1 & E1 & E). rewrite (learn_strict _ _ _ _ _ E1). reflexivity.
  - apply bind_ok in E. destruct E as (l & -> & E). cbn [bind]. apply bind_ok in E. destruct E as (q & -> & E). cbn [bind].
    cbv zeta in *. apply bind_ok in E. destruct E as (y & -> & E). cbn [bind]. eapply IH; eauto.
Qed.

Lemma nc_conflict_strict fuel r rc s x : nc_conflict fuel c1 r rc s = Ok x -> nc_conflict fuel c0 r rc s = Undef NoReturn.
Proof.
  unfold nc_conflict. intro E. apply bind_ok in E. destruct E as (ls & -> & E). cbn [bind].
  apply bind_ok in E. destruct E as (y & E1 & E). rewrite (analyze_strict _ _ _ _ _ _ _ E1). reflexivity.
Qed.
Lemma wl_conflict_strict fuel r rc s x : wl_conflict fuel c1 r rc s = Ok x -> wl_conflict fuel c0 r rc s = Undef NoReturn.
Proof.
  unfold wl_conflict. intro E. apply bind_ok in E. destruct E as (ls & -> & E). cbn [bind].
  apply bind_ok in E. destruct E as (y & E1 & E). rewrite (analyze_strict _ _ _ _ _ _ _ E1). reflexivity.
Qed.
End Readings.

(** ** BACKTRACKS changes with a conflict only *)

Section Back.
Variable assign : state -> Z -> Z -> aval -> outcome state.
Hypothesis assign_marked : forall s v d a s', assign s v d a = Ok s' -> marked s v d a s'.

Lemma marked_back s v d a s' : marked s v d a s' -> backtracks s' = backtracks s.
Proof. intros (_ & O). unfold outer in O. congruence. Qed.

Lemma gexs_back v is s s' : foldM (gexclude assign v) is s = Ok s' -> backtracks s' = backtracks s.
Proof.
  apply (foldM_inv_ok _ (fun x => backtracks x = backtracks s)); auto. intros x a b _ Q E. rewrite <- Q. clear Q.
  unfold gexclude in E. destruct (conflict a); [injection E as <-; auto|].
  destruct (ASG (tr a) v x); try (injection E as <-; auto; fail). apply assign_marked in E. eapply marked_back; eauto.
Qed.

Lemma gpos_back s v d s' : gpos assign s v d = Ok s' -> backtracks s' = backtracks s.
Proof.
  unfold gpos. intros E. apply do_ok in E. cbv zeta in E.
  apply bind_ok in E. destruct E as (s1 & E1 & E). apply bind_ok in E. destruct E as (s2 & E2 & E).
  apply assign_marked in E1. apply marked_back in E1. apply gexs_back in E2. apply gexs_back in E. cbn in *. congruence.
Qed.

Lemma greduce_back s l s' : greduce assign s l = Ok s' -> backtracks s' = backtracks s.
Proof.
  unfold greduce. destruct (leq l); [apply gpos_back|]. unfold gneg. intro E. apply do_ok in E. cbv zeta in E.
  apply bind_ok in E. destruct E as (s1 & E1 & E). apply assign_marked in E1. apply marked_back in E1.
  destruct (check_entail (tr s1) (lvar l)); [apply gpos_back in E|injection E as <-]; cbn in *; congruence.
Qed.
End Back.

Lemma reduce_back c s l s' : reduce_theory c s l = Ok s' -> backtracks s' = backtracks s.
Proof. apply (greduce_back (assign_atom c) (assign_marked c)). Qed.
Lemma wreduce_back c s l s' : wreduce_theory c s l = Ok s' -> backtracks s' = backtracks s.
Proof. apply (greduce_back (wassign_atom c) (wassign_marked c)). Qed.

Lemma up_back c fuel s s' : unit_propagation fuel c s = Ok s' -> backtracks s' = backtracks s.
Proof. intro E. apply up_mild in E. apply E. Qed.

Lemma wup_back c : forall fuel s s', wunit_propagation fuel c s = Ok s' -> backtracks s' = backtracks s.
Proof.
  induction fuel as [|fuel IH]; intros s s' E; [discriminate|]. cbn [wunit_propagation] in E.
  destruct (conflict s); [injection E as <-; auto|]. destruct (ulist s) as [|n rest]; [injection E as <-; auto|].
  apply bind_ok in E. destruct E as (ls & _ & E). apply bind_ok in E. destruct E as (r & _ & E).
  assert (K : forall r2, match r2 with
      | SatUn => let* s0 := wreduce_theory c (set_ulist (set_uclause s (RCls n)) rest) (w1 (set_ulist (set_uclause s (RCls n)) rest) n) in
                 wunit_propagation fuel c (set_units s0 (units s0 + 1))
      | _ => wunit_propagation fuel c (set_ulist (set_uclause s (RCls n)) rest) end = Ok s' -> backtracks s' = backtracks s).
  { clear - IH. intros r2 E. destruct r2; try (apply IH in E; exact E). apply bind_ok in E. destruct E as (s1 & E1 & E).
    apply wreduce_back in E1. apply IH in E. cbn in *. congruence. }
  destruct r.
  - apply bind_ok in E. destruct E as (r2 & _ & E). exact (K r2 E).
  - apply bind_ok in E. destruct E as (s1 & E1 & E). apply wreduce_back in E1. apply IH in E. cbn in *. congruence.
  - apply bind_ok in E. destruct E as (r2 & _ & E). exact (K r2 E).
Qed.

Lemma choose_nc_back c s s' l : choose_nc c s = Ok (s', l) -> backtracks s' = backtracks s.
Proof.
  unfold choose_nc. destruct (heur c); intro E; try (injection E as <- _; reflexivity).
  apply bind_ok in E. destruct E as (x & _ & E). injection E as <- _. reflexivity.
Qed.
Lemma choose_wl_back c s s' l : choose_wl c s = Ok (s', l) -> backtracks s' = backtracks s.
Proof.
  unfold choose_wl. destruct (heur c); intro E; try (injection E as <- _; reflexivity).
  apply bind_ok in E. destruct E as (x & _ & E). injection E as <- _. reflexivity.
Qed.

(** ** The searches *)

Definition read_strictly (s s' : state) {A} (x : A) : outcome A :=
  if backtracks s' =? backtracks s then Ok x else Undef NoReturn.

Lemma nc_loop_strict h w clk r : forall fuel rc s v s', nc_loop fuel (mkCfg h w true) clk r rc s = Ok (v, s') ->
  backtracks s <= backtracks s' /\ nc_loop fuel (mkCfg h w false) clk r rc s = read_strictly s s' (v, s').
Proof.
  unfold read_strictly. induction fuel as [|fuel IH]; intros rc s v s' E; [discriminate|]. cbn [nc_loop] in *.
  unfold check_time in *. cbv zeta in *. set (s0 := set_tick s (S (tick s))) in *.
  assert (B0 : backtracks s0 = backtracks s) by reflexivity.
  destruct (clk (tick s)).
  { injection E as <- <-. rewrite B0, Z.eqb_refl. split; [lia|auto]. }
  destruct (conflict s0 && (level s0 =? 0)).
  { injection E as <- <-. rewrite B0, Z.eqb_refl. split; [lia|auto]. }
  rewrite <- B0. clearbody s0. clear B0 s. rename s0 into s. destruct (conflict s) eqn:C.
  - apply bind_ok in E. destruct E as ((s1, rc1) & E1 & E). rewrite (nc_conflict_strict h w _ _ _ _ _ E1). cbn [bind].
    apply nc_conflict_stats in E1. destruct E1 as (B1 & _).
    apply bind_ok in E. destruct E as (s2 & E2 & E).
    assert (B2 : backtracks s2 = backtracks s1) by (destruct (ulist s1); [injection E2 as <-; auto|eapply up_back; eauto]).
    assert (L : backtracks s2 <= backtracks s'); [|split; [lia|]; destruct (Z.eqb_spec (backtracks s') (backtracks s)); auto; lia].
    destruct (conflict s2); [apply IH in E; apply E|].
    apply bind_ok in E. destruct E as ((s3, l) & E3 & E). apply choose_nc_back in E3.
    destruct (lvar l =? -1); [injection E as <- <-; lia|].
    apply bind_ok in E. destruct E as (s4 & E4 & E). unfold nc_decide in E4. cbv zeta in E4. apply reduce_back in E4. cbn in E4.
    apply IH in E. lia.
  - apply bind_ok in E. destruct E as ((s1, rc1) & E1 & E). injection E1 as <- <-. cbn [bind].
    apply bind_ok in E. destruct E as (s2 & E2 & E).
    assert (B2 : backtracks s2 = backtracks s) by (destruct (ulist s); [injection E2 as <-; auto|eapply up_back; eauto]).
    assert (E2' : match ulist s with [] => Ok s | _ => unit_propagation (S fuel) (mkCfg h w false) s end = Ok s2).
    { rewrite <- E2. destruct (ulist s); auto. apply up_same. }
    rewrite E2'. cbn [bind]. rewrite <- B2.
    destruct (conflict s2); [apply IH in E; apply E|].
    change (choose_nc (mkCfg h w false) s2) with (choose_nc (mkCfg h w true) s2).
    apply bind_ok in E. destruct E as ((s3, l) & E3 & E). rewrite E3. cbn [bind]. apply choose_nc_back in E3.
    destruct (lvar l =? -1); [injection E as <- <-; rewrite E3, Z.eqb_refl; split; [lia|auto]|].
    change (nc_decide (mkCfg h w false) s3 l) with (nc_decide (mkCfg h w true) s3 l).
    apply bind_ok in E. destruct E as (s4 & E4 & E). rewrite E4. cbn [bind]. unfold nc_decide in E4. cbv zeta in E4. apply reduce_back in E4. cbn in E4.
    apply IH in E. replace (backtracks s2) with (backtracks s4) by lia. exact E.
Qed.

Lemma wl_loop_strict h w clk r : forall fuel rc s v s', wl_loop fuel (mkCfg h w true) clk r rc s = Ok (v, s') ->
  backtracks s <= backtracks s' /\ wl_loop fuel (mkCfg h w false) clk r rc s = read_strictly s s' (v, s').
Proof.
  unfold read_strictly. induction fuel as [|fuel IH]; intros rc s v s' E; [discriminate|]. cbn [wl_loop] in *.
  unfold check_time in *. cbv zeta in *. set (s0 := set_tick s (S (tick s))) in *.
  assert (B0 : backtracks s0 = backtracks s) by reflexivity.
  destruct (clk (tick s)).
  { injection E as <- <-. rewrite B0, Z.eqb_refl. split; [lia|auto]. }
  destruct (conflict s0 && (level s0 =? 0)).
  { injection E as <- <-. rewrite B0, Z.eqb_refl. split; [lia|auto]. }
  rewrite <- B0. clearbody s0. clear B0 s. rename s0 into s. destruct (conflict s) eqn:C.
  - apply bind_ok in E. destruct E as ((s1, rc1) & E1 & E). rewrite (wl_conflict_strict h w _ _ _ _ _ E1). cbn [bind].
    apply wl_conflict_stats in E1. destruct E1 as (B1 & _).
    apply bind_ok in E. destruct E as (s2 & E2 & E).
    assert (B2 : backtracks s2 = backtracks s1) by (destruct (ulist s1); [injection E2 as <-; auto|eapply wup_back; eauto]).
    assert (L : backtracks s2 <= backtracks s'); [|split; [lia|]; destruct (Z.eqb_spec (backtracks s') (backtracks s)); auto; lia].
    destruct (conflict s2); [apply IH in E; apply E|].
    apply bind_ok in E. destruct E as ((s3, l) & E3 & E). apply choose_wl_back in E3.
    destruct (lvar l =? -1); [injection E as <- <-; lia|].
    apply bind_ok in E. destruct E as (s4 & E4 & E). unfold wl_decide in E4. cbv zeta in E4. apply wreduce_back in E4. cbn in E4.
    apply IH in E. lia.
  - apply bind_ok in E. destruct E as ((s1, rc1) & E1 & E). injection E1 as <- <-. cbn [bind].
    apply bind_ok in E. destruct E as (s2 & E2 & E).
    assert (B2 : backtracks s2 = backtracks s) by (destruct (ulist s); [injection E2 as <-; auto|eapply wup_back; eauto]).
    assert (E2' : match ulist s with [] => Ok s | _ => wunit_propagation (S fuel) (mkCfg h w false) s end = Ok s2).
    { rewrite <- E2. destruct (ulist s); auto. apply wup_same. }
    rewrite E2'. cbn [bind]. rewrite <- B2.
    destruct (conflict s2); [apply IH in E; apply E|].
    change (choose_wl (mkCfg h w false) s2) with (choose_wl (mkCfg h w true) s2).
    apply bind_ok in E. destruct E as ((s3, l) & E3 & E). rewrite E3. cbn [bind]. apply choose_wl_back in E3.
    destruct (lvar l =? -1); [injection E as <- <-; rewrite E3, Z.eqb_refl; split; [lia|auto]|].
    change (wl_decide (mkCfg h w false) s3 l) with (wl_decide (mkCfg h w true) s3 l).
    apply bind_ok in E. destruct E as (s4 & E4 & E). rewrite E4. cbn [bind]. unfold wl_decide in E4. cbv zeta in E4. apply wreduce_back in E4. cbn in E4.
    apply IH in E. replace (backtracks s2) with (backtracks s4) by lia. exact E.
Qed.

Lemma solve_state_strict h w fuel clk r s rep s' : backtracks s = 0 ->
  solve_state fuel NonChrono (mkCfg h w true) clk r s = Ok (rep, s') ->
  solve_state fuel NonChrono (mkCfg h w false) clk r s =
    if r_backtracks rep =? 0 then Ok (rep, s') else Undef NoReturn.
Proof.
  unfold solve_state. intros B E. apply bind_ok in E. destruct E as ((v, s1) & E1 & E).
  assert (E0 : run_search fuel NonChrono (mkCfg h w false) clk r s = read_strictly s s1 (v, s1)).
  { unfold run_search in *. cbn [watch] in *. destruct w; [eapply wl_loop_strict|eapply nc_loop_strict]; exact E1. }
  assert (R : r_backtracks rep = backtracks s1 /\ s' = s1).
  { destruct v; [apply bind_ok in E; destruct E as (b & _ & E)|..]; injection E as <- <-; auto. }
  destruct R as (R & ->). rewrite E0, R. unfold read_strictly. rewrite B. destruct (backtracks s1 =? 0); [exact E|reflexivity].
Qed.

Lemma solve_state_chrono h w b b' fuel clk r s :
  solve_state fuel Chrono (mkCfg h w b) clk r s = solve_state fuel Chrono (mkCfg h w b') clk r s.
Proof.
  assert (H : solve_state fuel Chrono (mkCfg h w false) clk r s = solve_state fuel Chrono (mkCfg h w true) clk r s).
  { unfold solve_state. apply bind_same; [apply chrono_same|]. reflexivity. }
  destruct b, b'; auto.
Qed.

(** ** Building *)

Definition fresh (s : state) : Prop := backtracks s = 0.

Lemma add_item_fresh c s i s' : fresh s -> add_item c s i = Ok s' -> fresh s'.
Proof.
  unfold fresh. intros F E. destruct i as [d|ls]; cbn [add_item] in E.
  - unfold add_domain in E. destruct (d <? 0); [discriminate|]. injection E as <-. exact F.
  - unfold add_clause in E. cbv zeta in E. apply bind_ok in E. destruct E as (s1 & E1 & E).
    assert (F1 : backtracks s1 = 0).
    { revert E1. apply (foldM_inv_ok _ (fun x => backtracks x = 0)); auto. intros l a b _ Q E1. unfold add_lit in E1.
      apply bind_ok in E1. destruct E1 as (a1 & E1 & E2).
      assert (Q1 : backtracks a1 = 0).
      { destruct (heur c); try (apply do_ok in E1; injection E1 as <-; exact Q); try (injection E1 as <-; exact Q).
        destruct (leq l); [apply do_ok in E1; injection E1 as <-; exact Q|].
        destruct ((0 <=? lvar l) && (lvar l <=? NV (tr a))); [|discriminate].
        injection E1 as <-. pose proof (kept_others a (lvar l) (lval l)) as K. unfold kept in K. congruence. }
      destruct (watch c); [injection E2 as <-; auto|]. apply do_ok in E2. injection E2 as <-. exact Q1. }
    set (n := length (cl s)) in *. clearbody n.
    assert (B : forall u, backtracks u = 0 -> match ls with
        | [] => Undef OobClause
        | a :: ls' => let* s0 := add_record (set_w0 u (updn (w0 u) n a)) a n in
            match ls' with [] => Ok s0 | b :: _ => add_record (set_w1 s0 (updn (w1 s0) n b)) b n end end = Ok s' -> backtracks s' = 0).
    { clear. intros u F E. destruct ls as [|a ls']; [discriminate|]. apply bind_ok in E. destruct E as (s2 & E2 & E).
      apply do_ok in E2. injection E2 as <-. destruct ls' as [|b ls'']; [injection E as <-; exact F|].
      apply do_ok in E. injection E as <-. exact F. }
    destruct (Nat.eqb (length ls) 1); (destruct (watch c); [refine (B _ _ E); exact F1|injection E as <-; exact F1]).
Qed.

Lemma build_fresh c is s : build c is = Ok s -> backtracks s = 0.
Proof.
  unfold build. apply (foldM_inv_ok _ (fun x => backtracks x = 0)); [reflexivity|].
  intros i a b _ Q E. eapply add_item_fresh; eauto.
Qed.

Lemma build_same h w b b' is : build (mkCfg h w b) is = build (mkCfg h w b') is.
Proof. reflexivity. Qed.

Lemma solve_file_strict h w fuel clk r t rep s :
  solve_file fuel NonChrono (mkCfg h w true) clk r t = Ok (rep, s) ->
  solve_file fuel NonChrono (mkCfg h w false) clk r t = if r_backtracks rep =? 0 then Ok (rep, s) else Undef NoReturn.
Proof.
  unfold solve_file, build_file. intro E. apply bind_ok in E. destruct E as (s0 & E0 & E).
  apply bind_ok in E0. destruct E0 as (is & E1 & E0). rewrite E1. cbn [bind].
  rewrite (build_same h w false true). rewrite E0. cbn [bind]. apply solve_state_strict; auto. eapply build_fresh; eauto.
Qed.

Lemma solve_file_chrono h w b b' fuel clk r t :
  solve_file fuel Chrono (mkCfg h w b) clk r t = solve_file fuel Chrono (mkCfg h w b') clk r t.
Proof.
  unfold solve_file, build_file. destruct (read_file t); cbn [bind]; auto. rewrite (build_same h w b b').
  destruct (build (mkCfg h w b') a); cbn [bind]; auto. apply solve_state_chrono.
Qed.
