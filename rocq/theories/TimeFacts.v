(** * Whole runs: the time limit *)

From Coq Require Import Ascii String Permutation.
From Verif Require Import Spec WideSpec Outcome State ModelSearch ModelBuild Solve Runs Observe Base TextSpec ModelText ModelRead Text Read
  CliSpec ModelCli Cli ReadBuild ModelEncode ModelB2f ModelGen ModelMenu ModelMain MainSpec MainFacts Frame PropStats RangeSpec Range RangeFacts
  ModelBit BitSpec BitMainSpec ModelBitMain BitMainFacts BitTick BitEnds BitEndsMain
  ModelOrig OrigSpec OrigInit OrigMainSpec ModelOrigMain OrigMainFacts.
#[local] Open Scope Z_scope.

Lemma in_time w limit k : late_at w limit k = false <-> elapsed w k <= limit.
Proof. unfold late_at. apply Z.ltb_ge. Qed.
Lemma out_of_time w limit k : late_at w limit k = true <-> limit < elapsed w k.
Proof. unfold late_at. apply Z.ltb_lt. Qed.

Lemma word_timeout v : word v = txt "TIMEOUT" <-> v = TIMEOUT.
Proof. destruct v; split; try discriminate; auto. Qed.

(** ** The program of src *)

Theorem solver_clock args c m w f t p :
  dispatch args = Ok (SolveFinite c m) -> c_file c = Some f -> files_of w f = Some t -> 0 <= c_clause_size c ->
  missing_return w = true ->
  wf p -> (m = NonChrono -> no_repeats p) -> fits_int p -> accepted p t -> lines_below 3000 t ->
  exists N v rest d u b e n r k,
    (forall j, (j < k)%nat -> elapsed w j <= c_time c) /\ (v = txt "TIMEOUT" <-> c_time c < elapsed w k) /\
    d <= Z.of_nat k <= 2 * (d + b) + 1 /\
    forall fuel, (N <= fuel)%nat ->
      main fuel args w =
      Ok (mkRan (solver_screen f (time1 w) (time2 w) (time3 w) ((if c_log c then logged w else []) ++ early c m v)
                   (answer_lines v d u b e (nvars p) n r ++ rest)) 0 (files_of w)).
Proof.
  intros Ed Ef Et Hs Hm W NR F D L. pose proof (dispatch_setting args c m true Ed eq_refl) as ST.
  assert (IN : input m p) by (split; auto).
  set (cf := mkCfg (c_heur c) (c_watch c) true) in *. set (clk := late_at w (c_time c)) in *.
  destruct (run_ok m cf clk (c_restarts c) p ST (proj1 (input_wide _ _ IN))) as (N & rep & s & H & R).
  pose proof (H N (le_n N)) as HN. destruct R as [R RC RR].
  assert (CHK : r_verified rep = match r_verdict rep with SAT => Some true | _ => None end).
  { destruct (r_verdict rep) eqn:V; [apply (run_check m cf clk (c_restarts c) p N rep s ST IN HN V)| |].
    all: unfold solve in HN; apply bind_ok in HN; destruct HN as (s0 & _ & HN); unfold solve_state in HN;
      apply bind_ok in HN; destruct HN as ((v, s1) & _ & HN); cbn [fst snd] in HN; destruct v;
      [apply bind_ok in HN; destruct HN as (b & _ & HN)| |];
      (injection HN as <- <-); (discriminate V || reflexivity). }
  destruct (C42_clock m cf clk (c_restarts c) p N rep s ST W NR HN) as (T1 & T2 & T3).
  exists N, (word (r_verdict rep)), (MainFacts.rest_lines (c_log c) rep), (r_decisions rep), (r_units rep), (r_backtracks rep),
    (r_entails rep), (r_clauses rep), (r_restarts rep), (Nat.pred (tick s)).
  split; [intros j Hj; apply in_time; apply T2; lia|].
  split; [rewrite word_timeout, T3; apply out_of_time|].
  split.
  { destruct (counts m cf clk (c_restarts c) p N rep s ST IN HN) as (P1 & _ & _ & _ & P2 & _). destruct m.
    - pose proof (C42_chrono_checks cf clk (c_restarts c) p N rep s W HN) as Q. cbv zeta in Q. destruct (r_verdict rep); lia.
    - pose proof (C42_checks cf clk (c_restarts c) p N rep s ST W (NR eq_refl) HN). lia. }
  intros fuel Hf. unfold main. rewrite Ed. cbn [bind]. unfold run_solver. rewrite Hm. fold clk.
  rewrite (solve_finite_accepted fuel true clk (files_of w) c m f t p) by auto. fold cf. rewrite H by auto.
  cbn [bind]. rewrite Ef, banner_title. do 2 f_equal. unfold solver_screen.
  rewrite MainFacts.report_lines; [|apply (always_model args c m Ed)|rewrite CHK; destruct (r_verdict rep); discriminate].
  rewrite (rk_vars _ _ _ _ _ R).
  assert (EE : announced c m (r_verdict rep) = early c m (word (r_verdict rep))).
  { unfold announced, early. destruct m; auto. destruct (r_verdict rep); cbn [word]; destruct (c_watch c); reflexivity. }
  rewrite EE. change (txt " ") with [SP]. rewrite !unlines_cons. cbn [app]. rewrite <- !app_assoc. cbn [app].
  rewrite <- ?app_assoc. reflexivity.
Qed.

(** ** The program of bitvec *)

Theorem bmain_clock fuel os w f t p r :
  Forall bit_option os -> latest sel_file os None = Some f -> files_of w f = Some t -> 0 <= latest sel_size os 3 ->
  wf p -> fits64 p -> fits_int p -> accepted p t -> lines_below 3000 t ->
  bmain fuel (txt "-solvenc" :: args_of os) w = Ok r ->
  exists v d u b n m q rest k,
    r = mkRan (solver_screen f (time1 w) (time2 w) (time3 w)
                 ((if latest sel_verbose os false then logged w else []) ++ (if text_eqb v (txt "UNSAT") then txt "UNSAT" ++ [LF] else []))
                 (answer_lines v d u b 0 n m q ++ rest)) 0 (files_of w) /\
    (forall j, (j < k)%nat -> elapsed w j <= latest sel_time os 3600) /\ (v = txt "TIMEOUT" <-> latest sel_time os 3600 < elapsed w k) /\
    d <= Z.of_nat k <= d + b + 1.
Proof.
  intros H Ef Et Hs W FI F D L R. pose proof (bit_dispatch os H) as Ed. pose proof (bit_model _ _ Ed) as M.
  destruct (bit_fields os bdefault) as (E1 & E2 & E3 & E4 & E5 & E6). cbn in E1, E2, E3, E4, E5, E6.
  set (c := fold_left bit_apply os bdefault) in *.
  unfold bmain in R. rewrite Ed in R. cbn [bind] in R.
  rewrite (brun_file fuel w c f t p) in R; auto; [|congruence|lia|apply read_accepted; auto].
  apply bind_ok in R. destruct R as ((rep, s) & R & Q). destruct (bsolve_clock _ _ _ _ _ _ _ R) as (k & K1 & K2 & K3).
  exists (word (br_verdict rep)), (br_decisions rep), (br_units rep), (br_backtracks rep), (br_variables rep), (br_clauses rep),
    (br_restarts rep), (brest_lines (c_log c) rep), k.
  split.
  - assert (QQ : mkRan (bscreen w c f (fst (rep, s))) 0 (files_of w) = r) by congruence. rewrite <- QQ.
    unfold bscreen. cbn [fst]. rewrite E5. reflexivity.
  - rewrite <- E2. split; [intros j Hj; apply in_time; auto|]. split; [|auto]. rewrite word_timeout, K2. apply out_of_time.
Qed.

(** ** The program of original_solver *)

Lemma start_open e p o m : usable p -> clauses p <> [] -> o_build e (items_of p) = Ok o ->
  let o1 := o_check_unit o in
  o_check_sat (match m with Chrono => o1 | NonChrono => on o1 (set_level (ost o1) 0) end) = false /\
  tick (ost o1) = 0%nat /\ decisions (ost o1) = 0 /\ units (ost o1) = 0 /\ backtracks (ost o1) = 0 /\ entails (ost o1) = 0 /\ level (ost o1) = 0 /\
  NV (tr (ost o1)) = nvars p /\ length (cl (ost o1)) = length (clauses p) /\ omsg o1 = false.
Proof.
  intros U NE E. destruct (o_build_ok e p U) as (t & o' & E' & (T & _) & B). assert (o' = o) by congruence. subst o'.
  destruct B as [(_ & _ & _ & B1 & _ & B2) B3 B4 _ _ _ _ _ (_ & _ & _ & C1 & _ & _ & C2 & C3 & C4 & C5 & _ & C6)].
  cbv zeta. split.
  - assert (G : forallb (ocsat o) (seq 0 (length (cl (ost o)))) = false).
    { rewrite B1, B4. destruct (clauses p); [congruence|reflexivity]. }
    destruct m; exact G.
  - cbn. rewrite B3, B4. auto 10.
Qed.

Theorem o_solve_late fuel e m clk p : usable p -> clauses p <> [] -> clk 0%nat = true ->
  o_solve (S fuel) m e clk p = Ok (mkOreport TIMEOUT 0 0 0 0 0 (nvars p) (Z.of_nat (length (clauses p))) false None).
Proof.
  intros U NE C. unfold o_solve. destruct (o_build_ok e p U) as (t & o & E & _). rewrite E. cbn [bind].
  pose proof (start_open e p o m U NE E) as G. cbv zeta in G. set (o1 := o_check_unit o) in *. clearbody o1.
  destruct G as (G1 & G2 & G3 & G4 & G5 & G6 & G7 & G8 & G9 & G10).
  destruct m; cbn [o_search o_chrono o_loop].
  - assert (G1' : o_check_sat (on o1 (set_level (ost o1) 0)) = false) by exact G1. rewrite G1'.
    unfold o_time, check_time. cbn [on ost set_level tick]. rewrite G2, C. cbn [bind o_finish]. cbn.
    rewrite G3, G4, G5, G6, G8, G9, G10. reflexivity.
  - rewrite G1. unfold o_time, check_time. cbn [on ost set_level tick]. rewrite G2, C. cbn [bind o_finish]. cbn.
    rewrite G3, G4, G5, G6, G8, G9, G10. reflexivity.
Qed.

Theorem omain_late fuel e learning os w f p : good_run os (files_of w) f p -> clauses p <> [] -> latest sel_time os 3600 < elapsed w 0 ->
  o_main (S fuel) e (solve_word learning :: args_of os) w =
  Ok (mkRan (orig_screen f (time1 w) (time2 w) (time3 w) [] (orig_answer (txt "TIMEOUT") 0 0 0 0 0 (nvars p) (Z.of_nat (length (clauses p)))))
        0 (files_of w)).
Proof.
  intros [G1 G2 G3 G4 (t & T & FI & A & L & N) G5 W] NE K. apply out_of_time in K.
  assert (U : usable p) by (apply wf_usable; auto).
  destruct learning; [change (solve_word true) with (mode_word NonChrono)|change (solve_word false) with (mode_word Chrono)];
    rewrite (run_of (S fuel) e _ os w f t p) by auto; rewrite o_solve_late by auto; cbn [bind]; unfold o_screen_of; rewrite app_nil_r; reflexivity.
Qed.
