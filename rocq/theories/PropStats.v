(** * Theorems about the statistics and the clock

    StatSpec.v: origins of the entries of the decision stack. *)

From Verif Require Import Spec Outcome State ModelCounter ModelHeur ModelLearn ModelWatch
  ModelSearch ModelBuild Nc Wl Steps Runs StatSpec StatRuns Cases StepCases.

(** ** C41: the printed statistics *)

(** Learning searches: of each kind, at least the entries now on the decision stack have been
    counted, and without a conflict exactly these. *)
Theorem C41_entries c clk r p fuel rep s :
  setting NonChrono c -> wf p -> no_repeats p ->
  solve fuel NonChrono c clk r p = Ok (rep, s) ->
  (entries Decided s <= r_decisions rep /\ entries Propagated s <= r_units rep /\ entries Entailed s <= r_entails rep) /\
  (r_backtracks rep = 0 ->
   entries Decided s = r_decisions rep /\ entries Propagated s = r_units rep /\ entries Entailed s = r_entails rep).
Proof.
  intros S W N E. assert (I : input NonChrono p) by (split; auto).
  destruct (solve_shows _ _ _ _ _ _ _ _ E) as (s0 & EB & ER & (-> & -> & -> & -> & _)).
  destruct (search_ended c clk r p fuel s0 (r_verdict rep) s S I EB ER) as [A B _ _ _].
  split; [exact (conj (A Decided) (conj (A Propagated) (A Entailed)))|].
  intro Z. exact (conj (B Z Decided) (conj (B Z Propagated) (B Z Entailed))).
Qed.
Print Assumptions C41_entries.

(** All searches: without a conflict the decisions, propagations and entailments add up to the
    decision stack. *)
Theorem C41_sum m c clk r p fuel rep s :
  setting m c -> wf p -> (m = NonChrono -> no_repeats p) ->
  solve fuel m c clk r p = Ok (rep, s) -> r_backtracks rep = 0 ->
  r_decisions rep + r_units rep + r_entails rep = Z.of_nat (length (DST (tr s))).
Proof.
  intros S W N E B. destruct m.
  - destruct (chrono_run c clk r p fuel rep s W E) as (s0 & _ & D0 & A1 & A2 & A3 & A4 & _ & C & (-> & -> & B' & -> & _)).
    assert (X := ce_spread _ _ _ _ _ C). unfold spread in X. rewrite D0, A1, A2, A3, A4 in X. cbn [length] in X.
    rewrite B' in B. specialize (X B). lia.
  - destruct (C41_entries c clk r p fuel rep s S W (N eq_refl) E) as (_ & X). destruct (X B) as (<- & <- & <-).
    apply (final_origins c clk r p fuel rep s S); auto. split; auto.
Qed.
Print Assumptions C41_sum.

(** The first theorem step by step: an iteration that starts without a conflict counts exactly
    what it adds; the handling of a conflict counts one backtrack and nothing else, and the rest
    of that iteration again counts what it adds. *)
Theorem C41_nc_step c clk r p rc s fuel rc' s' :
  wf p -> no_repeats p -> watch c = false -> lenient c = true -> nc_reached c clk r p rc s ->
  nc_iter fuel c clk r rc s = Ok (inr (rc', s')) ->
  if conflict s then exists s1 rc1 s2, check_time clk s = (false, s1) /\ nc_conflict_at c clk r p rc s1 rc1 s2 /\
    backtracks s' = backtracks s2 /\ accounted s2 s'
  else backtracks s' = backtracks s /\ accounted s s'.
Proof. exact (nc_step_noted c clk r p rc s fuel rc' s'). Qed.
Print Assumptions C41_nc_step.

Theorem C41_wl_step c clk r p rc s fuel rc' s' :
  wf p -> no_repeats p -> watch c = true -> lenient c = true -> heur c <> BK -> wl_reached c clk r p rc s ->
  wl_iter fuel c clk r rc s = Ok (inr (rc', s')) ->
  if conflict s then exists s1 rc1 s2, check_time clk s = (false, s1) /\ wl_conflict_at c clk r p rc s1 rc1 s2 /\
    backtracks s' = backtracks s2 /\ accounted s2 s'
  else backtracks s' = backtracks s /\ accounted s s'.
Proof. exact (wl_step_noted c clk r p rc s fuel rc' s'). Qed.
Print Assumptions C41_wl_step.

Theorem C41_nc_conflict c clk r p rc s rc' s' :
  wf p -> no_repeats p -> watch c = false -> lenient c = true -> nc_conflict_at c clk r p rc s rc' s' ->
  backtracks s' = backtracks s + 1 /\ forall k, total_of k s' = total_of k s /\ entries k s' <= entries k s.
Proof. exact (nc_conflict_forgets c clk r p rc s rc' s'). Qed.
Print Assumptions C41_nc_conflict.

Theorem C41_wl_conflict c clk r p rc s rc' s' :
  wf p -> no_repeats p -> watch c = true -> lenient c = true -> heur c <> BK -> wl_conflict_at c clk r p rc s rc' s' ->
  backtracks s' = backtracks s + 1 /\ forall k, total_of k s' = total_of k s /\ entries k s' <= entries k s.
Proof. exact (wl_conflict_forgets c clk r p rc s rc' s'). Qed.
Print Assumptions C41_wl_conflict.

(** Chronological search walks a binary tree: the decisions not yet taken back are the current
    level, and a refutation has one conflict more than decisions. *)
Theorem C41_chrono c clk r p fuel rep s :
  wf p -> solve fuel Chrono c clk r p = Ok (rep, s) ->
  r_decisions rep - r_backtracks rep = level s /\
  (r_verdict rep = UNSAT -> r_backtracks rep = r_decisions rep + 1).
Proof.
  intros W E.
  destruct (chrono_run c clk r p fuel rep s W E) as (s0 & _ & _ & _ & _ & _ & _ & _ & C & (-> & _ & -> & _ & _)).
  assert (B := ce_bal _ _ _ _ _ C). split; [exact B|]. intro V. destruct (ce_unsat _ _ _ _ _ C V) as (L & _). lia.
Qed.
Print Assumptions C41_chrono.

Definition shown (o : outcome (report * state)) : option (list Z) :=
  match o with
  | Ok (rep, s) => Some [r_decisions rep; r_units rep; r_entails rep; r_backtracks rep;
                         entries Decided s; entries Propagated s; entries Entailed s; Z.of_nat (tick s)]
  | _ => None
  end.

(** A run with conflicts, one stopped before the first conflict, and a refutation by the
    chronological search. *)
Example C41_case_entries :
  shown (solve 100 NonChrono (wl VSIDS) never 0 p_unsat) = Some [6; 28; 21; 5; 0; 7; 3; 13] /\
  shown (solve 100 NonChrono (nc BK) (at_check 2) 0 p_unsat) = Some [2; 3; 0; 0; 2; 3; 0; 3] /\
  shown (solve 100 Chrono (nc BK) never 0 p_unsat) = Some [9; 26; 25; 10; 0; 0; 0; 38].
Proof. vm_compute. auto. Qed.

(** ** C42: the time limit *)

(** [tick] is the number of clock checks made.  The run ends with TIMEOUT exactly if the last
    check it made was late, and every earlier check was in time. *)
Theorem C42_clock m c clk r p fuel rep s :
  setting m c -> wf p -> (m = NonChrono -> no_repeats p) ->
  solve fuel m c clk r p = Ok (rep, s) ->
  (1 <= tick s)%nat /\ (forall j, (S j < tick s)%nat -> clk j = false) /\
  (r_verdict rep = TIMEOUT <-> clk (Nat.pred (tick s)) = true).
Proof.
  intros S W N E. destruct m.
  - destruct (chrono_run c clk r p fuel rep s W E) as (s0 & _ & _ & _ & _ & _ & _ & T0 & C & _).
    split; [|split].
    + pose proof (ce_grow _ _ _ _ _ C). lia.
    + intros j Hj. apply (ce_early _ _ _ _ _ C). lia.
    + exact (ce_late _ _ _ _ _ C).
  - destruct (solve_shows _ _ _ _ _ _ _ _ E) as (s0 & EB & ER & _).
    destruct (search_ended c clk r p fuel s0 (r_verdict rep) s S (conj W N) EB ER) as [A B T C D].
    split; [|split; auto]. pose proof (A Decided); unfold entries, total_of in *; lia.
Qed.
Print Assumptions C42_clock.

(** The clock is checked once per iteration: at least once per decision, and the number of checks
    is bounded by the decisions and backtracks made. *)
Theorem C42_checks c clk r p fuel rep s :
  setting NonChrono c -> wf p -> no_repeats p ->
  solve fuel NonChrono c clk r p = Ok (rep, s) ->
  r_decisions rep + 1 <= Z.of_nat (tick s) <= r_decisions rep + r_backtracks rep + 2.
Proof.
  intros S W N E. destruct (solve_shows _ _ _ _ _ _ _ _ E) as (s0 & EB & ER & (-> & _ & -> & _)).
  assert (I : input NonChrono p) by (split; auto).
  exact (en_tick _ _ _ (search_ended c clk r p fuel s0 (r_verdict rep) s S I EB ER)).
Qed.
Print Assumptions C42_checks.

(** Chronological search: two checks per call; one call per decision, one per conflict, and the
    last one. *)
Theorem C42_chrono_checks c clk r p fuel rep s :
  wf p -> solve fuel Chrono c clk r p = Ok (rep, s) ->
  let n := Z.of_nat (tick s) - 2 * (r_decisions rep + r_backtracks rep) in
  match r_verdict rep with
  | SAT => n = 2
  | UNSAT => n = 0
  | TIMEOUT => n = 1 \/ n = 2
  end.
Proof.
  intros W E.
  destruct (chrono_run c clk r p fuel rep s W E) as (s0 & _ & _ & D0 & B0 & _ & _ & T0 & C & (-> & _ & -> & _)).
  destruct (ce_ticks _ _ _ _ _ C) as (n & N & S & U & T & X). rewrite D0, B0, T0 in X. cbv zeta.
  destruct (r_verdict rep); [rewrite (S eq_refl) in X|specialize (T eq_refl)|rewrite (U eq_refl) in X]; lia.
Qed.
Print Assumptions C42_chrono_checks.

Example C42_case_checks :
  shown (solve 100 NonChrono (nc Lazy) never 0 p_sat) = Some [3; 5; 2; 2; 1; 2; 1; 6] /\
  shown (solve 100 Chrono (nc BK) (at_check 3) 0 p_unsat) = Some [1; 3; 0; 0; 1; 3; 0; 4] /\
  verdict_of (solve 100 Chrono (nc BK) (at_check 3) 0 p_unsat) = Some (TIMEOUT, 0, None).
Proof. vm_compute. auto. Qed.
