(** * Theorems about whole runs of the solver

    [solve fuel m c clk r p] is the run of SolveFinite on the theory of the problem [p]:
    [m] is -solvech ([Chrono]) or -solvenc ([NonChrono]), [c] the heuristic and the switch -wl,
    [clk] the clock checks, [r] the restart threshold.  Its result is the printed report and
    the final state.  [fuel] bounds the number of steps the model may take; all statements are
    for any fuel with which the run finishes, and C03, C06, C09 say that it always does. *)

From Coq Require Import Permutation.
From Verif Require Import Spec WideSpec Outcome State ModelCounter ModelHeur ModelLearn ModelSearch ModelBuild Observe Runs Analyze Cases.

(** ** C01-C03: -solvenc *)

Theorem C01_nc_sat c clk r p fuel rep s :
  wf p -> no_repeats p -> watch c = false -> lenient c = true ->
  solve fuel NonChrono c clk r p = Ok (rep, s) -> r_verdict rep = SAT ->
  satisfiable p /\ (exists a, legal p a /\ fits p s a) /\ forall a, legal p a -> fits p s a -> is_model p a.
Proof. intros W N Ec L. apply run_sat; [split; auto; congruence|split; auto]. Qed.
Print Assumptions C01_nc_sat.

Example C01_case : verdict_of (solve 100 NonChrono (nc BK) never 0 p_sat) = Some (SAT, 0, Some true) /\
  verdict_of (solve 100 NonChrono (nc VSIDS) never 2 p_sat) = Some (SAT, 2, Some true).
Proof. split; vm_compute; reflexivity. Qed.

Theorem C02_nc_unsat c clk r p fuel rep s :
  wf p -> no_repeats p -> watch c = false -> lenient c = true ->
  solve fuel NonChrono c clk r p = Ok (rep, s) -> r_verdict rep = UNSAT -> ~ satisfiable p.
Proof. intros W N Ec L. apply run_unsat; [split; auto; congruence|split; auto]. Qed.
Print Assumptions C02_nc_unsat.

Example C02_case : verdict_of (solve 200 NonChrono (nc BK) never 2 p_unsat) = Some (UNSAT, 7, None) /\
  verdict_of (solve 200 NonChrono (nc VSIDS_pos) never 0 p_unsat) = Some (UNSAT, 5, None).
Proof. split; vm_compute; reflexivity. Qed.

Theorem C03_nc_total c clk r p :
  wf p -> no_repeats p -> watch c = false -> lenient c = true ->
  (exists N rep s, forall fuel, (N <= fuel)%nat -> solve fuel NonChrono c clk r p = Ok (rep, s)) /\
  (forall fuel u, solve fuel NonChrono c clk r p <> Undef u).
Proof. intros W N Ec L. apply run_total; [split; auto; congruence|split; auto]. Qed.
Print Assumptions C03_nc_total.

Example C03_case : verdict_of (solve 300 NonChrono (nc Lazy) never 1 p_unsat) = Some (UNSAT, 7, None).
Proof. vm_compute; reflexivity. Qed.

(** ** C04-C06: -solvenc -wl *)

Theorem C04_wl_sat c clk r p fuel rep s :
  wf p -> no_repeats p -> watch c = true -> lenient c = true -> heur c <> BK ->
  solve fuel NonChrono c clk r p = Ok (rep, s) -> r_verdict rep = SAT ->
  satisfiable p /\ (exists a, legal p a /\ fits p s a) /\ forall a, legal p a -> fits p s a -> is_model p a.
Proof. intros W N Ec L B. apply run_sat; [split; auto|split; auto]. Qed.
Print Assumptions C04_wl_sat.

Example C04_case : verdict_of (solve 100 NonChrono (wl VSIDS) never 0 p_sat) = Some (SAT, 2, Some true).
Proof. vm_compute; reflexivity. Qed.

Theorem C05_wl_unsat c clk r p fuel rep s :
  wf p -> no_repeats p -> watch c = true -> lenient c = true -> heur c <> BK ->
  solve fuel NonChrono c clk r p = Ok (rep, s) -> r_verdict rep = UNSAT -> ~ satisfiable p.
Proof. intros W N Ec L B. apply run_unsat; [split; auto|split; auto]. Qed.
Print Assumptions C05_wl_unsat.

Example C05_case : verdict_of (solve 300 NonChrono (wl VSIDS) never 3 p_unsat) = Some (UNSAT, 6, None).
Proof. vm_compute; reflexivity. Qed.

Theorem C06_wl_total c clk r p :
  wf p -> no_repeats p -> watch c = true -> lenient c = true -> heur c <> BK ->
  (exists N rep s, forall fuel, (N <= fuel)%nat -> solve fuel NonChrono c clk r p = Ok (rep, s)) /\
  (forall fuel u, solve fuel NonChrono c clk r p <> Undef u).
Proof. intros W N Ec L B. apply run_total; [split; auto|split; auto]. Qed.
Print Assumptions C06_wl_total.

Example C06_case : verdict_of (solve 300 NonChrono (wl Lazy) never 1 p_unsat) = Some (UNSAT, 7, None).
Proof. vm_compute; reflexivity. Qed.

(** ** C07-C09: -solvech (repeated literals allowed) *)

Theorem C07_ch_sat c clk r p fuel rep s :
  wf p -> watch c = false -> heur c = BK \/ heur c = Lazy ->
  solve fuel Chrono c clk r p = Ok (rep, s) -> r_verdict rep = SAT ->
  satisfiable p /\ (exists a, legal p a /\ fits p s a) /\ forall a, legal p a -> fits p s a -> is_model p a.
Proof. intros W Ec H. apply run_sat; [split; auto|split; auto; discriminate]. Qed.
Print Assumptions C07_ch_sat.

Example C07_case : verdict_of (solve 100 Chrono (nc BK) never 0 p_sat) = Some (SAT, 0, Some true).
Proof. vm_compute; reflexivity. Qed.

Theorem C08_ch_unsat c clk r p fuel rep s :
  wf p -> watch c = false -> heur c = BK \/ heur c = Lazy ->
  solve fuel Chrono c clk r p = Ok (rep, s) -> r_verdict rep = UNSAT -> ~ satisfiable p.
Proof. intros W Ec H. apply run_unsat; [split; auto|split; auto; discriminate]. Qed.
Print Assumptions C08_ch_unsat.

Example C08_case : verdict_of (solve 300 Chrono (nc BK) never 0 p_unsat) = Some (UNSAT, 10, None).
Proof. vm_compute; reflexivity. Qed.

Theorem C09_ch_total c clk r p :
  wf p -> watch c = false -> heur c = BK \/ heur c = Lazy ->
  (exists N rep s, forall fuel, (N <= fuel)%nat -> solve fuel Chrono c clk r p = Ok (rep, s)) /\
  (forall fuel u, solve fuel Chrono c clk r p <> Undef u).
Proof. intros W Ec H. apply run_total; [split; auto|split; auto; discriminate]. Qed.
Print Assumptions C09_ch_total.

(** A problem with a repeated literal, decided by -solvech. *)
Definition p_rep : problem := mkProblem [3; 3] [[veq 1 0; veq 1 0; vne 2 1]; [vne 1 0]; [veq 2 1; veq 2 0; veq 2 1]].
Example C09_case : wf p_rep /\ verdict_of (solve 100 Chrono (nc Lazy) never 0 p_rep) = Some (SAT, 0, Some true).
Proof. split; [apply wf_dec|vm_compute]; reflexivity. Qed.

(** ** C10: all algorithms and options agree *)

Theorem C10_agree m1 c1 clk1 r1 fuel1 rep1 s1 m2 c2 clk2 r2 fuel2 rep2 s2 p :
  setting m1 c1 -> setting m2 c2 -> wf p -> no_repeats p ->
  solve fuel1 m1 c1 clk1 r1 p = Ok (rep1, s1) -> solve fuel2 m2 c2 clk2 r2 p = Ok (rep2, s2) ->
  r_verdict rep1 <> TIMEOUT -> r_verdict rep2 <> TIMEOUT -> r_verdict rep1 = r_verdict rep2.
Proof. apply run_agree. Qed.
Print Assumptions C10_agree.

Example C10_case : setting Chrono (nc Lazy) /\ setting NonChrono (wl VSIDS) /\
  verdict_of (solve 300 Chrono (nc Lazy) never 0 p_unsat) = Some (UNSAT, 8, None) /\
  verdict_of (solve 300 NonChrono (wl VSIDS) never 0 p_unsat) = Some (UNSAT, 5, None).
Proof. repeat split; auto; try discriminate; vm_compute; reflexivity. Qed.

(** The verdict decides the problem. *)
Theorem C10_decides m c clk r p fuel rep s :
  setting m c -> wf p -> no_repeats p -> solve fuel m c clk r p = Ok (rep, s) -> r_verdict rep <> TIMEOUT ->
  (r_verdict rep = SAT <-> satisfiable p) /\ (r_verdict rep = UNSAT <-> ~ satisfiable p).
Proof. intros S W N. apply run_iff; auto. split; auto. Qed.
Print Assumptions C10_decides.

(** ** C11, C12: the printed model *)

Theorem C11_model_complete m c clk r p fuel rep s :
  setting m c -> wf p -> (m = NonChrono -> no_repeats p) -> heur c <> Lazy ->
  solve fuel m c clk r p = Ok (rep, s) -> r_verdict rep = SAT ->
  exists a, is_model p a /\ Permutation (r_model rep) (lines_of (nvars p) a).
Proof. intros S W N. apply run_model; auto. split; auto. Qed.
Print Assumptions C11_model_complete.

(** The lines are printed in the order of the assignments. *)
Theorem C11_order m c clk r p fuel rep s :
  setting m c -> wf p -> (m = NonChrono -> no_repeats p) ->
  solve fuel m c clk r p = Ok (rep, s) -> r_verdict rep = SAT -> in_order s (r_model rep).
Proof. intros S W N. apply run_order; auto. split; auto. Qed.
Print Assumptions C11_order.

Example C11_case : model_of (solve 100 NonChrono (nc BK) never 0 p_sat) = [veq 3 0; veq 1 0; veq 2 0; veq 4 0].
Proof. vm_compute; reflexivity. Qed.

(** With the lazy heuristic the printed lines are part of a model ... *)
Theorem C12_lazy_model_partial m c clk r p fuel rep s :
  setting m c -> wf p -> (m = NonChrono -> no_repeats p) ->
  solve fuel m c clk r p = Ok (rep, s) -> r_verdict rep = SAT ->
  exists a, is_model p a /\ forall l, In l (r_model rep) -> lit_holds a l.
Proof. intros S W N. apply run_lazy; auto. split; auto. Qed.
Print Assumptions C12_lazy_model_partial.

(** ... but completing them arbitrarily need not give a model: nothing is printed for a problem
    with the clause [1!=0], although [1=0] is not a model. *)
Theorem C12_lazy_model_refuted :
  exists p fuel rep s a, wf p /\ no_repeats p /\
    solve fuel NonChrono (nc Lazy) never 0 p = Ok (rep, s) /\ r_verdict rep = SAT /\
    legal p a /\ (forall l, In l (r_model rep) -> lit_holds a l) /\ ~ is_model p a.
Proof.
  exists (mkProblem [3] [[vne 1 0]]), 20%nat.
  destruct (solve 20 NonChrono (nc Lazy) never 0 (mkProblem [3] [[vne 1 0]])) as [(rep, s)| |] eqn:E;
    [|vm_compute in E; discriminate..].
  exists rep, s, (fun _ => 0).
  assert (R : r_verdict rep = SAT /\ r_model rep = []) by (vm_compute in E; injection E as <- _; auto).
  destruct R as (R1 & R2).
  split; [apply wf_dec; reflexivity|]. split; [apply no_repeats_dec; reflexivity|].
  split; auto. split; auto. split; [|split].
  - intros x Hx. replace x with 1 by (unfold nvars in Hx; simpl in Hx; lia). vm_compute. split; congruence.
  - rewrite R2. intros l [].
  - intros (_ & M). destruct (M [vne 1 0]) as (l & [<-|[]] & H); [left; auto|]. apply H. reflexivity.
Qed.
Print Assumptions C12_lazy_model_refuted.

(** ** C13: the self-check *)

Theorem C13_verify_exact s : DOM (tr s) 0 = 0 ->
  (forall C l, In C (cl s) -> In l C -> 1 <= lvar l <= NV (tr s) /\ 0 <= lval l < DOM (tr s) (lvar l)) ->
  exists b, verify_model s = Ok b /\
    (b = true <-> forall C, In C (cl s) -> exists l, In l C /\
       ASG (tr s) (lvar l) (lval l) = if leq l then Pos else Neg).
Proof. apply check_exact. Qed.
Print Assumptions C13_verify_exact.

Theorem C13_sat_verified m c clk r p fuel rep s :
  setting m c -> wf p -> (m = NonChrono -> no_repeats p) ->
  solve fuel m c clk r p = Ok (rep, s) -> r_verdict rep = SAT -> r_verified rep = Some true.
Proof. intros S W N. apply run_check; auto. split; auto. Qed.
Print Assumptions C13_sat_verified.

Example C13_case : exists s, build (nc BK) (items_of p_sat) = Ok s /\ verify_model s = Ok false.
Proof. eexists. split; vm_compute; reflexivity. Qed.

(** ** C14: time-outs *)

Theorem C14_timeout m c clk r p fuel rep s :
  setting m c -> wf p -> (m = NonChrono -> no_repeats p) ->
  solve fuel m c clk r p = Ok (rep, s) -> r_verdict rep = TIMEOUT -> exists k, clk k = true.
Proof. intros S W N. apply run_time; auto. split; auto. Qed.
Print Assumptions C14_timeout.

Theorem C14_no_timeout m c clk r p :
  setting m c -> wf p -> (m = NonChrono -> no_repeats p) -> (forall k, clk k = false) ->
  exists N rep s, (forall fuel, (N <= fuel)%nat -> solve fuel m c clk r p = Ok (rep, s)) /\
    (r_verdict rep = SAT \/ r_verdict rep = UNSAT).
Proof. intros S W N. apply run_clock; auto. split; auto. Qed.
Print Assumptions C14_no_timeout.

Example C14_case : verdict_of (solve 100 NonChrono (nc BK) (at_check 2) 0 p_unsat) = Some (TIMEOUT, 0, None) /\
  verdict_of (solve 100 Chrono (nc BK) (at_check 3) 0 p_unsat) = Some (TIMEOUT, 0, None).
Proof. split; vm_compute; reflexivity. Qed.

(** ** C16: extended resolution *)

Theorem C16_resolve_sound a C l R :
  clause_holds a C -> clause_holds a R -> clause_holds a (resolve C l R).
Proof. apply resolve_sound. Qed.
Print Assumptions C16_resolve_sound.

(** The resolvent has the literals of [C] that can hold while [l] does not, and those of [R] that
    can hold together with [l]; none twice if [C] repeats none. *)
Theorem C16_resolve_literals C l R x :
  (In x (resolve C l R) <->
     In x C /\ (exists a, lit_holds a x /\ ~ lit_holds a l) \/ In x R /\ (exists a, lit_holds a x /\ lit_holds a l)) /\
  (NoDup C -> NoDup (resolve C l R)).
Proof. exact (conj (resolve_exact C l R x) (nodup_resolve C l R)). Qed.
Print Assumptions C16_resolve_literals.

Example C16_case : resolve [veq 1 0; veq 2 1; vne 3 0] (vne 3 0) [veq 3 0; veq 2 1; veq 4 1] = [veq 1 0; veq 2 1; veq 4 1].
Proof. reflexivity. Qed.

(** ** C21, C22: statistics *)

Theorem C21_restarts c clk r p fuel rep s :
  setting NonChrono c -> wf p -> no_repeats p ->
  solve fuel NonChrono c clk r p = Ok (rep, s) ->
  r_restarts rep = if 0 <? r then r_backtracks rep / r else 0.
Proof.
  exact (run_restarts c clk r p fuel rep s).
Qed.
Print Assumptions C21_restarts.

Example C21_case :
  match solve 200 NonChrono (nc BK) never 2 p_unsat with
  | Ok (rep, _) => r_restarts rep = 3 /\ r_backtracks rep = 7 | _ => False end.
Proof. vm_compute; auto. Qed.

Theorem C22_stats m c clk r p fuel rep s :
  setting m c -> wf p -> (m = NonChrono -> no_repeats p) ->
  solve fuel m c clk r p = Ok (rep, s) ->
  r_variables rep = nvars p /\
  r_clauses rep = Z.of_nat (length (clauses p)) + match m with Chrono => 0 | NonChrono => r_backtracks rep end.
Proof. intros S W N. apply run_stats; auto. split; auto. Qed.
Print Assumptions C22_stats.

Example C22_case :
  match solve 200 NonChrono (nc BK) never 2 p_unsat with
  | Ok (rep, _) => r_variables rep = 4 /\ r_clauses rep = 25 | _ => False end.
Proof. vm_compute; auto. Qed.

(** ** C26: one-value domains *)

(** Two variables that can only be 0 and must differ: reported SAT, and the self-check agrees. *)
Theorem C26_one_value_refuted :
  exists p, (forall d, In d (doms p) -> 1 <= d) /\
    (forall C, In C (clauses p) -> C <> [] /\ NoDup C /\ forall l, In l C -> wf_lit p l) /\
    ~ satisfiable p /\
    verdict_of (solve 50 NonChrono (nc BK) never 0 p) = Some (SAT, 0, Some true) /\
    verdict_of (solve 50 NonChrono (wl VSIDS) never 0 p) = Some (SAT, 0, Some true) /\
    verdict_of (solve 50 Chrono (nc BK) never 0 p) = Some (SAT, 0, Some true).
Proof.
  exists (mkProblem [1; 1] [[vne 1 0; vne 2 0]]). split; [|split; [|split]].
  - intros d [<-|[<-|[]]]; lia.
  - intros C [<-|[]]. split; [discriminate|]. split.
    + apply nodup_dec. reflexivity.
    + intros l [<-|[<-|[]]]; apply wf_lit_dec; reflexivity.
  - intros (a & La & M). destruct (M [vne 1 0; vne 2 0]) as (l & Hl & H); [left; auto|].
    pose proof (La 1 ltac:(vm_compute; split; discriminate)) as A1.
    pose proof (La 2 ltac:(vm_compute; split; discriminate)) as A2.
    vm_compute in A1, A2. unfold lit_holds in H. destruct Hl as [<-|[<-|[]]]; simpl in H; apply H.
    + destruct A1. destruct (a 1); auto; exfalso; auto. destruct p; discriminate.
    + destruct A2. destruct (a 2); auto; exfalso; auto. destruct p; discriminate.
  - repeat split; vm_compute; reflexivity.
Qed.
Print Assumptions C26_one_value_refuted.

(** ** C62: domains of any size

    The verdict is right for the problem in which every domain has at least two values ([widen]).
    C26 holds in part: the verdict is right for [p] itself if it is UNSAT, or if it is SAT and a
    line is printed for every variable.  Missing: SAT with a variable that gets no line. *)
Theorem C62_verdict m c clk r p fuel rep s :
  setting m c -> usable p -> (m = NonChrono -> no_repeats p) ->
  solve fuel m c clk r p = Ok (rep, s) -> r_verdict rep <> TIMEOUT ->
  (r_verdict rep = SAT <-> satisfiable (widen p)) /\ (r_verdict rep = UNSAT <-> ~ satisfiable (widen p)).
Proof. intros S U N. apply wide_iff; [auto|split; auto]. Qed.
Print Assumptions C62_verdict.

Theorem C62_total m c clk r p :
  setting m c -> usable p -> (m = NonChrono -> no_repeats p) ->
  (exists N rep s, forall fuel, (N <= fuel)%nat -> solve fuel m c clk r p = Ok (rep, s)) /\
  (forall fuel u, solve fuel m c clk r p <> Undef u).
Proof. intros S U N. apply wide_total; [auto|split; auto]. Qed.
Print Assumptions C62_total.

Theorem C26_unsat_partial m c clk r p fuel rep s :
  setting m c -> usable p -> (m = NonChrono -> no_repeats p) ->
  solve fuel m c clk r p = Ok (rep, s) -> r_verdict rep = UNSAT -> ~ satisfiable p.
Proof. intros S U N. apply wide_unsat; [auto|split; auto]. Qed.
Print Assumptions C26_unsat_partial.

Theorem C62_model m c clk r p fuel rep s :
  setting m c -> usable p -> (m = NonChrono -> no_repeats p) -> heur c <> Lazy ->
  solve fuel m c clk r p = Ok (rep, s) -> r_verdict rep = SAT ->
  r_verified rep = Some true /\
  exists a, is_model (widen p) a /\
    Permutation (r_model rep) (filter (fun l => lval l <? domsize p (lvar l)) (lines_of (nvars p) a)).
Proof. intros S U N. apply wide_model; [auto|split; auto]. Qed.
Print Assumptions C62_model.

Theorem C26_sat_partial m c clk r p fuel rep s :
  setting m c -> usable p -> (m = NonChrono -> no_repeats p) -> heur c <> Lazy ->
  solve fuel m c clk r p = Ok (rep, s) -> r_verdict rep = SAT -> Z.of_nat (length (r_model rep)) = nvars p ->
  exists a, is_model p a /\ Permutation (r_model rep) (lines_of (nvars p) a).
Proof. intros S U N. apply wide_full; [auto|split; auto]. Qed.
Print Assumptions C26_sat_partial.

(** Variables with no, one and three values; [2!=0] leaves the domain of 2, which gets no line. *)
Definition p_small : problem := mkProblem [0; 1; 1; 3] [[vne 2 0; veq 4 1]; [vne 4 1]; [veq 3 0; veq 4 2]].
Example C62_case : usable p_small /\ no_repeats p_small /\
  match solve 50 NonChrono (nc BK) never 0 p_small with
  | Ok (rep, _) => r_verdict rep = SAT /\ r_verified rep = Some true /\ ~ In 2 (map lvar (r_model rep)) /\ In (veq 3 0) (r_model rep)
  | _ => False end /\
  verdict_of (solve 50 NonChrono (wl VSIDS) never 0 (mkProblem [1; 3] [[veq 1 0]; [vne 1 0; veq 2 1]; [vne 2 1]])) = Some (UNSAT, 0, None).
Proof.
  split; [|split; [apply no_repeats_dec; reflexivity|split; [vm_compute|vm_compute; reflexivity]]].
  - split.
    + intros d [<-|[<-|[<-|[<-|[]]]]]; lia.
    + intros C [<-|[<-|[<-|[]]]]; (split; [discriminate|]); intros l H; cbn in H;
        decompose [or] H; try contradiction; subst l; apply wf_lit_dec; reflexivity.
  - repeat split; intuition discriminate.
Qed.

(** ** C27: repeated literals *)

(** -wl reports UNSAT for a satisfiable problem with a repeated literal; -solvenc and -solvech
    report SAT. *)
Theorem C27_repeats_refuted :
  exists p, wf p /\ satisfiable p /\
    verdict_of (solve 50 NonChrono (wl VSIDS) never 0 p) = Some (UNSAT, 0, None) /\
    verdict_of (solve 50 NonChrono (nc VSIDS) never 0 p) = Some (SAT, 0, Some true) /\
    verdict_of (solve 50 Chrono (nc BK) never 0 p) = Some (SAT, 0, Some true).
Proof.
  exists (mkProblem [3; 3; 4; 2] [[veq 4 0; veq 4 0; veq 3 3]; [vne 4 0]]). split; [|split].
  - apply wf_dec. reflexivity.
  - exists (assign_of [0; 0; 3; 1]). apply model_dec. reflexivity.
  - repeat split; vm_compute; reflexivity.
Qed.
Print Assumptions C27_repeats_refuted.

(** With repeated literals the conflict analysis of -solvenc can index before the clause list. *)
Theorem C27_undefined_refuted :
  exists p, wf p /\ ~ satisfiable p /\ solve 100 NonChrono (nc VSIDS) never 0 p = Undef OobClause.
Proof.
  exists (mkProblem [2; 3; 3] [[veq 2 2; veq 2 2]; [vne 2 2; veq 2 0]; [vne 2 0; vne 2 0]]). split; [|split].
  - apply wf_dec. reflexivity.
  - intros (a & _ & M).
    destruct (M [veq 2 2; veq 2 2]) as (l & Hl & H); [simpl; auto|].
    destruct (M [vne 2 2; veq 2 0]) as (l' & Hl' & H'); [simpl; auto|].
    destruct Hl as [<-|[<-|[]]]; destruct Hl' as [<-|[<-|[]]]; cbv [lit_holds veq vne leq lvar lval] in H, H'; congruence.
  - vm_compute; reflexivity.
Qed.
Print Assumptions C27_undefined_refuted.

(** ** C39: the missing return of learnClause *)

(** Read strictly, a run that learns a clause has undefined behaviour. *)
Theorem C39_missing_return_refuted :
  exists p, wf p /\ no_repeats p /\
    solve 200 NonChrono (mkCfg BK false false) never 0 p = Undef NoReturn /\
    solve 200 NonChrono (mkCfg VSIDS true false) never 0 p = Undef NoReturn.
Proof.
  exists p_unsat. split; [apply p_unsat_fine|]. split; [apply p_unsat_fine|].
  split; vm_compute; reflexivity.
Qed.
Print Assumptions C39_missing_return_refuted.
