(** * Theorems about the first version of the solver *)

From Verif Require Import Spec Outcome State Base ModelCounter ModelSearch ModelBuild Observe Cases ModelOrig OrigSpec OrigInit OrigSolve OrigPtr OrigNC OrigMono OrigBound.
#[local] Open Scope Z_scope.

(** ** C80: the recursive search *)

(** Whatever ENTAILLITERAL holds at the start: every run ends, with a report that depends on the
    clock and the problem only, or by the deletion of a wrong pointer. *)
Theorem C80_ends clk p : wf p -> exists N rep, forall fuel e, (N <= fuel)%nat ->
  o_solve fuel Chrono e clk p = Ok rep \/
  o_solve fuel Chrono e clk p = Undef Uninit \/ o_solve fuel Chrono e clk p = Undef BadPtr.
Proof. exact (chrono_ends clk p). Qed.
Print Assumptions C80_ends.

(** The answer SAT is followed by the check of the model.  If it succeeds, the problem is
    satisfiable; it succeeds unless "No Branch Atom selected" was printed. *)
Theorem C80_sat fuel e clk p rep : wf p -> o_solve fuel Chrono e clk p = Ok rep -> or_verdict rep = SAT ->
  exists b, or_verified rep = Some b /\ (b = true -> satisfiable p) /\ (or_message rep = false -> b = true).
Proof. exact (fun W E => proj1 (chrono_rep fuel e clk p rep W E)). Qed.
Print Assumptions C80_sat.

(** UNSAT without a decision is right; TIMEOUT comes from the clock. *)
Theorem C80_other fuel e clk p rep : wf p -> o_solve fuel Chrono e clk p = Ok rep ->
  (or_verdict rep = UNSAT -> or_decisions rep = 0 -> ~ satisfiable p) /\
  (or_verdict rep = TIMEOUT -> exists k, clk k = true) /\
  (or_verdict rep <> SAT -> or_verified rep = None).
Proof. exact (fun W E => match chrono_rep fuel e clk p rep W E with conj _ (conj V (conj T (conj U _))) => conj U (conj T V) end). Qed.
Print Assumptions C80_other.

(** Full statement: UNSAT only if there is no model.  It is false: *)
Definition p_half : problem := mkProblem [3; 3]
  [[veq 1 0; vne 2 0]; [veq 1 2; veq 2 1]; [veq 2 0; veq 1 1]].
Theorem C80_unsat_refuted : exists p, wf p /\ satisfiable p /\
  forall e, exists rep, o_solve 50 Chrono e never p = Ok rep /\ or_verdict rep = UNSAT.
Proof.
  exists p_half. split; [apply wf_dec; reflexivity|].
  split; [exists (fun v => if v =? 1 then 1 else 1); apply model_dec; reflexivity|].
  intros []; vm_compute; eauto.
Qed.
Print Assumptions C80_unsat_refuted.

(** What the answer means: the first decision is never reversed.  If no clause has just one literal,
    the answer is about the models that give the first choice its value. *)
Theorem C80_half_partial fuel e clk p rep v d : wf p -> o_solve fuel Chrono e clk p = Ok rep ->
  no_units p -> clauses p <> [] -> literals p <= 1000000000 -> first_choice p v d ->
  (or_verdict rep = UNSAT -> forall a, is_model p a -> a v <> d) /\
  (or_verified rep = Some true -> exists a, is_model p a /\ a v = d).
Proof.
  exact (fun W E U C L F => match chrono_rep fuel e clk p rep W E with
    conj _ (conj _ (conj _ (conj _ (conj H _)))) => H v d F U C L end).
Qed.
Print Assumptions C80_half_partial.

(** In general: after UNSAT for a satisfiable problem there is a value that its variable has in no model. *)
Theorem C80_unsat_partial fuel e clk p rep : wf p -> o_solve fuel Chrono e clk p = Ok rep ->
  or_verdict rep = UNSAT -> satisfiable p ->
  exists v d, 1 <= v <= nvars p /\ 0 <= d < domsize p v /\ forall a, is_model p a -> a v <> d.
Proof.
  exact (fun W E => match chrono_rep fuel e clk p rep W E with
    conj _ (conj _ (conj _ (conj _ (conj _ (conj H _))))) => H end).
Qed.
Print Assumptions C80_unsat_partial.

(** No clause is learned. *)
Theorem C80_size fuel e clk p rep : wf p -> o_solve fuel Chrono e clk p = Ok rep ->
  or_variables rep = nvars p /\ or_clauses rep = Z.of_nat (length (clauses p)).
Proof. exact (fun W E => match chrono_rep fuel e clk p rep W E with conj _ (conj _ (conj _ (conj _ (conj _ (conj _ H))))) => H end). Qed.
Print Assumptions C80_size.

(** The message "No Branch Atom selected" needs a huge problem or a huge number of backtracks; so otherwise
    the answer SAT is right and the check of the model succeeds. *)
Theorem C80_sat_right fuel e clk p rep : wf p -> o_solve fuel Chrono e clk p = Ok rep ->
  (4 * or_backtracks rep + 3) * literals p <= 1000000000 ->
  or_message rep = false /\ (or_verdict rep = SAT -> or_verified rep = Some true /\ satisfiable p).
Proof. exact (chrono_right fuel e clk p rep). Qed.
Print Assumptions C80_sat_right.

(** Every decision but the first is reversed before UNSAT is answered: there are as many backtracks as
    decisions (one if there is no decision); otherwise there are at most as many. *)
Theorem C80_counts fuel e clk p rep : wf p -> o_solve fuel Chrono e clk p = Ok rep ->
  0 <= or_backtracks rep /\
  (or_verdict rep = UNSAT -> or_backtracks rep = Z.max 1 (or_decisions rep)) /\
  (or_verdict rep <> UNSAT -> or_backtracks rep <= or_decisions rep).
Proof. exact (fun W E => match chrono_counts fuel e clk p rep W E with conj _ H => H end). Qed.
Print Assumptions C80_counts.

(** [v=d] is the first choice: a check by computation. *)
Definition first_choiceb (p : problem) (v d : Z) : bool :=
  (1 <=? v) && (v <=? nvars p) && (0 <=? d) && (d <? domsize p v) &&
  forallb (fun v' => forallb (fun d' =>
    (lead p v' d' <=? lead p v d) &&
    (negb ((v' <? v) || (v' =? v) && (d' <? d)) || (lead p v' d' <? lead p v d))) (zrange 0 (domsize p v')))
    (zrange 1 (nvars p)).
Lemma first_choiceb_ok p v d : first_choiceb p v d = true -> first_choice p v d.
Proof.
  unfold first_choiceb. rewrite !andb_true_iff, forallb_forall. intros ((((A & B) & C) & D) & H).
  split; [lia|]. split; [lia|]. intros v' d' V' D'. specialize (H v'). rewrite forallb_forall in H.
  assert (I : In v' (zrange 1 (nvars p))) by (apply in_zrange; lia).
  specialize (H I d' ltac:(apply in_zrange; lia)). apply andb_true_iff in H. destruct H as (H1 & H2).
  split; [lia|]. intro X. apply orb_true_iff in H2. destruct H2 as [H2|H2]; [|lia].
  apply negb_true_iff, orb_false_iff in H2. destruct H2 as (Y & Z). apply andb_false_iff in Z. lia.
Qed.
Lemma no_units_case p : forallb (fun c => negb (Nat.eqb (length c) 1)) (clauses p) = true -> no_units p.
Proof. intros H c I. rewrite forallb_forall in H. specialize (H c I). apply negb_true_iff, Nat.eqb_neq in H. exact H. Qed.

Definition p_clash : problem := mkProblem [3; 2] [[veq 1 0]; [veq 1 1; veq 2 0]; [vne 2 0]].
Definition p_deep : problem := mkProblem [2; 3; 3; 3]
  [[veq 1 0; veq 1 1]; [veq 1 0; veq 2 0; veq 2 1; veq 2 2]; [vne 2 0; vne 3 0]; [vne 2 1; vne 3 1];
   [vne 2 2; vne 3 2]; [vne 2 0; vne 4 0]; [vne 2 1; vne 4 1]; [vne 2 2; vne 4 2]; [vne 3 0; vne 4 0];
   [vne 3 1; vne 4 1]; [vne 3 2; vne 4 2]; [vne 3 2; vne 4 1]; [vne 3 1; vne 4 2]; [vne 3 0; vne 4 1];
   [vne 3 1; vne 4 0]; [vne 3 0; vne 4 2]; [vne 3 2; vne 4 0]].
Example C80_case : wf p_half /\ no_units p_half /\ clauses p_half <> [] /\ literals p_half = 6 /\
  first_choice p_half 1 0 /\ first_choice p_sat 3 0 /\
  (exists rep, o_solve 50 Chrono PUninit never p_half = Ok rep /\ or_verdict rep = UNSAT /\ or_decisions rep = 1) /\
  wf p_clash /\ (exists rep, o_solve 50 Chrono PUninit never p_clash = Ok rep /\ or_verdict rep = UNSAT /\ or_decisions rep = 0) /\
  wf p_sat /\ (exists rep, o_solve 50 Chrono PUninit never p_sat = Ok rep /\ or_verdict rep = SAT /\ or_verified rep = Some true) /\
  (exists rep, o_solve 50 Chrono PUninit (at_check 3) p_sat = Ok rep /\ or_verdict rep = TIMEOUT) /\
  wf p_deep /\ (exists rep, o_solve 50 Chrono PIgnore never p_deep = Ok rep /\ or_verdict rep = UNSAT /\
    or_decisions rep = 6 /\ or_backtracks rep = 6 /\ (4 * or_backtracks rep + 3) * literals p_deep <= 1000000000).
Proof.
  split; [apply wf_dec; reflexivity|]. split; [apply no_units_case; reflexivity|]. split; [discriminate|].
  split; [reflexivity|]. split; [apply first_choiceb_ok; reflexivity|]. split; [apply first_choiceb_ok; reflexivity|].
  split; [vm_compute; eauto|]. split; [apply wf_dec; reflexivity|]. split; [vm_compute; eauto|].
  split; [apply p_sat_fine|]. split; [vm_compute; eauto|]. split; [vm_compute; eauto|].
  split; [apply wf_dec; reflexivity|]. eexists. split; [vm_compute; reflexivity|].
  do 3 (split; [reflexivity|]). vm_compute. discriminate.
Qed.

(** ** C81: the loop with learning *)

(** Every result: a report; undefined behaviour by reading outside DECSTACK or by the deletion of a
    wrong pointer; or no end. *)
Theorem C81_outcome fuel e clk p : wf p ->
  match o_solve fuel NonChrono e clk p with
  | Ok _ | OutOfFuel => True
  | Undef u => u = OobStack \/ u = Uninit \/ u = BadPtr
  end.
Proof. exact (nc_outcome fuel e clk p). Qed.
Print Assumptions C81_outcome.

(** SAT is right and the check of the model succeeds. *)
Theorem C81_sat fuel e clk p rep : wf p -> o_solve fuel NonChrono e clk p = Ok rep -> or_verdict rep = SAT ->
  or_verified rep = Some true /\ satisfiable p.
Proof. exact (nc_sat fuel e clk p rep). Qed.
Print Assumptions C81_sat.

(** UNSAT without a decision is right; TIMEOUT comes from the clock. *)
Theorem C81_other_partial fuel e clk p rep : wf p -> o_solve fuel NonChrono e clk p = Ok rep ->
  (or_verdict rep = UNSAT -> or_decisions rep = 0 -> ~ satisfiable p) /\
  (or_verdict rep = TIMEOUT -> exists k, clk k = true) /\
  (or_verdict rep <> SAT -> or_verified rep = None) /\ or_message rep = false.
Proof.
  exact (fun W E => match nc_other fuel e clk p rep W E with
    conj A (conj B (conj C (conj D _))) => conj A (conj B (conj C D)) end).
Qed.
Print Assumptions C81_other_partial.

(** One clause is learned for each conflict, and there are at most as many conflicts as there are
    values of the variables. *)
Theorem C81_conflicts fuel e clk p rep : wf p -> o_solve fuel NonChrono e clk p = Ok rep ->
  or_variables rep = nvars p /\
  or_clauses rep = Z.of_nat (length (clauses p)) + or_backtracks rep /\ 0 <= or_backtracks rep <= atoms p.
Proof. exact (fun W E => match nc_other fuel e clk p rep W E with conj _ (conj _ (conj _ (conj _ H))) => H end). Qed.
Print Assumptions C81_conflicts.

(** Every run ends, unless the counters become so small that no literal is chosen: this needs a problem
    so large that the product below exceeds 10^9, and a clock that does not ring for good. *)
Theorem C81_ends e clk p : wf p ->
  (4 * atoms p + 3) * (literals p + atoms p) <= 1000000000 \/ (exists K, forall k, (K <= k)%nat -> clk k = true) ->
  exists N, forall fuel, (N <= fuel)%nat -> o_solve fuel NonChrono e clk p <> OutOfFuel.
Proof. exact (fun W H => nc_ends e clk p W (match H with or_introl a => or_intror a | or_intror a => or_introl a end)). Qed.
Print Assumptions C81_ends.

(** Full statement: UNSAT only if there is no model.  It is false: a wrong clause is learned. *)
Definition p_lost : problem := mkProblem [2; 2; 2; 2]
  [[vne 3 1; veq 4 1]; [veq 1 1; veq 3 1; veq 4 1]; [veq 4 0; vne 3 0]; [vne 4 1; veq 1 0]; [veq 3 0; vne 4 1]].
Theorem C81_unsat_refuted : exists p, wf p /\ satisfiable p /\
  exists rep, o_solve 50 NonChrono PNull never p = Ok rep /\ or_verdict rep = UNSAT.
Proof.
  exists p_lost. split; [apply wf_dec; reflexivity|].
  split; [exists (fun v => if v =? 1 then 1 else 0); apply model_dec; reflexivity|].
  vm_compute; eauto.
Qed.
Print Assumptions C81_unsat_refuted.

(** The conflict analysis reads outside DECSTACK, whatever ENTAILLITERAL holds. *)
Definition p_walk : problem := mkProblem [3; 3] [[veq 1 2; veq 2 0]; [vne 2 0; veq 1 1]; [veq 1 0; vne 2 0]].
Theorem C81_stack_refuted : exists p, wf p /\ satisfiable p /\
  forall e, o_solve 50 NonChrono e never p = Undef OobStack.
Proof.
  exists p_walk. split; [apply wf_dec; reflexivity|].
  split; [exists (fun v => 2); apply model_dec; reflexivity|]. intros []; reflexivity.
Qed.
Print Assumptions C81_stack_refuted.

Example C81_case :
  wf p_sat /\ (exists rep, o_solve 50 NonChrono PUninit never p_sat = Ok rep /\ or_verdict rep = SAT) /\
  wf p_lost /\ (exists rep, o_solve 50 NonChrono PNull never p_lost = Ok rep /\ or_verdict rep = UNSAT /\ 0 < or_backtracks rep) /\
  wf p_clash /\ (exists rep, o_solve 50 NonChrono PUninit never p_clash = Ok rep /\ or_verdict rep = UNSAT /\ or_decisions rep = 0) /\
  (exists rep, o_solve 50 NonChrono PUninit (at_check 1) p_sat = Ok rep /\ or_verdict rep = TIMEOUT) /\
  (forall k, (1 <= k)%nat -> at_check 1 k = true) /\
  atoms p_lost = 8 /\ literals p_lost = 11 /\ (4 * atoms p_lost + 3) * (literals p_lost + atoms p_lost) <= 1000000000.
Proof.
  split; [apply p_sat_fine|]. split; [vm_compute; eauto|]. split; [apply wf_dec; reflexivity|].
  split; [vm_compute; eauto|]. split; [apply wf_dec; reflexivity|]. split; [vm_compute; eauto|].
  split; [vm_compute; eauto|]. split; [intros k L; apply Nat.leb_le; exact L|].
  split; [reflexivity|]. split; [reflexivity|]. vm_compute. discriminate.
Qed.

(** ** C82: the pointer ENTAILLITERAL *)

(** A run that ends does not depend on what the pointer holds at the start, and ignoring the deletion
    gives the same report; runs without an end are the same too. *)
Theorem C82_same fuel m e clk p :
  match o_solve fuel m e clk p with
  | Ok rep => o_solve fuel m PIgnore clk p = Ok rep
  | Undef u => u = Uninit \/ u = BadPtr \/ o_solve fuel m PIgnore clk p = Undef u
  | OutOfFuel => o_solve fuel m PIgnore clk p = OutOfFuel
  end.
Proof. exact (solve_ptr fuel m e clk p). Qed.
Print Assumptions C82_same.

(** Without the deletion neither error is possible. *)
Theorem C82_ignored fuel m clk p : wf p ->
  o_solve fuel m PIgnore clk p <> Undef Uninit /\ o_solve fuel m PIgnore clk p <> Undef BadPtr.
Proof. exact (ignored fuel m clk p). Qed.
Print Assumptions C82_ignored.

(** With the deletion both are: the pointer is read before it is written, and if the memory held NULL,
    an object is deleted twice. *)
Theorem C82_uninit_refuted : exists p, wf p /\ satisfiable p /\
  forall m, o_solve 50 m PUninit never p = Undef Uninit.
Proof.
  exists (mkProblem [2; 2] [[vne 2 1]]). split; [apply wf_dec; reflexivity|].
  split; [exists (fun v => 0); apply model_dec; reflexivity|]. intros []; reflexivity.
Qed.
Print Assumptions C82_uninit_refuted.

Theorem C82_twice_refuted : exists p, wf p /\ satisfiable p /\
  forall m, o_solve 50 m PNull never p = Undef BadPtr.
Proof.
  exists (mkProblem [3; 3] [[vne 2 1]; [vne 2 2]; [vne 1 0]; [vne 1 1]]). split; [apply wf_dec; reflexivity|].
  split; [exists (fun v => if v =? 1 then 2 else 0); apply model_dec; reflexivity|]. intros []; reflexivity.
Qed.
Print Assumptions C82_twice_refuted.

(** The four kinds of results exist. *)
Example C82_case :
  (exists rep, o_solve 50 Chrono PNull never p_unsat = Ok rep /\ 0 < or_entails rep) /\
  o_solve 50 NonChrono PNull never p_walk = Undef OobStack /\ o_solve 3 Chrono PNull never p_unsat = OutOfFuel.
Proof. split; [vm_compute; eauto|]. split; reflexivity. Qed.
