(** * Theorems about the decision stack and about propagation

    The states are those of Steps.v: the loop heads ([nc_reached], [wl_reached]), the calls of
    ChronoBacktrack ([ch_called]) and the decisions.  The vocabulary is that of StepSpec.v and
    TrailSpec.v. *)

From Verif Require Import Spec Outcome State ModelCounter ModelHeur ModelLearn ModelWatch
  ModelSearch ModelBuild Steps StepSpec TrailSpec TrailFacts Cases StepCases.

(** ** C45: the decision stack explains the assignment *)

Theorem C45_nc_stack c clk r p rc s :
  wf p -> no_repeats p -> watch c = false -> lenient c = true ->
  nc_reached c clk r p rc s -> stacked p s /\ valued p s /\ explained p s.
Proof. intros W N Hw L H. destruct (nc_reached_shape c clk r p rc s W N Hw L H); tauto. Qed.
Print Assumptions C45_nc_stack.

Theorem C45_wl_stack c clk r p rc s :
  wf p -> no_repeats p -> watch c = true -> lenient c = true -> heur c <> BK ->
  wl_reached c clk r p rc s -> stacked p s /\ valued p s /\ explained p s.
Proof. intros W N Hw L B H. destruct (wl_reached_shape c clk r p rc s W N Hw L B H); tauto. Qed.
Print Assumptions C45_wl_stack.

(** Also when the heuristic is asked. *)
Theorem C45_nc_decision c clk r p s l :
  wf p -> no_repeats p -> watch c = false -> lenient c = true ->
  nc_decision_at c clk r p s l -> stacked p s /\ valued p s /\ explained p s.
Proof. intros W N Hw L H. apply (nc_decision_shape c clk r p s l W N Hw L H). Qed.
Print Assumptions C45_nc_decision.

Theorem C45_wl_decision c clk r p s l :
  wf p -> no_repeats p -> watch c = true -> lenient c = true -> heur c <> BK ->
  wl_decision_at c clk r p s l -> stacked p s /\ valued p s /\ explained p s.
Proof. intros W N Hw L B H. apply (wl_decision_shape c clk r p s l W N Hw L B H). Qed.
Print Assumptions C45_wl_decision.

(** -solvech records no usable reasons for the second branch of a decision; stack and values are
    as above. *)
Theorem C45_ch_stack c clk p s lev :
  wf p -> watch c = false -> heur c = BK \/ heur c = Lazy ->
  ch_called c clk p s lev -> stacked p s /\ valued p s.
Proof. intros W Hw Hh H. destruct (ch_called_shape c clk p s lev W Hw Hh H); tauto. Qed.
Print Assumptions C45_ch_stack.

Theorem C45_ch_decision c clk p s l :
  wf p -> watch c = false -> heur c = BK \/ heur c = Lazy ->
  ch_decision_at c clk p s l -> stacked p s /\ valued p s.
Proof. intros W Hw Hh H. destruct (ch_decision_shape c clk p s l W Hw Hh H) as ((A & B & _) & _). auto. Qed.
Print Assumptions C45_ch_decision.

Definition show_stack (s : state) : list (lit * Z * reason) :=
  map (fun f => (f, level_of s f, CID (tr s) (lvar f) (lval f))) (DST (tr s)).

(** A conflict state with two decisions, propagated literals and entailed ones. *)
Example C45_case : exists rc s, nc_reached (nc BK) never 0 p_unsat rc s /\
  show_stack s = [(veq 1 0, 1, RDec); (vne 4 0, 1, RCls 2); (vne 3 0, 1, RCls 1); (vne 2 0, 1, RCls 0);
    (veq 2 1, 2, RDec); (vne 4 1, 2, RCls 10); (veq 4 2, 2, REnt); (vne 3 2, 2, RCls 17); (veq 3 1, 2, REnt)].
Proof.
  assert (H : option_map (fun x => show_stack (snd x)) (nc_at (nc BK) never 0 p_unsat 3) = Some
    [(veq 1 0, 1, RDec); (vne 4 0, 1, RCls 2); (vne 3 0, 1, RCls 1); (vne 2 0, 1, RCls 0);
    (veq 2 1, 2, RDec); (vne 4 1, 2, RCls 10); (veq 4 2, 2, REnt); (vne 3 2, 2, RCls 17); (veq 3 1, 2, REnt)])
    by (vm_compute; reflexivity).
  destruct (nc_at (nc BK) never 0 p_unsat 3) as [(rc, s)|] eqn:E; [|discriminate].
  exists rc, s. split; [apply (nc_at_reached _ _ _ _ 3); auto|]. injection H as H. exact H.
Qed.

Example C45_case_wl : exists rc s, wl_reached (wl VSIDS) never 0 p_unsat rc s /\
  show_stack s = [(vne 1 0, 1, RDec); (vne 1 1, 2, RDec); (veq 1 2, 2, REnt); (vne 2 2, 2, RCls 12);
    (vne 3 2, 2, RCls 13); (vne 4 2, 2, RCls 14); (vne 2 0, 3, RDec); (veq 2 1, 3, REnt)].
Proof.
  assert (H : option_map (fun x => show_stack (snd x)) (wl_at (wl VSIDS) never 0 p_unsat 3) = Some
    [(vne 1 0, 1, RDec); (vne 1 1, 2, RDec); (veq 1 2, 2, REnt); (vne 2 2, 2, RCls 12);
    (vne 3 2, 2, RCls 13); (vne 4 2, 2, RCls 14); (vne 2 0, 3, RDec); (veq 2 1, 3, REnt)])
    by (vm_compute; reflexivity).
  destruct (wl_at (wl VSIDS) never 0 p_unsat 3) as [(rc, s)|] eqn:E; [|discriminate].
  exists rc, s. split; [apply (wl_at_reached _ _ _ _ 3); auto|]. injection H as H. exact H.
Qed.

(** ** C46: counters and watches are exact, and propagation is complete *)

(** At every loop head, also in conflicts, the counters and occurrence lists are exact. *)
Theorem C46_nc_counted c clk r p rc s :
  wf p -> no_repeats p -> watch c = false -> lenient c = true ->
  nc_reached c clk r p rc s -> counted s /\ recorded s.
Proof. intros W N Hw L H. destruct (nc_reached_shape c clk r p rc s W N Hw L H); tauto. Qed.
Print Assumptions C46_nc_counted.

Theorem C46_ch_counted c clk p s lev :
  wf p -> watch c = false -> heur c = BK \/ heur c = Lazy ->
  ch_called c clk p s lev -> counted s /\ recorded s.
Proof. intros W Hw Hh H. destruct (ch_called_shape c clk p s lev W Hw Hh H); tauto. Qed.
Print Assumptions C46_ch_counted.

Theorem C46_wl_watched c clk r p rc s :
  wf p -> no_repeats p -> watch c = true -> lenient c = true -> heur c <> BK ->
  wl_reached c clk r p rc s -> conflict s = false -> watched s.
Proof. intros W N Hw L B H. destruct (wl_reached_shape c clk r p rc s W N Hw L B H); tauto. Qed.
Print Assumptions C46_wl_watched.

(** When a decision is taken nothing is left to propagate. *)
Theorem C46_nc_propagated c clk r p s l :
  wf p -> no_repeats p -> watch c = false -> lenient c = true ->
  nc_decision_at c clk r p s l -> counted s /\ recorded s /\ propagated s.
Proof. intros W N Hw L H. apply (nc_decision_shape c clk r p s l W N Hw L H). Qed.
Print Assumptions C46_nc_propagated.

Theorem C46_ch_propagated c clk p s l :
  wf p -> watch c = false -> heur c = BK \/ heur c = Lazy ->
  ch_decision_at c clk p s l -> counted s /\ recorded s /\ propagated s.
Proof. intros W Hw Hh H. destruct (ch_decision_shape c clk p s l W Hw Hh H) as ((_ & _ & A & B) & C). auto. Qed.
Print Assumptions C46_ch_propagated.

Theorem C46_wl_propagated c clk r p s l :
  wf p -> no_repeats p -> watch c = true -> lenient c = true -> heur c <> BK ->
  wl_decision_at c clk r p s l -> watched s /\ propagated s.
Proof. intros W N Hw L B H. apply (wl_decision_shape c clk r p s l W N Hw L B H). Qed.
Print Assumptions C46_wl_propagated.

(** The second decision of [p_unsat]: the counters of the clauses, -1 for the satisfied ones. *)
Example C46_case : exists s l, nc_decision_at (nc BK) never 0 p_unsat s l /\
  (level s, l) = (1, veq 2 1) /\
  map (fun n => if clev s n =? -1 then num s n else -1) (seq 0 18) = [-1; -1; -1; -1; -1; -1; -1; -1; -1; 2; 2; 2; -1; -1; -1; 2; 2; 2].
Proof.
  assert (H : option_map (fun x => (show_decision x, map (fun n => if clev (fst x) n =? -1 then num (fst x) n else -1) (seq 0 18)))
    (nc_decision_number (nc BK) never 0 p_unsat 1) = Some ((1, veq 2 1), [-1; -1; -1; -1; -1; -1; -1; -1; -1; 2; 2; 2; -1; -1; -1; 2; 2; 2])) by (vm_compute; reflexivity).
  destruct (nc_decision_number (nc BK) never 0 p_unsat 1) as [(s, l)|] eqn:E; [|discriminate].
  exists s, l. split; [apply (nc_decision_found _ _ _ _ 1); auto|]. unfold option_map, show_decision, fst in H.
  split; congruence.
Qed.

(** With repeated literals the counters count occurrences: clause 2 is left with [3=0] twice. *)
Definition p_twice : problem :=
  mkProblem [3; 3; 3] [[veq 1 0; veq 1 0; vne 2 1]; [vne 1 0]; [veq 2 1; veq 3 0; veq 3 0]; [veq 2 0; veq 3 1]].

Example C46_case_ch : exists s l, ch_decision_at (nc BK) never p_twice s l /\
  (level s, l) = (0, veq 3 0) /\
  map (fun n => if clev s n =? -1 then num s n else -1) (seq 0 4) = [-1; -1; 2; 2].
Proof.
  assert (H : option_map (fun x => (show_decision x, map (fun n => if clev (fst x) n =? -1 then num (fst x) n else -1) (seq 0 4)))
    (ch_decision_number (nc BK) never p_twice 0) = Some ((0, veq 3 0), [-1; -1; 2; 2])) by (vm_compute; reflexivity).
  destruct (ch_decision_number (nc BK) never p_twice 0) as [(s, l)|] eqn:E; [|discriminate].
  exists s, l. split; [apply (ch_decision_found _ _ _ 0); auto|]. unfold option_map, show_decision, fst in H.
  split; congruence.
Qed.
