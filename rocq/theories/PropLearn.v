(** * Theorems about the clause that is learned

    [nc_conflict_at c clk r p rc s rc' s'] and [wl_conflict_at ...]: some run of the search on [p]
    is in conflict in [s], above level 0, and continues from [s'] after handling it (Steps.v). *)

From Verif Require Import Spec Outcome State ModelSearch ModelBuild Observe Cases Steps StepSpec TrailSpec LearnSpec Uip StepCases.

(** ** C61: which clause is learned *)

(** With counters: the first asserting clause of the resolution along the decision stack that
    starts at the conflicting clause. *)
Theorem C61_nc_learned c clk r p rc s rc' s' :
  wf p -> no_repeats p -> watch c = false -> lenient c = true -> nc_conflict_at c clk r p rc s rc' s' ->
  exists C D, nth_error (cl s) (confcl s) = Some C /\ (forall l, In l C -> is_false s l) /\
    cl s' = cl s ++ [D] /\ learns s C D.
Proof. apply nc_learned. Qed.
Print Assumptions C61_nc_learned.

(** With watched literals the same, except that the first step takes the first watched literal
    among those assigned last. *)
Theorem C61_wl_learned c clk r p rc s rc' s' :
  wf p -> no_repeats p -> watch c = true -> lenient c = true -> heur c <> BK -> wl_conflict_at c clk r p rc s rc' s' ->
  exists C D, nth_error (cl s) (confcl s) = Some C /\ (forall l, In l C -> is_false s l) /\
    cl s' = cl s ++ [D] /\ learns_from s C (w0 s (confcl s)) D.
Proof. apply wl_learned. Qed.
Print Assumptions C61_wl_learned.

(** This determines the clause. *)
Theorem C61_unique s C D D' : learns s C D -> learns s C D' -> D = D'.
Proof. apply learns_unique. Qed.
Print Assumptions C61_unique.

(** Conflicts of runs on [p_unsat]: conflicting clause, learned clause, the decision stack. *)
Definition show_learned (x : Z * state * Z * state) :=
  let '(_, s, _, s') := x in (nth_error (cl s) (confcl s), skipn (length (cl s)) (cl s'), DST (tr s)).

Example C61_case_nc : exists rc s rc' s', nc_conflict_at (nc BK) never 0 p_unsat rc s rc' s' /\
  show_learned (rc, s, rc', s') =
    (Some [vne 2 1; vne 3 1], [[vne 2 1; veq 3 0; veq 4 0]],
     [veq 1 0; vne 4 0; vne 3 0; vne 2 0; veq 2 1; vne 4 1; veq 4 2; vne 3 2; veq 3 1]).
Proof.
  assert (H : option_map show_learned (nc_conflict_number (nc BK) never 0 p_unsat 3) =
    Some (Some [vne 2 1; vne 3 1], [[vne 2 1; veq 3 0; veq 4 0]],
     [veq 1 0; vne 4 0; vne 3 0; vne 2 0; veq 2 1; vne 4 1; veq 4 2; vne 3 2; veq 3 1])) by (vm_compute; reflexivity).
  destruct (nc_conflict_number (nc BK) never 0 p_unsat 3) as [(((rc, s), rc'), s')|] eqn:E; [|discriminate].
  exists rc, s, rc', s'. split; [apply (nc_conflict_found _ _ _ _ 3); auto|]. unfold option_map in H. congruence.
Qed.

Example C61_case_wl : exists rc s rc' s', wl_conflict_at (wl VSIDS) never 0 p_unsat rc s rc' s' /\
  show_learned (rc, s, rc', s') =
    (Some [vne 2 0; vne 4 0], [[vne 1 2]],
     [vne 1 0; vne 1 1; veq 1 2; vne 2 2; vne 3 2; vne 4 2; vne 2 1; veq 2 0; vne 3 0; veq 3 1; vne 4 1; veq 4 0]).
Proof.
  assert (H : option_map show_learned (wl_conflict_number (wl VSIDS) never 0 p_unsat 5) =
    Some (Some [vne 2 0; vne 4 0], [[vne 1 2]],
     [vne 1 0; vne 1 1; veq 1 2; vne 2 2; vne 3 2; vne 4 2; vne 2 1; veq 2 0; vne 3 0; veq 3 1; vne 4 1; veq 4 0]))
    by (vm_compute; reflexivity).
  destruct (wl_conflict_number (wl VSIDS) never 0 p_unsat 5) as [(((rc, s), rc'), s')|] eqn:E; [|discriminate].
  exists rc, s, rc', s'. split; [apply (wl_conflict_found _ _ _ _ 5); auto|]. unfold option_map in H. congruence.
Qed.
