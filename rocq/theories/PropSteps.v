(** * Theorems about the single steps of the search

    Steps.v names the states met during a run ([nc_reached], [wl_reached]: the loop heads of
    NonChronoBacktrack and WatchedLiterals), the conflicts ([.._conflict_at], from the state in
    which it is handled to the state afterwards) and the decisions ([.._decision_at]).
    StepSpec.v holds the vocabulary of the conclusions. *)

From Coq Require Import SpecFloat.
From Verif Require Import Spec Outcome State ModelCounter ModelHeur ModelLearn ModelWatch
  ModelSearch ModelBuild Steps StepSpec Reach StepFacts Cases StepCases.

(** ** C15: learned clauses are consequences of the input *)

Theorem C15_nc_learnt c clk r p rc s :
  wf p -> no_repeats p -> watch c = false -> lenient c = true ->
  nc_reached c clk r p rc s -> only_learnt p s.
Proof.
  intros W N Hw L H. destruct (nc_reached_ok c clk r p rc s W N Hw L H) as (t0 & ST & I & _).
  exact (NI_learnt p t0 s ST I).
Qed.
Print Assumptions C15_nc_learnt.

Theorem C15_wl_learnt c clk r p rc s :
  wf p -> no_repeats p -> watch c = true -> lenient c = true -> heur c <> BK ->
  wl_reached c clk r p rc s -> only_learnt p s.
Proof.
  intros W N Hw L B H. destruct (wl_reached_ok c clk r p rc s W N Hw L B H) as (t0 & ST & I & _).
  exact (WI_learnt p t0 s ST I).
Qed.
Print Assumptions C15_wl_learnt.

(** And in the state in which the run ends. *)
Theorem C15_final_learnt c clk r p fuel rep s :
  wf p -> no_repeats p -> lenient c = true -> (watch c = true -> heur c <> BK) ->
  solve fuel NonChrono c clk r p = Ok (rep, s) -> only_learnt p s.
Proof.
  intros W N L B. destruct (watch c) eqn:Hw.
  - apply wl_final_learnt; auto.
  - apply nc_final_learnt; auto.
Qed.
Print Assumptions C15_final_learnt.

Example C15_case : exists rc s, nc_reached (nc BK) never 0 p_unsat rc s /\
  skipn (length (clauses p_unsat)) (cl s) = [[vne 2 1; veq 3 0; veq 4 0]; [vne 1 0]].
Proof.
  assert (H : option_map (fun x => skipn (length (clauses p_unsat)) (cl (snd x))) (nc_at (nc BK) never 0 p_unsat 6) =
    Some [[vne 2 1; veq 3 0; veq 4 0]; [vne 1 0]]) by (vm_compute; reflexivity).
  destruct (nc_at (nc BK) never 0 p_unsat 6) as [(rc, s)|] eqn:E; [|discriminate].
  exists rc, s. split; [apply (nc_at_reached _ _ _ _ 6); auto|]. injection H as H. exact H.
Qed.

(** ** C17: learned clauses drive the search forward *)

Theorem C17_nc_drives c clk r p rc s rc' s' :
  wf p -> no_repeats p -> watch c = false -> lenient c = true ->
  nc_conflict_at c clk r p rc s rc' s' -> exists C, drives p rc s s' C.
Proof. intros W N Hw L H. apply (nc_conflict_drives c clk r p rc s rc' s'); auto. Qed.
Print Assumptions C17_nc_drives.

Theorem C17_wl_drives c clk r p rc s rc' s' :
  wf p -> no_repeats p -> watch c = true -> lenient c = true -> heur c <> BK ->
  wl_conflict_at c clk r p rc s rc' s' -> exists C, drives p rc s s' C.
Proof. intros W N Hw L B H. apply (wl_conflict_drives c clk r p rc s rc' s'); auto. Qed.
Print Assumptions C17_wl_drives.

(** The first conflict of [p_unsat] under BK, and one under VSIDS that jumps over a level. *)
Example C17_case_nc : exists rc s rc' s', nc_conflict_at (nc BK) never 0 p_unsat rc s rc' s' /\
  show_conflict (rc, s, rc', s') = (2, 1, [[vne 2 1; veq 3 0; veq 4 0]], 9%nat, 4%nat).
Proof.
  assert (H : option_map show_conflict (nc_conflict_number (nc BK) never 0 p_unsat 3) =
    Some (2, 1, [[vne 2 1; veq 3 0; veq 4 0]], 9%nat, 4%nat)) by (vm_compute; reflexivity).
  destruct (nc_conflict_number (nc BK) never 0 p_unsat 3) as [(((rc, s), rc'), s')|] eqn:E; [|discriminate].
  exists rc, s, rc', s'. split; [apply (nc_conflict_found _ _ _ _ 3); auto|]. unfold option_map in H. congruence.
Qed.

Example C17_case_wl : exists rc s rc' s', wl_conflict_at (wl VSIDS) never 0 p_unsat rc s rc' s' /\
  show_conflict (rc, s, rc', s') = (2, 0, [[vne 1 2]], 12%nat, 0%nat).
Proof.
  assert (H : option_map show_conflict (wl_conflict_number (wl VSIDS) never 0 p_unsat 5) =
    Some (2, 0, [[vne 1 2]], 12%nat, 0%nat)) by (vm_compute; reflexivity).
  destruct (wl_conflict_number (wl VSIDS) never 0 p_unsat 5) as [(((rc, s), rc'), s')|] eqn:E; [|discriminate].
  exists rc, s, rc', s'. split; [apply (wl_conflict_found _ _ _ _ 5); auto|]. unfold option_map in H. congruence.
Qed.

(** ** C18: back-jumping restores the search state *)

Theorem C18_nc_restored c clk r p rc s rc' s' :
  wf p -> no_repeats p -> watch c = false -> lenient c = true ->
  nc_conflict_at c clk r p rc s rc' s' -> restored p s (level s') s' /\ counted s'.
Proof. intros W N Hw L H. apply (nc_conflict_drives c clk r p rc s rc' s'); auto. Qed.
Print Assumptions C18_nc_restored.

Theorem C18_wl_restored c clk r p rc s rc' s' :
  wf p -> no_repeats p -> watch c = true -> lenient c = true -> heur c <> BK ->
  wl_conflict_at c clk r p rc s rc' s' -> restored p s (level s') s' /\ watched s'.
Proof. intros W N Hw L B H. apply (wl_conflict_drives c clk r p rc s rc' s'); auto. Qed.
Print Assumptions C18_wl_restored.

Theorem C18_ch_restored c clk p s s' :
  wf p -> watch c = false -> heur c = BK \/ heur c = Lazy ->
  ch_conflict_at c clk p s s' ->
  cl s' = cl s /\ level s' = level s - 1 /\ restored p s (level s') s' /\ counted s'.
Proof. intros W Hw Hh H. exact (ch_conflict_restored c clk p s s' W Hw Hh H). Qed.
Print Assumptions C18_ch_restored.

Example C18_case_ch : exists s s', ch_conflict_at (nc BK) never p_unsat s s' /\ show_ch (s, s') = (2, 1, 9%nat, 4%nat).
Proof.
  assert (H : option_map show_ch (ch_conflict_number (nc BK) never p_unsat 2) = Some (2, 1, 9%nat, 4%nat)) by (vm_compute; reflexivity).
  destruct (ch_conflict_number (nc BK) never p_unsat 2) as [(s, s')|] eqn:E; [|discriminate].
  exists s, s'. split; [apply (ch_conflict_found _ _ _ 2); auto|]. unfold option_map in H. congruence.
Qed.

(** ** C19: the bookkeeping heuristic *)

Theorem C19_nc_bk c clk r p s l :
  wf p -> no_repeats p -> watch c = false -> lenient c = true -> heur c = BK ->
  nc_decision_at c clk r p s l -> bk_choice p s l.
Proof. intros W N Hw L Hh H. exact (nc_bk_choice c clk r p s l W N Hw L Hh H). Qed.
Print Assumptions C19_nc_bk.

Theorem C19_ch_bk c clk p s l :
  wf p -> watch c = false -> heur c = BK -> ch_decision_at c clk p s l -> bk_choice p s l.
Proof. intros W Hw Hh H. exact (ch_bk_choice c clk p s l W Hw Hh H). Qed.
Print Assumptions C19_ch_bk.

(** After a decision at level 1: the scores of the undecided atoms of variables 1 and 2. *)
Example C19_case : exists s l, nc_decision_at (nc BK) never 0 p_unsat s l /\
  (level s, l) = (1, veq 2 1) /\ map (bk_score s 2) [1; 2] = [-2; -2].
Proof.
  assert (H : option_map (fun x => (show_decision x, map (bk_score (fst x) 2) [1; 2])) (nc_decision_number (nc BK) never 0 p_unsat 1) =
    Some ((1, veq 2 1), [-2; -2])) by (vm_compute; reflexivity).
  destruct (nc_decision_number (nc BK) never 0 p_unsat 1) as [(s, l)|] eqn:E; [|discriminate].
  exists s, l. split; [apply (nc_decision_found _ _ _ _ 1); auto|]. unfold option_map, show_decision, fst in H.
  split; congruence.
Qed.

Example C19_case_ch : exists s l, ch_decision_at (nc BK) never p_sat s l /\
  (level s, l) = (0, veq 3 0) /\ (bk_score s 1 1, bk_score s 3 0) = (2, 3).
Proof.
  assert (H : option_map (fun x => (show_decision x, (bk_score (fst x) 1 1, bk_score (fst x) 3 0))) (ch_decision_number (nc BK) never p_sat 0) =
    Some ((0, veq 3 0), (2, 3))) by (vm_compute; reflexivity).
  destruct (ch_decision_number (nc BK) never p_sat 0) as [(s, l)|] eqn:E; [|discriminate].
  exists s, l. split; [apply (ch_decision_found _ _ _ 0); auto|]. unfold option_map, show_decision, fst in H.
  split; congruence.
Qed.

(** ** C20: VSIDS *)

Theorem C20_nc_vsids c clk r p s l :
  wf p -> no_repeats p -> watch c = false -> lenient c = true ->
  nc_decision_at c clk r p s l ->
  (heur c = VSIDS -> vsids_choice false p s l) /\ (heur c = VSIDS_pos -> vsids_choice true p s l).
Proof. intros W N Hw L H. exact (nc_vsids_choice c clk r p s l W N Hw L H). Qed.
Print Assumptions C20_nc_vsids.

Theorem C20_wl_vsids c clk r p s l :
  wf p -> no_repeats p -> watch c = true -> lenient c = true ->
  wl_decision_at c clk r p s l ->
  (heur c = VSIDS -> vsids_choice false p s l) /\ (heur c = VSIDS_pos -> vsids_choice true p s l).
Proof. intros W N Hw L H. exact (wl_vsids_choice c clk r p s l W N Hw L H). Qed.
Print Assumptions C20_wl_vsids.

(** The first decision after two conflicts: [2!=1], learned meanwhile, beats [1!=0]. *)
Example C20_case : exists s l, wl_decision_at (wl VSIDS) never 0 p_unsat s l /\
  (level s, l) = (0, vne 2 1) /\ SFltb (vs s (vne 1 0)) (vs s l) = true.
Proof.
  assert (H : option_map (fun x => (show_decision x, SFltb (vs (fst x) (vne 1 0)) (vs (fst x) (snd x)))) (wl_decision_number (wl VSIDS) never 0 p_unsat 5) =
    Some ((0, vne 2 1), true)) by (vm_compute; reflexivity).
  destruct (wl_decision_number (wl VSIDS) never 0 p_unsat 5) as [(s, l)|] eqn:E; [|discriminate].
  exists s, l. split; [apply (wl_decision_found _ _ _ _ 5); auto|]. unfold option_map, show_decision, fst, snd in H.
  split; congruence.
Qed.
