(** * What the decision heuristics go by *)

From Coq Require Import Floats.SpecFloat.
From Verif Require Import Spec Outcome State ModelCounter ModelHeur ModelLearn ModelWatch
  ModelSearch ModelBuild Steps StepSpec Reach StepFacts Cases StepCases
  ScoreSpec ScoreFacts LazySpec LazyFacts.

(** ** C43: the VSIDS scores are a function of the clauses *)

Theorem C43_nc c clk r p rc s :
  wf p -> no_repeats p -> watch c = false -> lenient c = true ->
  nc_reached c clk r p rc s -> scores_are c p s.
Proof. intros W N Hw L H. exact (scored_are c p s (nc_reached_scored c clk r p rc s W N Hw L H)). Qed.
Print Assumptions C43_nc.

Theorem C43_wl c clk r p rc s :
  wf p -> no_repeats p -> watch c = true -> lenient c = true -> heur c <> BK ->
  wl_reached c clk r p rc s -> scores_are c p s.
Proof. intros W N Hw L B H. exact (scored_are c p s (wl_reached_scored c clk r p rc s W N Hw L B H)). Qed.
Print Assumptions C43_wl.

(** When a decision is taken, the last learned clause is included already. *)
Theorem C43_nc_decision c clk r p s l :
  wf p -> no_repeats p -> watch c = false -> lenient c = true ->
  nc_decision_at c clk r p s l -> scores_are c p s.
Proof. intros W N Hw L H. exact (scored_are c p s (nc_decision_scored c clk r p s l W N Hw L H)). Qed.
Print Assumptions C43_nc_decision.

Theorem C43_wl_decision c clk r p s l :
  wf p -> no_repeats p -> watch c = true -> lenient c = true -> heur c <> BK ->
  wl_decision_at c clk r p s l -> scores_are c p s.
Proof. intros W N Hw L B H. exact (scored_are c p s (wl_decision_scored c clk r p s l W N Hw L B H)). Qed.
Print Assumptions C43_wl_decision.

Definition quarters (x : spec_float) : option Z :=
  match x with
  | S754_zero _ => Some 0
  | S754_finite false m e => if Z.pos m * 4 mod 2 ^ (- e) =? 0 then Some (Z.pos m * 4 / 2 ^ (- e)) else None
  | _ => None
  end.

(** The first decision after two conflicts.  [1!=0] occurs three times in the input and in no
    learned clause: (3/2)/2 = 3/4.  [2!=1] occurs three times in the input and once in the first
    learned clause: ((3+1)/2)/2 = 1. *)
Example C43_case : exists s l a b, wl_decision_at (wl VSIDS) never 0 p_unsat s l /\ cl s = clauses p_unsat ++ [a; b] /\
  map (fun x => quarters (vs s x)) [vne 1 0; vne 2 1] = [Some 3; Some 4] /\
  map (fun x => quarters (score false (clauses p_unsat) [a; b] x)) [vne 1 0; vne 2 1] = [Some 3; Some 4].
Proof.
  assert (H : option_map (fun x => let s := fst x in
      (skipn 18 (cl s), firstn 18 (cl s), map (fun x => quarters (vs s x)) [vne 1 0; vne 2 1]))
      (wl_decision_number (wl VSIDS) never 0 p_unsat 5) =
    Some ([[vne 2 1; veq 4 2; veq 3 2]; [vne 1 2]], clauses p_unsat, [Some 3; Some 4])) by (vm_compute; reflexivity).
  destruct (wl_decision_number (wl VSIDS) never 0 p_unsat 5) as [(s, l)|] eqn:E; [|discriminate].
  unfold option_map, fst in H. cbv zeta in H. apply (f_equal (fun o => match o with Some x => x | None => ([], [], []) end)) in H.
  apply pair_equal_spec in H. destruct H as (H & H3). apply pair_equal_spec in H. destruct H as (H1 & H2).
  exists s, l, [vne 2 1; veq 4 2; veq 3 2], [vne 1 2].
  split; [apply (wl_decision_found _ _ _ _ 5); auto|]. split; [|split; [exact H3|vm_compute; reflexivity]].
  rewrite <- (firstn_skipn 18 (cl s)), H1, H2. reflexivity.
Qed.

(** ** C44: the lazy heuristics *)

Theorem C44_nc c clk r p s l :
  wf p -> no_repeats p -> watch c = false -> lenient c = true -> heur c = Lazy ->
  nc_decision_at c clk r p s l -> lazy_choice s l.
Proof. intros W N Hw L Hh H. exact (nc_lazy_choice c clk r p s l W N Hw L Hh H). Qed.
Print Assumptions C44_nc.

Theorem C44_ch c clk p s l :
  wf p -> watch c = false -> heur c = Lazy -> ch_decision_at c clk p s l -> lazy_choice s l.
Proof. intros W Hw Hh H. exact (ch_lazy_choice c clk p s l W Hw Hh H). Qed.
Print Assumptions C44_ch.

Theorem C44_wl c clk r p s l :
  wf p -> no_repeats p -> watch c = true -> lenient c = true -> heur c = Lazy ->
  wl_decision_at c clk r p s l -> lazy_watch_choice s l.
Proof. intros W N Hw L Hh H. exact (wl_lazy_choice c clk r p s l W N Hw L Hh H). Qed.
Print Assumptions C44_wl.

(** The values of the literals of the first clauses; a choice past a false literal. *)
Definition show_first (x : state * lit) : lit * list (list aval) :=
  (snd x, map (map (fun l => ASG (tr (fst x)) (lvar l) (lval l))) (firstn 2 (cl (fst x)))).

Example C44_case_nc : exists s l, nc_decision_at (nc Lazy) never 0 p_sat s l /\
  show_first (s, l) = (veq 2 0, [[Neg; Un; Un; Un]; [Neg; Un; Un; Un]]).
Proof.
  assert (H : option_map show_first (nc_decision_number (nc Lazy) never 0 p_sat 4) =
    Some (veq 2 0, [[Neg; Un; Un; Un]; [Neg; Un; Un; Un]])) by (vm_compute; reflexivity).
  destruct (nc_decision_number (nc Lazy) never 0 p_sat 4) as [(s, l)|] eqn:E; [|discriminate].
  exists s, l. split; [apply (nc_decision_found _ _ _ _ 4); auto|]. unfold option_map in H. congruence.
Qed.

Example C44_case_ch : exists s l, ch_decision_at (nc Lazy) never p_sat s l /\
  show_first (s, l) = (veq 3 0, [[Pos; Un; Un; Un]; [Pos; Un; Un; Un]]).
Proof.
  assert (H : option_map show_first (ch_decision_number (nc Lazy) never p_sat 1) =
    Some (veq 3 0, [[Pos; Un; Un; Un]; [Pos; Un; Un; Un]])) by (vm_compute; reflexivity).
  destruct (ch_decision_number (nc Lazy) never p_sat 1) as [(s, l)|] eqn:E; [|discriminate].
  exists s, l. split; [apply (ch_decision_found _ _ _ 1); auto|]. unfold option_map in H. congruence.
Qed.

Example C44_case_wl : exists s l, wl_decision_at (wl Lazy) never 0 p_sat s l /\
  show_first (s, l) = (veq 3 0, [[Neg; Un; Pos; Un]; [Neg; Un; Neg; Un]]).
Proof.
  assert (H : option_map show_first (wl_decision_number (wl Lazy) never 0 p_sat 5) =
    Some (veq 3 0, [[Neg; Un; Pos; Un]; [Neg; Un; Neg; Un]])) by (vm_compute; reflexivity).
  destruct (wl_decision_number (wl Lazy) never 0 p_sat 5) as [(s, l)|] eqn:E; [|discriminate].
  exists s, l. split; [apply (wl_decision_found _ _ _ _ 5); auto|]. unfold option_map in H. congruence.
Qed.
