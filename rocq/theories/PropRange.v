(** * C66: the range of the counters

    The counters of the class are ints and the model has integers without bound.  The theorems
    bound the counters by the size of the input and the number of conflicts, so that the model and
    the program agree as long as these are small enough. *)

From Verif Require Import Spec Outcome State ModelSearch ModelBuild TextSpec StepSpec TrailSpec Steps Runs Cases
  RangeSpec Range RangeFacts.

(** What a run counts. *)
Theorem C66_counts m c clk r p fuel rep s :
  setting m c -> input m p -> solve fuel m c clk r p = Ok (rep, s) ->
  0 <= r_decisions rep /\ 0 <= r_units rep /\ 0 <= r_entails rep /\
  r_decisions rep + r_units rep + r_entails rep <= (r_backtracks rep + 1) * values p /\
  0 <= r_restarts rep <= r_backtracks rep /\
  r_backtracks rep <= Z.of_nat (tick s) /\ r_decisions rep <= Z.of_nat (tick s).
Proof. exact (counts m c clk r p fuel rep s). Qed.
Print Assumptions C66_counts.

(** So they are ints if the number of checks of the time, times the number of values, is one. *)
Theorem C66_int m c clk r p fuel rep s :
  setting m c -> input m p -> solve fuel m c clk r p = Ok (rep, s) ->
  (Z.of_nat (tick s) + 1) * values p <= int_max -> Z.of_nat (tick s) <= int_max ->
  forall x, In x (counters s) -> 0 <= x <= int_max.
Proof. exact (counters_int m c clk r p fuel rep s). Qed.
Print Assumptions C66_int.

(** At each iteration of the learning searches: the level and the positions on the decision stack
    are bounded by the number of values, the next restart by the number of conflicts. *)
Theorem C66_nc c clk r p rc s :
  wf p -> no_repeats p -> watch c = false -> lenient c = true -> nc_reached c clk r p rc s ->
  0 <= level s <= values p /\ Z.of_nat (length (DST (tr s))) <= values p /\
  (forall f, In f (DST (tr s)) -> 0 <= AIDX (tr s) (lvar f) (lval f) < values p) /\
  decisions s + units s + entails s <= (backtracks s + 1) * values p /\
  0 <= restarts s <= backtracks s /\ (0 < r -> backtracks s < rc <= backtracks s + r) /\ (r <= 0 -> rc = r).
Proof. exact (nc_bounds c clk r p rc s). Qed.
Print Assumptions C66_nc.

Theorem C66_wl c clk r p rc s :
  wf p -> no_repeats p -> watch c = true -> lenient c = true -> heur c <> BK -> wl_reached c clk r p rc s ->
  0 <= level s <= values p /\ Z.of_nat (length (DST (tr s))) <= values p /\
  (forall f, In f (DST (tr s)) -> 0 <= AIDX (tr s) (lvar f) (lval f) < values p) /\
  decisions s + units s + entails s <= (backtracks s + 1) * values p /\
  0 <= restarts s <= backtracks s /\ (0 < r -> backtracks s < rc <= backtracks s + r) /\ (r <= 0 -> rc = r).
Proof. exact (wl_bounds c clk r p rc s). Qed.
Print Assumptions C66_wl.

(** 69, 74 and 60 atoms are counted; the bounds are 96, 96 and 132. *)
Example C66_case :
  let q o := match o with Ok (rep, s) => Some (counters s, tick s) | _ => None end in
  values p_unsat = 12 /\
  q (solve 300 NonChrono (nc Lazy) never 2 p_unsat) = Some ([10; 33; 26; 7; 3; 10], 19%nat) /\
  q (solve 300 NonChrono (wl Lazy) never 1 p_unsat) = Some ([16; 34; 24; 7; 7; 10], 25%nat) /\
  q (solve 300 Chrono (nc BK) never 0 p_unsat) = Some ([9; 26; 25; 10; 0; 0], 38%nat).
Proof. vm_compute. auto. Qed.
