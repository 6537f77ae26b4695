(** * C88: the range of the counters of the second solver

    The counters of the class are ints and the model has integers without bound.  The theorems
    bound the counters by the number of values of the input and the number of conflicts, so that
    the model and the program agree as long as these are small enough.  Nothing is asked of the
    input: also more than 64 values, literals that do not exist and restarts are covered. *)

From Verif Require Import Spec Outcome State ModelSearch ModelBuild ModelBit BitSpec BitStepSpec PropBit TextSpec RangeSpec Cases BitRange.
#[local] Open Scope Z_scope.

(** What a run counts. *)
Theorem C88_counts fuel cf clk r p rep s : bsolve fuel cf clk r p = Ok (rep, s) ->
  0 <= br_decisions rep /\ 0 <= br_units rep /\ br_decisions rep + br_units rep <= (br_backtracks rep + 1) * values p /\
  0 <= br_restarts rep <= br_backtracks rep /\ br_backtracks rep <= Z.of_nat (btick s) /\ br_decisions rep <= Z.of_nat (btick s).
Proof. exact (solve_range fuel cf clk r p rep s). Qed.
Print Assumptions C88_counts.

(** So they are ints if the number of checks of the time, times the number of values, is one. *)
Theorem C88_int fuel cf clk r p rep s : bsolve fuel cf clk r p = Ok (rep, s) ->
  (Z.of_nat (btick s) + 1) * values p <= int_max -> Z.of_nat (btick s) <= int_max ->
  forall x, In x [br_decisions rep; br_units rep; br_backtracks rep; br_restarts rep] -> 0 <= x <= int_max.
Proof. exact (solve_int fuel cf clk r p rep s). Qed.
Print Assumptions C88_int.

(** At each iteration, with the number of assignments in force and the level. *)
Theorem C88_state cf clk r p rc s : bit_reached cf clk r p rc s ->
  0 <= bdec s /\ 0 <= bunits s /\ bdec s + bunits s <= (bback s + 1) * values p /\ 0 <= brest s <= bback s /\
  bback s <= Z.of_nat (btick s) /\ bdec s <= Z.of_nat (btick s) /\ blevel s <= bdec s /\ 0 <= baix s <= values p.
Proof. exact (reached_range cf clk r p rc s). Qed.
Print Assumptions C88_state.

Definition counted_run (o : outcome (breport * bst)) : option (list Z * nat * Z) :=
  match o with Ok (rep, s) => Some ([br_decisions rep; br_units rep; br_backtracks rep; br_restarts rep], btick s, baix s) | _ => None end.

(** 31 and 8 reductions are counted; the bounds are 72 and 36. *)
Example C88_case :
  values p_unsat = 12 /\ values p_sat = 12 /\
  counted_run (bsolve 300 scored never 2 p_unsat) = Some ([5; 26; 5; 2], 12%nat, 8) /\
  counted_run (bsolve 300 plain never 0 p_sat) = Some ([4; 4; 2; 0], 7%nat, 3).
Proof. repeat split; vm_compute; reflexivity. Qed.
