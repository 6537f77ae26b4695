(** * C89: the range of the counters of the first version

    DECISIONS, UNITS, ENTAILS and BACKTRACKS are ints and the model has integers without bound.  The
    theorems bound them by the size of the input and the number of conflicts, so that the model and
    the program agree as long as the bounds are ints.  For the loop with learning the bound depends
    on the input alone. *)

From Verif Require Import Spec Outcome State ModelSearch ModelBuild ModelOrig OrigSpec TextSpec RangeSpec Observe Cases OrigRange.
#[local] Open Scope Z_scope.

(** The recursive search: decisions, unit clauses and entailed literals together. *)
Theorem C89_chrono fuel e clk p rep : wf p -> o_solve fuel Chrono e clk p = Ok rep ->
  0 <= or_decisions rep /\ 0 <= or_units rep /\ 0 <= or_entails rep /\
  or_decisions rep + or_units rep + or_entails rep <=
    Z.of_nat (length (clauses p)) + (2 * or_backtracks rep + 1) * (atoms p + literals p).
Proof. exact (chrono_range fuel e clk p rep). Qed.
Print Assumptions C89_chrono.

(** The loop with learning. *)
Theorem C89_loop fuel e clk p rep : wf p -> o_solve fuel NonChrono e clk p = Ok rep ->
  0 <= or_decisions rep /\ 0 <= or_units rep /\ 0 <= or_entails rep /\
  or_decisions rep + or_units rep + or_entails rep <=
    (or_backtracks rep + 1) * (Z.of_nat (length (clauses p)) + atoms p + literals p + or_backtracks rep).
Proof. exact (loop_range fuel e clk p rep). Qed.
Print Assumptions C89_loop.

(** So all four are ints for an input that is not too large, whatever the clock does; the number
    of clauses with those that are learned is one as well. *)
Theorem C89_loop_int fuel e clk p rep : wf p -> o_solve fuel NonChrono e clk p = Ok rep ->
  (atoms p + 1) * (Z.of_nat (length (clauses p)) + 2 * atoms p + literals p + 1) <= int_max ->
  forall x, In x [or_decisions rep; or_units rep; or_entails rep; or_backtracks rep; or_clauses rep] -> 0 <= x <= int_max.
Proof. exact (loop_int fuel e clk p rep). Qed.
Print Assumptions C89_loop_int.

(** For the recursive search with the number of backtracks. *)
Theorem C89_chrono_int fuel e clk p rep : wf p -> o_solve fuel Chrono e clk p = Ok rep ->
  Z.of_nat (length (clauses p)) + (2 * or_backtracks rep + 1) * (atoms p + literals p) <= int_max ->
  forall x, In x [or_decisions rep; or_units rep; or_entails rep; or_backtracks rep] -> 0 <= x <= int_max.
Proof. exact (chrono_int fuel e clk p rep). Qed.
Print Assumptions C89_chrono_int.

Definition o_counted (o : outcome oreport) : option (list Z) :=
  match o with Ok r => Some [or_decisions r; or_units r; or_entails r; or_backtracks r; or_clauses r] | _ => None end.

(** 14 and 34 are counted together; the bounds are 258 and 276. *)
Example C89_case :
  wf p_unsat /\ length (clauses p_unsat) = 18%nat /\ atoms p_unsat = 12 /\ literals p_unsat = 36 /\
  o_counted (o_solve 300 Chrono PNull never p_unsat) = Some [2; 7; 5; 2; 18] /\
  o_counted (o_solve 300 NonChrono PIgnore never p_unsat) = Some [5; 19; 10; 3; 21] /\
  (atoms p_unsat + 1) * (Z.of_nat (length (clauses p_unsat)) + 2 * atoms p_unsat + literals p_unsat + 1) <= int_max.
Proof.
  split; [apply wf_dec; reflexivity|]. repeat (split; [vm_compute; reflexivity|]). vm_compute. discriminate.
Qed.
