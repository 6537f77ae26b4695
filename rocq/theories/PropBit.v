(** * Theorems about the second solver (bitvec/)

    [bsolve] is a run of the second solver: the settings say whether decisions use the scores
    ([bvsids]) and whether leaving learnClause without a result is harmless ([blen]), [clk] is the
    clock, [r] the number of conflicts between restarts. *)

From Verif Require Import Spec Outcome State ModelSearch ModelBuild ModelBit BitSpec BitRuns Observe Cases.

Definition plain : bcfg := mkBcfg false true.
Definition scored : bcfg := mkBcfg true true.
Definition bit_out (o : outcome (breport * bst)) : option (verdict * option bool * list (Z * Z)) :=
  match o with Ok (rep, _) => Some (br_verdict rep, br_verified rep, br_model rep) | _ => None end.

(** ** C67: verdicts

    Full statement: every run on a well formed problem ends without undefined behaviour and with
    the right verdict.  Missing: domains with more than 64 values, several clauses that are about
    one variable only, restarts, and programs in which leaving learnClause without a result is not
    harmless.  There the statement is false, see the refutations. *)

Theorem C67_verdict_partial p cf clk r : wf p -> fits64 p -> lone p -> r <= 0 -> blen cf = true ->
  exists N rep s, (forall fuel, (N <= fuel)%nat -> bsolve fuel cf clk r p = Ok (rep, s)) /\
    match br_verdict rep with
    | SAT => map fst (br_model rep) = map Z.of_nat (seq 0 (S (length (doms p)))) /\
        (forall v m, In (v, m) (br_model rep) -> v <> 0 -> exists d, 0 <= d < domsize p v /\ has_value m d) /\
        (forall v m d, In (v, m) (br_model rep) -> has_value m d -> v <> 0 /\ 0 <= d < domsize p v) /\
        (forall a, picks (br_model rep) a -> is_model p a) /\ br_verified rep = Some true
    | UNSAT => ~ satisfiable p
    | TIMEOUT => exists j, clk j = true
    end.
Proof. exact (bit_verdict p cf clk r). Qed.
Print Assumptions C67_verdict_partial.

Example C67_hypotheses : (wf p_sat /\ fits64 p_sat /\ lone p_sat) /\ (wf p_unsat /\ fits64 p_unsat /\ lone p_unsat).
Proof.
  split; (split; [apply wf_dec; reflexivity|split; [|apply loneb_ok; reflexivity]]).
  - exact p_sat_fits.
  - exact p_unsat_fits.
Qed.
Example C67_sat :
  bit_out (bsolve 200 plain never 0 p_sat) = Some (SAT, Some true, [(0, 0); (1, 5); (2, 7); (3, 1); (4, 1)]) /\
  bit_out (bsolve 200 scored never 0 p_sat) = Some (SAT, Some true, [(0, 0); (1, 1); (2, 1); (3, 1); (4, 1)]).
Proof. vm_compute. auto. Qed.
Example C67_unsat :
  bit_out (bsolve 200 plain never 0 p_unsat) = Some (UNSAT, None, []) /\
  bit_out (bsolve 200 scored never 0 p_unsat) = Some (UNSAT, None, []).
Proof. vm_compute. auto. Qed.
Example C67_timeout : bit_out (bsolve 200 plain (at_check 3) 0 p_unsat) = Some (TIMEOUT, None, []).
Proof. vm_compute. auto. Qed.
(** One clause about one variable only is fine. *)
Example C67_one_unit :
  let p := mkProblem [3; 3] [[vne 1 1]; [veq 1 1; vne 2 0]] in
  loneb p = true /\ bit_out (bsolve 200 plain never 0 p) = Some (SAT, Some true, [(0, 0); (1, 5); (2, 6)]).
Proof. vm_compute. auto. Qed.

(** Two clauses with one literal: VARLIST[-1] is read. *)
Theorem C67_units_refuted : exists p, wf p /\ fits64 p /\ satisfiable p /\
  forall vs, bsolve 50 (mkBcfg vs true) never 0 p = Undef OobAtom.
Proof. exact bit_units_bad. Qed.
Print Assumptions C67_units_refuted.

(** A restart sets LEVEL to 0 and takes nothing back; a later conflict is analysed with the reason
    -1 of a decision, and CLAUSELIST[-1] is read. *)
Theorem C67_restart_refuted : exists p, wf p /\ fits64 p /\ lone p /\ satisfiable p /\
  forall vs, bsolve 50 (mkBcfg vs true) never 1 p = Undef OobClause.
Proof. exact bit_restart_bad. Qed.
Print Assumptions C67_restart_refuted.

(** learnClause ends without the result that its type promises. *)
Theorem C67_return_refuted : exists p, wf p /\ fits64 p /\ lone p /\ satisfiable p /\
  forall vs, bsolve 50 (mkBcfg vs false) never 0 p = Undef NoReturn.
Proof. exact bit_return_bad. Qed.
Print Assumptions C67_return_refuted.

(** A domain with 65 values does not fit: bitset throws out_of_range. *)
Theorem C67_domain_refuted : exists p, wf p /\ lone p /\ satisfiable p /\
  forall fuel cf clk r, bsolve fuel cf clk r p = Undef BadBit.
Proof. exact bit_domain_bad. Qed.
Print Assumptions C67_domain_refuted.

(** Domains of size one are not covered by [wf]; for them the verdict can be wrong. *)
Theorem C67_size_one_refuted : exists p, fits64 p /\ lone p /\ ~ satisfiable p /\ exists rep s,
  bsolve 50 (mkBcfg false true) never 0 p = Ok (rep, s) /\ br_verdict rep = SAT /\ br_verified rep = Some false.
Proof. exact bit_one_bad. Qed.
Print Assumptions C67_size_one_refuted.

(** ** C68: the check of the printed sets

    Also with restarts and with several clauses about one variable only. *)

Theorem C68_checked p fuel cf clk r rep s : wf p -> fits64 p -> bsolve fuel cf clk r p = Ok (rep, s) ->
  br_verified rep = Some true -> forall a, picks (br_model rep) a -> is_model p a.
Proof. exact (BitSafe.bit_checked p fuel cf clk r rep s). Qed.
Print Assumptions C68_checked.

Example C68_restart :
  let p := mkProblem [2; 3] [[veq 2 1; veq 1 1]; [veq 2 2; veq 1 1]; [vne 1 1; veq 2 2]; [veq 2 2; veq 1 1]] in
  wfb p = true /\
  match bsolve 200 plain never 1 p with
  | Ok (rep, _) => br_restarts rep = 1 /\ br_verified rep = Some true /\ br_model rep = [(0, 0); (1, 2); (2, 4)]
  | _ => False
  end.
Proof. vm_compute. auto. Qed.

(** ** C69: what is learned and counted *)

Theorem C69_learned p cf clk r : wf p -> fits64 p -> lone p -> r <= 0 -> blen cf = true ->
  exists N rep s, (forall fuel, (N <= fuel)%nat -> bsolve fuel cf clk r p = Ok (rep, s)) /\
    (forall c, In c (bcl s) -> forall a, is_model p a -> set_clause_holds a c) /\
    br_variables rep = nvars p /\ br_clauses rep = Z.of_nat (length (bcl s)) /\
    br_clauses rep = Z.of_nat (length (clauses p)) + br_backtracks rep /\
    0 <= br_backtracks rep /\ br_restarts rep = 0.
Proof. exact (bit_learned p cf clk r). Qed.
Print Assumptions C69_learned.

Example C69_unsat :
  match bsolve 200 plain never 0 p_unsat with
  | Ok (rep, s) => br_backtracks rep = 7 /\ br_clauses rep = 25 /\ nth_error (bcl s) 23 = Some [(1, 1)]
  | _ => False
  end.
Proof. vm_compute. auto. Qed.
