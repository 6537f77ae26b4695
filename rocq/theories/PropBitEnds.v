(** * Theorems about runs of the second solver that end *)

From Coq Require Import Ascii String Permutation.
From Verif Require Import Spec Outcome State ModelBuild ModelSearch Observe Cases TextSpec ModelText ModelRead CliSpec ModelCli Text Read Cli
  ModelGen ModelMenu ModelMain MainSpec MainFacts MainMore Pipe PropMain FileUnique FileCases
  ModelBit BitSpec BitBuild BitSafe BitRuns PropBit ModelBitMain BitMainSpec BitMainFacts PropBitMain BitEnds BitEndsMain.
#[local] Open Scope char_scope.
#[local] Open Scope Z_scope.

(** ** C77: runs that end are right

    Also for problems with several clauses about one variable only: such a run may read
    VARLIST[-1], and then nothing is said about it.  If it does not, it ends, and what it prints is right. *)

Theorem C77_outcome p cf clk r : wf p -> fits64 p -> r <= 0 -> blen cf = true ->
  exists N, (forall fuel, (N <= fuel)%nat -> bsolve fuel cf clk r p = Undef OobAtom) \/
    exists rep s, (forall fuel, (N <= fuel)%nat -> bsolve fuel cf clk r p = Ok (rep, s)) /\
      match br_verdict rep with
      | SAT => (forall v, 1 <= v <= nvars p -> exists m d, In (v, m) (br_model rep) /\ has_value m d) /\
          (forall a, picks (br_model rep) a -> is_model p a) /\ br_verified rep = Some true
      | UNSAT => ~ satisfiable p
      | TIMEOUT => exists j, clk j = true
      end.
Proof. exact (bit_outcome p cf clk r). Qed.
Print Assumptions C77_outcome.

(** Whatever the settings, the clock and the number of conflicts between restarts: if a run ends and
    no restart has been counted, then the answer is right, and every stored clause follows from
    the problem. *)
Theorem C77_ends p fuel cf clk r rep s : wf p -> fits64 p -> bsolve fuel cf clk r p = Ok (rep, s) -> br_restarts rep = 0 ->
  match br_verdict rep with
  | SAT => (forall v, 1 <= v <= nvars p -> exists m d, In (v, m) (br_model rep) /\ has_value m d) /\
      (forall a, picks (br_model rep) a -> is_model p a) /\ br_verified rep = Some true
  | UNSAT => ~ satisfiable p
  | TIMEOUT => exists j, clk j = true
  end /\
  (forall c, In c (bcl s) -> forall a, is_model p a -> set_clause_holds a c) /\
  br_variables rep = nvars p /\ br_clauses rep = Z.of_nat (length (clauses p)) + br_backtracks rep /\ 0 <= br_backtracks rep.
Proof. exact (bit_finished p fuel cf clk r rep s). Qed.
Print Assumptions C77_ends.

(** Several clauses about one variable only: all three outcomes. *)
Definition p_units : problem := mkProblem [3; 3; 2] [[vne 1 1]; [vne 2 0; veq 3 1]; [veq 3 0]; [veq 1 1; vne 2 2; veq 3 1]].
Definition p_units_un : problem := mkProblem [2; 3; 2] [[veq 1 1]; [vne 2 0]; [veq 1 0; veq 3 1]; [veq 1 0; veq 3 0]; [veq 2 2]].
Definition p_units_bad : problem := mkProblem [3; 3] [[vne 1 0]; [vne 1 1]; [vne 2 0]].

Example C77_units :
  (wfb p_units = true /\ loneb p_units = false /\
    bit_out (bsolve 200 plain never 0 p_units) = Some (SAT, Some true, [(0, 0); (1, 5); (2, 2); (3, 1)])) /\
  (wfb p_units_un = true /\ loneb p_units_un = false /\ bit_out (bsolve 200 scored never 0 p_units_un) = Some (UNSAT, None, [])) /\
  (wfb p_units_bad = true /\ bsolve 200 plain never 0 p_units_bad = Undef OobAtom).
Proof. vm_compute. auto 10. Qed.

(** The number of conflicts before a restart is not reached; learnClause ends without its result and
    is not needed. *)
Example C77_no_restart :
  match bsolve 200 plain never 100 p_unsat with Ok (rep, _) => br_restarts rep = 0 /\ br_verdict rep = UNSAT /\ br_backtracks rep = 7 | _ => False end /\
  match bsolve 200 (mkBcfg false false) never 3 p_units with Ok (rep, _) => br_restarts rep = 0 /\ br_verdict rep = SAT | _ => False end.
Proof. vm_compute. auto 10. Qed.

(** The same for the program: if it ends and shows "Restarts   : 0", then what it shows is right. *)
Theorem C77_program fuel os w f t p r :
  Forall bit_option os -> latest sel_file os None = Some f -> files_of w f = Some t -> 0 <= latest sel_size os 3 ->
  wf p -> fits64 p -> fits_int p -> accepted p t -> lines_below 3000 t ->
  bmain fuel (txt "-solvenc" :: args_of os) w = Ok r ->
  exists v d u b n m k rest,
    r = mkRan (solver_screen f (time1 w) (time2 w) (time3 w)
                 ((if latest sel_verbose os false then logged w else []) ++ (if text_eqb v (txt "UNSAT") then txt "UNSAT" ++ [LF] else []))
                 (answer_lines v d u b 0 n m k ++ rest)) 0 (files_of w) /\
    (k = 0 -> right_sets p (latest sel_verbose os false) (late_at w (latest sel_time os 3600)) v rest /\
              n = nvars p /\ m = Z.of_nat (length (clauses p)) + b /\ 0 <= b).
Proof. exact (bmain_ends fuel os w f t p r). Qed.
Print Assumptions C77_program.

Definition os_some : list opt := [OFile (txt "f"); ORestart 5].
Example C77_program_case : exists r, bmain 200 (txt "-solvenc" :: args_of os_some) w_bit = Ok r /\ status r = 0 /\
  screen r = solver_screen (txt "f") (txt "0.1") (txt "0.2") (txt "0.3") []
    (answer_lines (txt "SAT") 4 4 2 0 4 12 0 ++
     [txt "The model: "; row64 "0" "0000"; row64 "1" "0101"; row64 "2" "0111"; row64 "3" "0001"; row64 "4" "0001";
      txt "Verifying model ... model is CORRECT"]).
Proof. eexists. split; [vm_compute; reflexivity|]. split; vm_compute; reflexivity. Qed.
