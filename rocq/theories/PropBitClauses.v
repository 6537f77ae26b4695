(** * Theorems about the clauses and counters of the second solver *)

From Coq Require Import Ascii String Permutation.
From Verif Require Import Spec Outcome State ModelBuild ModelSearch Observe Cases TextSpec ModelText ModelRead CliSpec ModelCli Text Read Cli
  ModelGen ModelMenu ModelMain MainSpec MainFacts MainMore Pipe PropMain FileUnique FileCases
  ModelBit BitSpec BitStepSpec BitBuild BitSafe BitRuns PropBit ModelBitMain BitMainSpec BitMainFacts PropBitMain BitClauses BitClausesMain.
#[local] Open Scope char_scope.
#[local] Open Scope Z_scope.

(** ** C78: clauses and counters, also with restarts

    [r] is the argument of -restart.  At the start of each iteration every stored clause follows
    from the problem, one clause has been added for each conflict, and the search has been restarted after every
    [r]-th conflict. *)
Theorem C78_state p cf clk r rc s : wf p -> fits64 p -> bit_reached cf clk r p rc s ->
  (forall c, In c (bcl s) -> forall a, is_model p a -> set_clause_holds a c) /\
  Z.of_nat (length (bcl s)) = Z.of_nat (length (clauses p)) + bback s /\ 0 <= bback s /\
  brest s = (if 0 <? r then bback s / r else 0).
Proof. exact (bit_clauses p cf clk r rc s). Qed.
Print Assumptions C78_state.

(** The same at the end of a run. *)
Theorem C78_end p fuel cf clk r rep s : wf p -> fits64 p -> bsolve fuel cf clk r p = Ok (rep, s) ->
  (forall c, In c (bcl s) -> forall a, is_model p a -> set_clause_holds a c) /\
  br_variables rep = nvars p /\ br_clauses rep = Z.of_nat (length (clauses p)) + br_backtracks rep /\ 0 <= br_backtracks rep /\
  br_restarts rep = (if 0 <? r then br_backtracks rep / r else 0) /\
  (br_verdict rep = TIMEOUT -> exists j, clk j = true).
Proof. exact (bit_report p fuel cf clk r rep s). Qed.
Print Assumptions C78_end.

Example C78_restarted :
  match bsolve 300 scored never 2 p_unsat with
  | Ok (rep, s) => br_verdict rep = UNSAT /\ br_backtracks rep = 5 /\ br_restarts rep = 2 /\ br_clauses rep = 23
  | _ => False
  end /\
  match bsolve 300 plain never 2 p_sat with
  | Ok (rep, s) => br_verdict rep = SAT /\ br_backtracks rep = 2 /\ br_restarts rep = 1 /\ br_verified rep = Some true
  | _ => False
  end.
Proof. vm_compute. auto 10. Qed.

(** The program: the lines Variables, Clauses and Restarts are determined by the line Backtracks,
    the file and the options. *)
Theorem C78_program fuel os w f t p r :
  Forall bit_option os -> latest sel_file os None = Some f -> files_of w f = Some t -> 0 <= latest sel_size os 3 ->
  wf p -> fits64 p -> fits_int p -> accepted p t -> lines_below 3000 t ->
  bmain fuel (txt "-solvenc" :: args_of os) w = Ok r ->
  exists v d u b rest, 0 <= b /\
    r = mkRan (solver_screen f (time1 w) (time2 w) (time3 w)
                 ((if latest sel_verbose os false then logged w else []) ++ (if text_eqb v (txt "UNSAT") then txt "UNSAT" ++ [LF] else []))
                 (answer_lines v d u b 0 (nvars p) (Z.of_nat (length (clauses p)) + b)
                    (if 0 <? latest sel_restart os 0 then b / latest sel_restart os 0 else 0) ++ rest)) 0 (files_of w).
Proof. exact (bmain_counts fuel os w f t p r). Qed.
Print Assumptions C78_program.

Definition os_two : list opt := [OFile (txt "f"); ORestart 2].
Example C78_program_case : Forall bit_option os_two /\ exists r, bmain 300 (txt "-solvenc" :: args_of os_two) w_bit = Ok r /\ status r = 0 /\
  screen r = solver_screen (txt "f") (txt "0.1") (txt "0.2") (txt "0.3") []
    (answer_lines (txt "SAT") 4 4 2 0 4 12 1 ++
     [txt "The model: "; row64 "0" "0000"; row64 "1" "0101"; row64 "2" "0111"; row64 "3" "0001"; row64 "4" "0001";
      txt "Verifying model ... model is CORRECT"]).
Proof.
  split; [repeat constructor; vm_compute; congruence|].
  eexists. split; [vm_compute; reflexivity|]. split; vm_compute; reflexivity.
Qed.
