(** * Theorems about the option -time

    [elapsed w k] is the time that the check number [k] of a run reads, in seconds and rounded up.  Nothing is
    assumed about it. *)

From Coq Require Import Ascii String.
From Verif Require Import Spec Outcome State ModelBuild ModelSearch Observe Cases TextSpec ModelText ModelRead CliSpec ModelCli Text Read Cli
  ModelGen ModelMenu ModelMain MainSpec MainFacts MainMore PropMain FileUnique FileCases
  ModelBit BitSpec BitBuild PropBit BitMainSpec ModelBitMain PropBitMain ModelOrig OrigSpec ModelOrigMain OrigMainSpec PropOrig PropOrigMain TimeFacts OrigTick.
#[local] Open Scope Z_scope.

(** ** C86: when the answer is TIMEOUT *)

(** The program of src.  The checks [0 .. k] are made; all but the last have not seen the limit exceeded, and
    the answer is TIMEOUT if and only if the last one has.  At least as many checks as decisions are made
    before the last one, and at most two for each decision and each conflict, and one. *)
Theorem C86_solver args c m w f t p :
  dispatch args = Ok (SolveFinite c m) -> c_file c = Some f -> files_of w f = Some t -> 0 <= c_clause_size c ->
  missing_return w = true ->
  wf p -> (m = NonChrono -> no_repeats p) -> fits_int p -> accepted p t -> lines_below 3000 t ->
  exists N v rest d u b e n r k,
    (forall j, (j < k)%nat -> elapsed w j <= c_time c) /\ (v = txt "TIMEOUT" <-> c_time c < elapsed w k) /\
    d <= Z.of_nat k <= 2 * (d + b) + 1 /\
    forall fuel, (N <= fuel)%nat ->
      main fuel args w =
      Ok (mkRan (solver_screen f (time1 w) (time2 w) (time3 w) ((if c_log c then logged w else []) ++ early c m v)
                   (answer_lines v d u b e (nvars p) n r ++ rest)) 0 (files_of w)).
Proof. exact (solver_clock args c m w f t p). Qed.
Print Assumptions C86_solver.

(** The same of each run of the program of bitvec that ends. *)
Theorem C86_bitvec fuel os w f t p r :
  Forall bit_option os -> latest sel_file os None = Some f -> files_of w f = Some t -> 0 <= latest sel_size os 3 ->
  wf p -> fits64 p -> fits_int p -> accepted p t -> lines_below 3000 t ->
  bmain fuel (txt "-solvenc" :: args_of os) w = Ok r ->
  exists v d u b n m q rest k,
    r = mkRan (solver_screen f (time1 w) (time2 w) (time3 w)
                 ((if latest sel_verbose os false then logged w else []) ++ (if text_eqb v (txt "UNSAT") then txt "UNSAT" ++ [LF] else []))
                 (answer_lines v d u b 0 n m q ++ rest)) 0 (files_of w) /\
    (forall j, (j < k)%nat -> elapsed w j <= latest sel_time os 3600) /\ (v = txt "TIMEOUT" <-> latest sel_time os 3600 < elapsed w k) /\
    d <= Z.of_nat k <= d + b + 1.
Proof. exact (bmain_clock fuel os w f t p r). Qed.
Print Assumptions C86_bitvec.

(** The same of each run of the first version that ends; [n] checks are made.  The recursive search makes at least two checks
    for each decision, and at most two for each decision and each backtrack, and two unless the answer is UNSAT;
    the learning search makes at least one for each decision and each conflict. *)
Theorem C86_original_clock fuel e learning os w f p r : good_run os (files_of w) f p ->
  o_main fuel e (solve_word learning :: args_of os) w = Ok r ->
  exists v note rest d u b k l n c,
    screen r = orig_screen f (time1 w) (time2 w) (time3 w) note (orig_answer v d u b k l (nvars p) c ++ rest) /\
    (v = txt "TIMEOUT" -> exists i, n = S i /\ latest sel_time os 3600 < elapsed w i /\
       forall j, (j < i)%nat -> elapsed w j <= latest sel_time os 3600) /\
    (v <> txt "TIMEOUT" -> forall j, (j < n)%nat -> elapsed w j <= latest sel_time os 3600) /\
    (if learning then d + b <= Z.of_nat n
     else 2 * d <= Z.of_nat n <= 2 * (d + b) + (if text_eqb v (txt "UNSAT") then 0 else 2)).
Proof. exact (omain_clock fuel e learning os w f p r). Qed.
Print Assumptions C86_original_clock.

(** The first version: a limit that is exceeded at the first check is noticed before anything is assigned. *)
Theorem C86_original fuel e learning os w f p : good_run os (files_of w) f p -> clauses p <> [] -> latest sel_time os 3600 < elapsed w 0 ->
  o_main (S fuel) e (solve_word learning :: args_of os) w =
  Ok (mkRan (orig_screen f (time1 w) (time2 w) (time3 w) [] (orig_answer (txt "TIMEOUT") 0 0 0 0 0 (nvars p) (Z.of_nat (length (clauses p)))))
        0 (files_of w)).
Proof. exact (omain_late fuel e learning os w f p). Qed.
Print Assumptions C86_original.

(** A machine on which five seconds pass between two checks. *)
Definition slow (p : problem) : machine :=
  mkMachine (two_files (txt "f") (layout p) (txt "g") []) (fun _ => true) [] [] (fun k => 5 * Z.of_nat k) (txt "0.1") (txt "0.2") (txt "0.3") [] true.
Definition word_of (q : outcome ran) : text :=
  match q with Ok r => match getlines [] (screen r) with _ :: _ :: _ :: _ :: _ :: _ :: _ :: _ :: l :: _ => l | _ => [] end | _ => [] end.

(** With a limit of 4 seconds the second check is late, with 19 the fifth one; the run has enough time with 20. *)
Example C86_case :
  map (fun t => word_of (main 100 (map txt ["-solvenc"; "-time"; t; "-file"; "f"]%string) (slow p_sat))) ["-1"; "4"; "19"; "20"]%string =
    map (fun s => BEL :: txt s) ["TIMEOUT"; "TIMEOUT"; "TIMEOUT"; "SAT"]%string /\
  map (fun t => word_of (main 100 (map txt ["-solvech"; "-file"; "f"; "-time"; t]%string) (slow p_unsat))) ["0"; "139"; "5000"]%string =
    map (fun s => BEL :: txt s) ["TIMEOUT"; "TIMEOUT"; "UNSAT"]%string /\
  map (fun t => word_of (bmain 100 (map txt ["-solvenc"; "-file"; "f"; "-time"; t]%string) (slow p_sat))) ["-1"; "29"; "30"]%string =
    map (fun s => BEL :: txt s) ["TIMEOUT"; "TIMEOUT"; "SAT"]%string.
Proof. split; [|split]; vm_compute; reflexivity. Qed.

Example C86_case_original : latest sel_time (os_orig 2 3 ++ [OTime (-1)]) 3600 < elapsed (slow p_half) 0 /\
  exists r, o_main 1 PUninit (solve_word true :: args_of (os_orig 2 3 ++ [OTime (-1)])) (slow p_half) = Ok r /\
  screen r = orig_screen (txt "f") (txt "0.1") (txt "0.2") (txt "0.3") [] (orig_answer (txt "TIMEOUT") 0 0 0 0 0 2 3).
Proof. split; [reflexivity|]. eexists. split; vm_compute; reflexivity. Qed.

(** Checks at 0, 5, 10 and 15 seconds: the last of the four is late with a limit of 14. *)
Example C86_case_clock :
  map (fun t => match o_main 50 PNull (solve_word false :: args_of (os_orig 2 3 ++ [OTime t])) (slow p_half) with
                | Ok r => text_eqb (screen r) (orig_screen (txt "f") (txt "0.1") (txt "0.2") (txt "0.3") [] (orig_answer (txt "UNSAT") 1 1 1 0 0 2 3))
                | _ => false end) [4; 14; 15; 100] = [false; false; true; true] /\
  exists r, o_main 50 PNull (solve_word false :: args_of (os_orig 2 3 ++ [OTime 14])) (slow p_half) = Ok r /\
    screen r = orig_screen (txt "f") (txt "0.1") (txt "0.2") (txt "0.3") [] (orig_answer (txt "TIMEOUT") 1 1 0 0 1 2 3).
Proof. split; [vm_compute; reflexivity|]. eexists. split; [vm_compute; reflexivity|]. vm_compute. reflexivity. Qed.
