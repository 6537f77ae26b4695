(** * The program of the second solver

    main (bitvec/Main.cc:26-60) with the command line, the menu (bitvec/Global.cc), reading a file
    (bitvec/Formula.cc:61-209) and what is printed (bitvec/SolveFinite.cc).  The scanning of a file
    (bitvec/Formula.cc:94-153) is the same text as in src/Formula.cc, so [read_file] is used. *)

From Coq Require Import Ascii String.
From Verif Require Import Spec Outcome State ModelSearch ModelBuild TextSpec ModelText ModelRead ModelCli ModelGen ModelMenu ModelMain
  ModelBit.
#[local] Open Scope Z_scope.

(** ** The command line *)

(** bitvec/Global.cc:95-106.  The record of ModelCli.v is used; the member VSIDS is [c_heur]
    being [VSIDS] (otherwise [Lazy]); the members SAT, DRAND and BOOL_FINITE do not exist here. *)
Definition bdefault : cline :=
  mkCline true true false (-1) (-1) 3 true 10 false false None None 3600 0 Lazy.

(** bitvec/Global.cc:132-133 *)
Definition with_watch (c : cline) : cline :=
  mkCline (c_model c) true (c_log c) (c_num_var c) (c_num_clause c) (c_clause_size c) (c_sat c) (c_domain c)
    (c_drand c) (c_bool_finite c) (c_file c) (c_model_file c) (c_time c) (c_restarts c) (c_heur c).

(** bitvec/Global.cc:126-152; the second branch for -model is never reached. *)
Definition tb_bit : table :=
  [(txt "-restart", EInt with_restarts); (txt "-verbose", EFlag with_log); (txt "-wl", EFlag with_watch);
   (txt "-vsids", EFlag (with_heur VSIDS)); (txt "-model", EFlag with_model); (txt "-var", EInt with_var);
   (txt "-clause", EInt with_clause); (txt "-clausesize", EInt with_clause_size); (txt "-file", EStr with_file);
   (txt "-model", EStr with_model_file); (txt "-time", EInt with_time)].

(** ParseCommandLine (bitvec/Global.cc:89-162) and the tests of main (Main.cc:40-55): [None] is
    PrintHelp, which does not return. *)
Definition bdispatch (args : list text) : outcome (option cline) :=
  match args with
  | [] => Ok None
  | a :: rest =>
      if text_eqb a (txt "-help") then Ok None
      else if text_eqb a (txt "-solvenc") then let* c := parse_loop tb_bit rest bdefault in Ok (Some c)
      else Ok None
  end.

(** ** The menu *)

(** bitvec/Global.cc:43-47 *)
Definition bmenu_text : text :=
  rows ["**** Menu Options ****";
   " (1) Finite Domain Solver (Non Chronological Backtracking) ";
   " (0) Quit";
   ""]%string ++ txt " Enter Choice now : ".

(** bitvec/Global.cc:54-59 *)
Definition bmenu_0 : text := rows ["    Goodbye!!!     "]%string.

(** bitvec/Global.cc:60-75 *)
Definition bmenu_1 : text := rows
  ["**** Finite Domain Solver (NonChronological Backtracking) Help ****";
   "**** Use the following format to run the program ****";
   "% exe -solvenc -var <int> -clause <int> -file <string> -time <int> ";
   "";
   "where : ";
   "  exe             : * name of executable";
   "  -solvenc        : * option stating to solve the finite domain problem";
   "  -var            : number of variables in benchmark problem";
   "  -clause         : number of clauses in benchmark problem";
   "  -file           : * name of the input file";
   "  -time           : amount of time allowed for solver to run";
   "";
   " * - required fields";
   ""]%string.

(** The switch, bitvec/Global.cc:52-80.  [true]: exit(1) is called. *)
Definition bmenu_case (option : Z) : text * bool :=
  match option with
  | 0 => (bmenu_0, true)
  | 1 => (bmenu_1, false)
  | _ => ([], false)
  end.

(** PrintHelp, bitvec/Global.cc:36-84 (see [menu] in ModelMenu.v). *)
Fixpoint bmenu (fuel : nat) (good : bool) (option : Z) (t : text) : outcome text :=
  match fuel with
  | O => OutOfFuel
  | S fuel' =>
      let '(good, t, option) := cin_int good t option in
      let (out, stop) := bmenu_case option in
      if stop then Ok (bmenu_text ++ LF :: out)
      else
        let* rest := bmenu fuel' good option (getchar (getchar t)) in
        Ok (bmenu_text ++ LF :: out ++ rest)
  end.

(** ** SolveFinite (bitvec/SolveFinite.cc:21-73) *)

(** operator<< for bitset<64>: the digits, highest position first. *)
Fixpoint bits_text (n : nat) (m : Z) : text :=
  match n with
  | O => []
  | S n' => (if Z.testbit m (Z.of_nat n') then "1"%char else "0"%char) :: bits_text n' m
  end.

(** One line of PrintModel, bitvec/Formula.cc:216 *)
Definition bits_line (x : Z * Z) : text := num (fst x) ++ txt "=" ++ bits_text 64 (snd x) ++ [LF].

(** PrintInfo, bitvec/Formula.cc:222-235; ENTAILS is never changed from 0 (Formula.cc:50). *)
Definition binfo_text (rep : breport) : text :=
  LF :: txt "Decisions   : " ++ num (br_decisions rep) ++ LF ::
  txt "Units       : " ++ num (br_units rep) ++ LF ::
  txt "Backtracks  : " ++ num (br_backtracks rep) ++ LF ::
  txt "Entails     : " ++ num 0 ++ LF ::
  txt "Variables   : " ++ num (br_variables rep) ++ LF ::
  txt "Clauses     : " ++ num (br_clauses rep) ++ LF ::
  txt "Restarts   : " ++ num (br_restarts rep) ++ [LF; LF].

(** bitvec/SolveFinite.cc:54-72 *)
Definition breport_text (c : cline) (rep : breport) : text :=
  "007"%char :: (match br_verdict rep with SAT => say ["SAT"] | TIMEOUT => say ["TIMEOUT"] | UNSAT => say ["UNSAT"] end)%string ++
  binfo_text rep ++
  match br_verified rep with
  | None => []
  | Some ok =>
      (if c_model c then
         say ["The model: "%string] ++ List.concat (map bits_line (br_model rep)) ++ (if c_log c then [LF] else [])
       else []) ++
      txt "Verifying model ... " ++ say [if ok then "model is CORRECT" else "model is INCORRECT"]%string
  end.

(** bitvec/Formula.cc:116-118 *)
Definition too_large (is : list item) : text :=
  List.concat (map (fun i => match i with
    | IDom d => if max_domain <? d then say ["Error: domain exceeds MAX_DOMAIN"%string] else []
    | ICls _ => [] end) is).

(** bitvec/Formula.cc:649 *)
Definition bannounced (v : verdict) : text := match v with UNSAT => say ["UNSAT"%string] | _ => [] end.

Definition brun (fuel : nat) (w : machine) (c : cline) : outcome ran :=
  match c_file c with
  | None => Undef NullArg
  | Some f =>
      match files_of w f with
      | None => Ok (mkRan (banner ++ no_input) 1 (files_of w))
      | Some t =>
          if (c_clause_size c <? 0) && negb (Nat.eqb (length (getlines [] t)) 0) then Undef BadAlloc
          else
            let* is := read_file t in
            let* s := bbuild is in
            let* q := bsolve_state fuel (mkBcfg (match c_heur c with VSIDS => true | _ => false end) (missing_return w))
                        (late_at w (c_time c)) (c_restarts c) s in
            let rep := fst q in
            Ok (mkRan (banner ++ too_large is ++ f ++ txt " " ++ TAB :: time1 w ++ TAB :: (if c_log c then logged w else []) ++
                       bannounced (br_verdict rep) ++ time2 w ++ TAB :: txt " " ++ time3 w ++ TAB :: LF :: LF ::
                       breport_text c rep) 0 (files_of w))
      end
  end.

Definition bmain (fuel : nat) (args : list text) (w : machine) : outcome ran :=
  let* k := bdispatch args in
  match k with
  | None => let* t := bmenu fuel true 0 (stdin_of w) in Ok (mkRan (banner ++ t) 1 (files_of w))
  | Some c => brun fuel w c
  end.
