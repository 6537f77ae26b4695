(** * The whole program

    main (src/Main.cc:26-101) with the functions it calls, from the arguments, the files and the
    input of a run to what it writes.  Different file names are taken to denote different files. *)

From Coq Require Import Ascii String.
From Verif Require Import Spec Outcome State ModelSearch ModelBuild TextSpec ModelText ModelRead ModelCli
  ModelEncode ModelB2f ModelGen ModelMenu.
#[local] Open Scope Z_scope.

(** What a run gets from its environment besides the arguments. *)
Record machine := mkMachine {
  files_of : files;              (* the files that can be opened for reading *)
  writable : text -> bool;       (* the names that can be opened for writing *)
  stdin_of : text;               (* standard input *)
  numbers_of : rnd;              (* the results of rand() *)
  elapsed : nat -> Z;            (* TIME_E - TIME_S at each time check, in seconds, rounded up *)
  time1 : text; time2 : text; time3 : text;  (* the times printed by "%2.4f" *)
  logged : text;                 (* what the search writes under -verbose *)
  missing_return : bool          (* the reading of the missing return, see State.v *)
}.

(** The time checks (Formula.cc:1366-1367, 1459-1460, 1544-1545, 1553-1554): the double TIME_E - TIME_S is
    greater than the int TIMELIMIT, which is the option -time (Formula.cc:44), if and only if it is greater
    after rounding up.  Nothing is assumed about the readings of the clock (GetTime, Global.cc:24-32): it may
    be set back during a run. *)
Definition late_at (w : machine) (limit : Z) (k : nat) : bool := limit <? elapsed w k.

(** What a run leaves behind: its output, its exit status, the files. *)
Record ran := mkRan { screen : text; status : Z; after : files }.

Definition write_file (fs : files) (name content : text) : files :=
  fun g => if text_eqb g name then Some content else fs g.

Definition say (ls : list string) : text := rows ls.

(** Main.cc:29-33 *)
Definition banner : text := say
  [""; "************************************************************************"; "";
   "Finite Domain Sat Solver"; ""; "************************************************************************"]%string.

(** ** SolveFinite (src/SolveFinite.cc:21-94) *)

(** PrintInfo, Formula.cc:227-240 *)
Definition info_text (rep : report) : text :=
  LF :: txt "Decisions   : " ++ num (r_decisions rep) ++ LF ::
  txt "Units       : " ++ num (r_units rep) ++ LF ::
  txt "Backtracks  : " ++ num (r_backtracks rep) ++ LF ::
  txt "Entails     : " ++ num (r_entails rep) ++ LF ::
  txt "Variables   : " ++ num (r_variables rep) ++ LF ::
  txt "Clauses     : " ++ num (r_clauses rep) ++ LF ::
  txt "Restarts   : " ++ num (r_restarts rep) ++ [LF; LF].

(** Literal::Print, Literal.h:61-66 *)
Definition print_lit (l : lit) : text :=
  num (lvar l) ++ txt (if leq l then "=" else "!=") ++ num (lval l) ++ [LF].

(** SolveFinite.cc:75-93 and PrintModel, Formula.cc:217-224; [MODEL] is always true *)
Definition report_text (c : cline) (rep : report) : text :=
  "007"%char :: (match r_verdict rep with SAT => say ["SAT"] | TIMEOUT => say ["TIMEOUT"] | UNSAT => say ["UNSAT"] end)%string ++
  info_text rep ++
  match r_verified rep with
  | None => []
  | Some ok =>
      (if c_model c then
         say ["The model: "%string] ++ List.concat (map print_lit (r_model rep)) ++ (if c_log c then [LF] else [])
       else []) ++
      txt "Verifying model ... " ++ say [if ok then "model is CORRECT" else "model is INCORRECT"]%string
  end.

(** Formula.cc:87-91 *)
Definition no_input : text := say [""; "**** ERROR ****"; "Could not open input file : "; ""]%string.

(** WatchedLiterals announces UNSAT itself, Formula.cc:1378. *)
Definition announced (c : cline) (m : mode) (v : verdict) : text :=
  match m, v with NonChrono, UNSAT => if c_watch c then say ["UNSAT"%string] else [] | _, _ => [] end.

Definition run_solver (fuel : nat) (w : machine) (c : cline) (m : mode) : outcome ran :=
  let* q := solve_finite fuel (missing_return w) (late_at w (c_time c)) (files_of w) c m in
  match q, c_file c with
  | Solved rep _, Some f =>
      Ok (mkRan (banner ++ f ++ txt " " ++ TAB :: time1 w ++ TAB :: (if c_log c then logged w else []) ++
                 announced c m (r_verdict rep) ++ time2 w ++ TAB :: txt " " ++ time3 w ++ TAB :: LF :: LF ::
                 report_text c rep) 0 (files_of w))
  | _, _ => Ok (mkRan (banner ++ no_input) 1 (files_of w))
  end.

(** ** The converters *)

(** The two calls of open and the conversion (LinearEncode.cc:37-56, QuadraticEncode.cc:42-62,
    Boolean2Finite.cc:26-47).  Opening the output file empties it; if it is the input file then
    nothing is left to read. *)
Definition run_convert (conv : text -> outcome text) (no_in no_out : text -> text) (w : machine) (c : cline)
  : outcome ran :=
  match c_file c with
  | None => Undef NullArg
  | Some f =>
      match files_of w f with
      | None => Ok (mkRan (banner ++ no_in f) 1 (files_of w))
      | Some t =>
          match c_model_file c with
          | None => Undef NullArg
          | Some g =>
              if writable w g then
                let* t' := conv (if text_eqb f g then [] else t) in
                Ok (mkRan banner 0 (write_file (files_of w) g t'))
              else Ok (mkRan (banner ++ no_out g) 1 (files_of w))
          end
      end
  end.

Definition no_output : text := say [""; "**** ERROR ****"; "Could not open output file : "; ""]%string.
Definition no_file : text := say [""; "**** ERROR ****"; "Could not open input file"; ""]%string.
(** QuadraticEncode.cc:46-50, 57-61 *)
Definition no_file_named (s : string) (f : text) : text :=
  say [""; "**** ERROR ****"]%string ++ txt s ++ f ++ [LF; LF].

(** ** The generators *)

(** GenBenFunc.cc:112-139, 225-248; the file is opened when the clauses have been drawn. *)
Definition run_generate (gen : cline -> rnd -> outcome text) (w : machine) (c : cline) : outcome ran :=
  let* t := gen c (numbers_of w) in
  match c_file c with
  | None => Undef NullArg
  | Some f =>
      if writable w f then Ok (mkRan banner 0 (write_file (files_of w) f t))
      else Ok (mkRan (banner ++ say [""; "**** ERROR ****"; " Could not open output file to write "; "****       ****"; ""]%string)
                     0 (files_of w))
  end.

(** ** main *)

Definition main (fuel : nat) (args : list text) (w : machine) : outcome ran :=
  let* k := dispatch args in
  match k with
  | Help => let* t := print_help fuel (stdin_of w) in Ok (mkRan (banner ++ t) 1 (files_of w))
  | GenBenFin c => run_generate gen_fin w c
  | GenBenBool c => run_generate gen_bool w c
  | Boolean2Finite c => run_convert boolean2finite (fun _ => no_file) (fun _ => no_file) w c
  | LinearEncode c => run_convert linear_encode (fun _ => no_input) (fun _ => no_output) w c
  | QuadraticEncode c =>
      run_convert quadratic_encode (no_file_named "Could not open input file : ")
        (no_file_named "Could not open output file : ") w c
  | SolveFinite c m => run_solver fuel w c m
  end.
