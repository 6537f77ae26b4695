(** * The program of the first version

    main (original_solver/Main.cc:24-93) with the command line and the menu (original_solver/Global.cc),
    reading a file (original_solver/Formula.cc:54-176) and what is printed
    (original_solver/SolveFinite.cc, Formula.cc:205-216).

    The menu (Global.cc:28-169) has the text of src/Global.cc, so [print_help] is used.
    Boolean2Finite.cc, LinearEncode.cc, QuadraticEncode.cc and GenBenFunc.cc differ from those of src
    in comments and includes only, so [run_convert] and [run_generate] are used. *)

From Coq Require Import Ascii String.
From Verif Require Import Spec Outcome State ModelSearch ModelBuild TextSpec ModelText ModelRead ModelCli
  ModelEncode ModelB2f ModelGen ModelMenu ModelMain ModelOrig.
#[local] Open Scope char_scope.
#[local] Open Scope Z_scope.

(** Main.cc:27 *)
Definition o_banner : text := say [""; "**** Finite Domain Sat Solver - Hemal A Lal ****"]%string.

(** ** The command line *)

(** Global.cc:179-188.  The record of ModelCli.v is used; the members of src/Global.h that do not exist
    here (c_model, c_watch, c_log, c_restarts, c_heur) are never looked at. *)
Definition o_default : cline :=
  mkCline true false false (-1) (-1) 3 true 10 false false (Some (txt "die")) (Some (txt "die")) 3600 0 BK.

(** Global.cc:284-301 and 318-335, twice the same.  The argument -bool is itself passed to atoi, which
    gives 0. *)
Definition tb_orig : table :=
  [(txt "-var", EInt with_var); (txt "-clause", EInt with_clause); (txt "-clausesize", EInt with_clause_size);
   (txt "-bool", EFlag (with_bool 0)); (txt "-file", EStr with_file); (txt "-model", EStr with_model_file);
   (txt "-time", EInt with_time)].

(** The conditions of Global.cc:229-230 ([size] is false) and 305-306, 339-340 ([size] is true). *)
Definition o_missing (size : bool) (c : cline) : outcome bool :=
  if (c_num_var c =? -1) || (c_num_clause c =? -1) || size && (c_clause_size c =? -1) then Ok true
  else match c_file c with None => Undef NullArg | Some f => Ok (text_eqb f (txt "die")) end.

(** ParseCommandLine (Global.cc:173-355) and the tests of main (Main.cc:34-89).  [None]: a required
    option is missing. *)
Definition o_dispatch (args : list text) : outcome (option command) :=
  match args with
  | [] => Ok (Some Help)
  | a :: rest =>
      if text_eqb a (txt "-help") then Ok (Some Help)
      else if text_eqb a (txt "-genben") then
        let* c := parse_loop tb_genben rest o_default in
        let* b := o_missing false c in
        Ok (if b then None else Some (if c_bool_finite c then GenBenFin c else GenBenBool c))
      else if text_eqb a (txt "-b2f") then
        let* c := parse_loop tb_convert rest o_default in Ok (Some (Boolean2Finite c))
      else if text_eqb a (txt "-linenc") then
        let* c := parse_loop tb_convert rest o_default in Ok (Some (LinearEncode c))
      else if text_eqb a (txt "-quadenc") then
        let* c := parse_loop tb_convert rest o_default in Ok (Some (QuadraticEncode c))
      else if text_eqb a (txt "-solvech") then
        let* c := parse_loop tb_orig rest o_default in
        let* b := o_missing true c in
        Ok (if b then None else Some (SolveFinite c Chrono))
      else if text_eqb a (txt "-solvenc") then
        let* c := parse_loop tb_orig rest o_default in
        let* b := o_missing true c in
        Ok (if b then None else Some (SolveFinite c NonChrono))
      else Ok (Some Help)
  end.

(** Global.cc:232-235, 308-311, 342-345 *)
Definition o_incorrect : text :=
  say ["**** INCORRECT COMMANDLINE ****"; " Check Input format using : exe -help"; ""]%string.

(** ** Reading a file *)

(** The condition of Formula.cc:103 after a line that starts with p; [true]: the numbers differ from
    those of the command line.  The variables are uninitialised if no line has set them. *)
Definition o_header (n m : Z) (g : regs) : outcome bool :=
  let* var := get (g_var g) in
  if negb (var =? n) then Ok true
  else let* val := get (g_val g) in Ok (negb (val =? m)).

(** The loop over the lines, Formula.cc:89-171; [None]: the numbers of a problem line differ.
    The scanning of a line is the text of src/Formula.cc, so [read_line] is used. *)
Fixpoint o_read (n m : Z) (g : regs) (o : orig) (ls : list text) : outcome (option orig) :=
  match ls with
  | [] => Ok (Some o)
  | l :: ls' =>
      let* x := read_line g l in
      let (g, i) := x in
      let* wrong := match cstr l with "p" :: _ => o_header n m g | _ => Ok false end in
      if wrong then Ok None
      else
        let* o := match i with Some i => o_add_item o i | None => Ok o end in
        o_read n m g o ls'
  end.

(** Formula.cc:105-108 *)
Definition o_mismatch : text :=
  say ["**** ERROR ****"; " Commandline arguments and file arguments do not match."; ""]%string.

(** The calls of reserve in the constructor, Formula.cc:37-38 and 50: a negative size is an
    exception that nobody catches; NUM_VAR + 1 can overflow; the product of CLAUSE_SIZE and 1.2 must fit
    in an int.  (Whether there is enough memory is not modelled.) *)
Definition o_reserve (c : cline) : outcome unit :=
  if c_num_var c =? 2147483647 then Undef Overflow
  else if c_num_var c <? -1 then Undef BadAlloc
  else if 1789569706 <? c_clause_size c then Undef Overflow
  else if c_clause_size c <? 0 then Undef BadAlloc
  else Ok tt.

(** ** SolveFinite (SolveFinite.cc:21-75) *)

(** PrintInfo, Formula.cc:205-216; the sizes of vectors are printed as int. *)
Definition o_info (rep : oreport) : text :=
  LF :: txt "Number of Decisions   : " ++ num (or_decisions rep) ++ LF ::
  txt "Number of Units       : " ++ num (or_units rep) ++ LF ::
  txt "Number of Backtracks  : " ++ num (or_backtracks rep) ++ LF ::
  txt "Number of Entails     : " ++ num (or_entails rep) ++ LF ::
  txt "Number of Levels      : " ++ num (or_level rep) ++ LF ::
  txt "Number of Variables   : " ++ num (or_variables rep) ++ LF ::
  txt "Number of Clauses     : " ++ num (or_clauses rep) ++ [LF; LF].

(** SolveFinite.cc:60-74 *)
Definition o_report (rep : oreport) : text :=
  (match or_verdict rep with SAT => say ["SAT"] | TIMEOUT => say ["TIMEOUT"] | UNSAT => say ["UNSAT"] end)%string ++
  o_info rep ++
  match or_verified rep with
  | None => []
  | Some ok => txt "Verifying model ... " ++ say [if ok then "model is CORRECT" else "model is INCORRECT"]%string
  end.

(** Formula.cc:918 *)
Definition o_note (rep : oreport) : text :=
  if or_message rep then say ["No Branch Atom selected"%string] else [].

(** [e] is what ENTAILLITERAL holds at the start, see ModelOrig.v. *)
Definition o_run (fuel : nat) (e : entptr) (w : machine) (c : cline) (m : mode) : outcome ran :=
  match c_file c with
  | None => Undef NullArg
  | Some f =>
      do* o_reserve c in
      match files_of w f with
      | None => Ok (mkRan (o_banner ++ no_input) 1 (files_of w))
      | Some t =>
          let* q := o_read (c_num_var c) (c_num_clause c) no_regs (o_init e) (getlines [] t) in
          match q with
          | None => Ok (mkRan (o_banner ++ o_mismatch) 1 (files_of w))
          | Some o =>
              let* q := o_search fuel m (late_at w (c_time c)) (o_check_unit o) in
              let* rep := o_finish q in
              Ok (mkRan (o_banner ++ f ++ txt " " ++ TAB :: time1 w ++ TAB :: o_note rep ++
                         time2 w ++ TAB :: txt " " ++ time3 w ++ TAB :: o_report rep) 0 (files_of w))
          end
      end
  end.

(** ** main *)

(** The output of a function of src, with the first line of this program. *)
Definition o_rebanner (r : ran) : ran :=
  mkRan (o_banner ++ skipn (length banner) (screen r)) (status r) (after r).

Definition o_main (fuel : nat) (e : entptr) (args : list text) (w : machine) : outcome ran :=
  let* k := o_dispatch args in
  match k with
  | None => Ok (mkRan (o_banner ++ o_incorrect) 1 (files_of w))
  | Some (SolveFinite c m) => o_run fuel e w c m
  | Some Help => let* t := print_help fuel (stdin_of w) in Ok (mkRan (o_banner ++ t) 1 (files_of w))
  | Some (GenBenFin c) => let* r := run_generate gen_fin w c in Ok (o_rebanner r)
  | Some (GenBenBool c) => let* r := run_generate gen_bool w c in Ok (o_rebanner r)
  | Some (Boolean2Finite c) =>
      let* r := run_convert boolean2finite (fun _ => no_file) (fun _ => no_file) w c in Ok (o_rebanner r)
  | Some (LinearEncode c) =>
      let* r := run_convert linear_encode (fun _ => no_input) (fun _ => no_output) w c in Ok (o_rebanner r)
  | Some (QuadraticEncode c) =>
      let* r := run_convert quadratic_encode (no_file_named "Could not open input file : ")
                  (no_file_named "Could not open output file : ") w c in Ok (o_rebanner r)
  end.
