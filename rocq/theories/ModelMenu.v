(** * The menu

    PrintHelp (src/Global.cc:36-176), which main enters without arguments, for -help and for an
    unknown first argument (Global.cc:204-216, Main.cc:42-45, 90-93).  It reads numbers with
    [cin >> option] and skips characters with getchar(); both read the same stream, standard
    input, modelled as the text [t] that is left of it. *)

From Coq Require Import Ascii String.
From Verif Require Import Spec Outcome TextSpec ModelText.
#[local] Open Scope char_scope.
#[local] Open Scope Z_scope.

Definition rows (ls : list string) : text := unlines (map txt ls).

(** Global.cc:43-52; the last line is not ended. *)
Definition menu_text : text :=
  rows ["**** Menu Options ****";
   " (1) Generate Benchmark Problems ";
   " (2) Finite Domain Solver (Chronological Backtracking) ";
   " (3) Finite Domain Solver (Non Chronological Backtracking) ";
   " (4) Convert Boolean to Finite ";
   " (5) Convert Finite to Boolean : Linear Encoding";
   " (6) Convert Finite to Boolean : Quadratic Encoding";
   " (0) Quit";
   ""]%string ++ txt " Enter Choice now : ".

(** Global.cc:59-64 *)
Definition menu_0 : text := rows
  ["    Goodbye!!!     "]%string.

(** Global.cc:65-88 *)
Definition menu_1 : text := rows
  ["**** Generating Benchmark Problem Help ****";
   "**** Use the following format to run the program ****";
   "% exe -genben -var <int> -clause <int> -clausesize <int> -sat <1/0>";
   "      -domain <int> -drand <1/0> -file <string>";
   "";
   "where : ";
   "  exe             : * name of executable";
   "  -genben         : * option stating create benchmark problem";
   "  -var            : * number of variables in benchmark problem";
   "  -clause         : * number of clauses in benchmark problem";
   "  -clausesize     :   number of atoms in each clause, [DEFAULT : 3]";
   "  -sat            :   states whether this benchmark problem is satisfiable or not";
   "                      [possible value : 1/0] [default : 1/true]";
   "  -domain         :   states the domain size of each variables, [DEFAULT : 10]";
   "  -drand          :   states whether to assign domain size of each variable randomly";
   "                      [possible value : 1/0] [DEFAULT : 0/false]";
   "  -bool           :   states whether the file is in boolean cnf or modified cnf";
   "  -file           : * name of the output file";
   "";
   " * - required fields";
   ""]%string.

(** Global.cc:89-105 *)
Definition menu_2 : text := rows
  ["**** Finite Domain Solver (Chronological Backtracking) Help ****";
   "**** Use the following format to run the program ****";
   "% exe -solvech -var <int> -clause <int> -file <string> -time <int> ";
   "";
   "where : ";
   "  exe             : * name of executable";
   "  -solvech        : * option stating to solve the finite domain problem";
   "  -var            : * number of variables in benchmark problem";
   "  -clause         : * number of clauses in benchmark problem";
   "  -file           : * name of the output file";
   "  -time           : amount of time allowed for solver to run";
   "";
   " * - required fields";
   ""]%string.

(** Global.cc:106-122 *)
Definition menu_3 : text := rows
  ["**** Finite Domain Solver (NonChronological Backtracking) Help ****";
   "**** Use the following format to run the program ****";
   "% exe -solvenc -var <int> -clause <int> -file <string> -time <int> ";
   "";
   "where : ";
   "  exe             : * name of executable";
   "  -solvenc        : * option stating to solve the finite domain problem";
   "  -var            : * number of variables in benchmark problem";
   "  -clause         : * number of clauses in benchmark problem";
   "  -file           : * name of the output file";
   "  -time           : amount of time allowed for solver to run";
   "";
   " * - required fields";
   ""]%string.

(** Global.cc:123-137 *)
Definition menu_4 : text := rows
  ["**** Convert Boolean to Finite Domain ****";
   "**** Use the following format to run the program ****";
   "% exe -b2f -file <string> -model <string>";
   "where : ";
   " exe             : * name of executable";
   " -b2f            : * option stating to convert file ";
   " -file           : * name of the boolean file ";
   " -model          : * name of the finite file ";
   "";
   " * - required fields";
   ""]%string.

(** Global.cc:138-152 *)
Definition menu_5 : text := rows
  ["**** Convert Finite Domain to Boolean : Linear Encoding****";
   "**** Use the following format to run the program ****";
   "% exe -linenc -file <string> -model <string>";
   "where : ";
   " exe             : * name of executable";
   " -linenc         : * option stating to convert file ";
   " -file           : * name of the boolean file ";
   " -model          : * name of the finite file ";
   "";
   " * - required fields";
   ""]%string.

(** Global.cc:153-171 *)
Definition menu_6 : text := rows
  ["**** Convert Finite Domain to Boolean : Quadratic Encoding****";
   "**** Use the following format to run the program ****";
   "% exe -quadenc -file <string> -model <string>";
   "where : ";
   " exe             : * name of executable";
   " -quadenc        : * option stating to convert file ";
   " -file           : * name of the boolean file ";
   " -model          : * name of the finite file ";
   "";
   " * - required fields";
   ""]%string.

(** The switch, Global.cc:57-172.  [true]: exit(1) is called. *)
Definition menu_case (option : Z) : text * bool :=
  match option with
  | 0 => (menu_0, true)
  | 1 => (menu_1, false) | 2 => (menu_2, false) | 3 => (menu_3, false)
  | 4 => (menu_4, false) | 5 => (menu_5, false) | 6 => (menu_6, false)
  | _ => ([], false)
  end.

(** [cin >> option] (C++11, operator>>(int&)): [good] is cin.good(), [old] the value before.
    If the stream is not good, or only white space is left, the value is not changed and the
    stream is no longer good.  Without digits the value is 0 and failbit is set; a number that
    does not fit is replaced by the nearest int and failbit is set.  Reaching the end of the
    input sets eofbit. *)
Definition cin_int (good : bool) (t : text) (old : Z) : bool * text * Z :=
  if negb good then (false, t, old)
  else match skip_space t with
       | [] => (false, [], old)
       | t' =>
           match scan_int t' with
           | None => (false, t', 0)
           | Some (z, r) =>
               (match r with [] => false | _ => in_int z end, r, Z.max (-2147483648) (Z.min 2147483647 z))
           end
       end.

(** getchar() *)
Definition getchar (t : text) : text := match t with [] => [] | _ :: t' => t' end.

(** The loop, Global.cc:40-175; the result is what is written until exit(1).  The condition
    [option != 0] is never false, since 0 leads to exit: the function does not return.  (After
    a [None] of scan_int a sign may have been consumed from the input, which is not modelled: the
    value is 0 then and the input is not read any more.) *)
Fixpoint menu (fuel : nat) (good : bool) (option : Z) (t : text) : outcome text :=
  match fuel with
  | O => OutOfFuel
  | S fuel' =>
      let '(good, t, option) := cin_int good t option in
      let (out, stop) := menu_case option in
      if stop then Ok (menu_text ++ LF :: out)
      else
        let* rest := menu fuel' good option (getchar (getchar t)) in
        Ok (menu_text ++ LF :: out ++ rest)
  end.

Definition print_help (fuel : nat) (t : text) : outcome text := menu fuel true 0 t.
