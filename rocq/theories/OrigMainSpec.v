(** * Specification of what the program of the first version reads and writes *)

From Coq Require Import Ascii String.
From Verif Require Import Spec TextSpec CliSpec MainSpec OrigSpec.
#[local] Open Scope Z_scope.

(** ** Options *)

(** The options of -solvech and -solvenc; the word -bool changes nothing. *)
Definition orig_words : list text :=
  map txt ["-var"; "-clause"; "-clausesize"; "-file"; "-model"; "-time"]%string.
Definition orig_option (o : opt) : Prop :=
  match o with
  | OTime n | OVar n | OClause n | OClauseSize n => an_int n
  | OFile _ | OModelFile _ => True
  | OWord w => ~ In w orig_words
  | _ => False
  end.
Definition sel_var (o : opt) := match o with OVar n => Some n | _ => None end.
Definition sel_clause (o : opt) := match o with OClause n => Some n | _ => None end.
Definition the_file (os : list opt) : option text := latest sel_file os (Some (txt "die")).

(** Everything needed is given: two numbers, a size and a file. *)
Definition complete (os : list opt) : Prop :=
  latest sel_var os (-1) <> -1 /\ latest sel_clause os (-1) <> -1 /\ latest sel_size os 3 <> -1 /\
  the_file os <> Some (txt "die").

(** The numbers can be used to reserve memory. *)
Definition sizes_fit (os : list opt) : Prop :=
  0 <= latest sel_var os (-1) < 2147483647 /\ 0 <= latest sel_size os 3 <= 1789569706.

(** Every problem line of [t] reads [p cnf n m]. *)
Definition announces (t : text) (n m : Z) : Prop :=
  forall ls, has_lines t ls -> forall l, In l ls -> is_problem l = true ->
    words l = [txt "p"; txt "cnf"; num n; num m].

(** ** The screen *)

Definition orig_title : text := unlines [[]; txt "**** Finite Domain Sat Solver - Hemal A Lal ****"].

(** The word and the numbers: decisions, units, backtracks, entailments, level, variables, clauses. *)
Definition orig_answer (word : text) (d u b e l n m : Z) : list text :=
  [word; [];
   txt "Number of Decisions   : " ++ num d; txt "Number of Units       : " ++ num u;
   txt "Number of Backtracks  : " ++ num b; txt "Number of Entails     : " ++ num e;
   txt "Number of Levels      : " ++ num l; txt "Number of Variables   : " ++ num n;
   txt "Number of Clauses     : " ++ num m; []].

(** The times [t1], [t2], [t3], a note printed by the search, the answer, the rest. *)
Definition orig_screen (f t1 t2 t3 : text) (note ls : list text) : text :=
  orig_title ++ f ++ SP :: TAB :: t1 ++ TAB :: unlines note ++ t2 ++ TAB :: SP :: t3 ++ TAB :: unlines ls.

Definition checked_lines (ok : bool) : list text :=
  [txt (if ok then "Verifying model ... model is CORRECT" else "Verifying model ... model is INCORRECT")].

(** What the answer means.  [d] decisions and [b] backtracks are reported; [learning]: -solvenc. *)
Inductive orig_right (p : problem) (learning : bool) (late : nat -> bool) (d b : Z) : text -> list text -> list text -> Prop :=
| OSat : satisfiable p -> orig_right p learning late d b (txt "SAT") [] (checked_lines true)
| ONote ok : learning = false -> (ok = true -> satisfiable p) -> 1000000000 < (4 * b + 3) * literals p ->
    orig_right p learning late d b (txt "SAT") [txt "No Branch Atom selected"] (checked_lines ok)
| OUnsat : (d = 0 -> ~ satisfiable p) ->
    (learning = false -> b = Z.max 1 d /\
       (satisfiable p -> exists v x, 1 <= v <= nvars p /\ 0 <= x < domsize p v /\ forall a, is_model p a -> a v <> x)) ->
    orig_right p learning late d b (txt "UNSAT") [] []
| OTimeout k : late k = true -> orig_right p learning late d b (txt "TIMEOUT") [] [].

Definition incorrect_screen : text :=
  orig_title ++ unlines [txt "**** INCORRECT COMMANDLINE ****"; txt " Check Input format using : exe -help"; []].
Definition mismatch_screen : text :=
  orig_title ++ unlines [txt "**** ERROR ****"; txt " Commandline arguments and file arguments do not match."; []].

(** ** The options of -genben *)

Definition gen_complete (os : list gen_opt) : Prop :=
  final (fun o => match o with GVar n => Some n | _ => None end) os (-1) <> -1 /\
  final (fun o => match o with GClause n => Some n | _ => None end) os (-1) <> -1 /\
  final (fun o => match o with GFile f => Some f | _ => None end) os (txt "die") <> txt "die".

(** The first argument of a run of the solver. *)
Definition solve_word (learning : bool) : text := if learning then txt "-solvenc" else txt "-solvech".

(** What a run needs: all options, a file with a problem and fitting numbers. *)
Record good_run (os : list opt) (fs : text -> option text) (f : text) (p : problem) : Prop := {
  gr_options : Forall orig_option os;
  gr_complete : complete os;
  gr_sizes : sizes_fit os;
  gr_file : the_file os = Some f;
  gr_text : exists t, fs f = Some t /\ fits_int p /\ accepted p t /\ lines_below 3000 t /\
            announces t (latest sel_var os (-1)) (latest sel_clause os (-1));
  gr_clauses : 0 <= latest sel_clause os (-1);
  gr_problem : wf p
}.
