(** * The command line

    ParseCommandLine (src/Global.cc:181-357) and the dispatch of main (src/Main.cc:26-101).
    [args] are argv[1], ..., argv[argc-1]; argv[argc] is NULL. *)

From Coq Require Import Ascii String.
From Verif Require Import Spec Outcome State ModelBuild TextSpec ModelText ModelRead.
#[local] Open Scope Z_scope.

(** CommandLine, Global.h:33-67.  [None] stands for a NULL pointer. *)
Record cline := mkCline {
  c_model : bool; c_watch : bool; c_log : bool;
  c_num_var : Z; c_num_clause : Z; c_clause_size : Z;
  c_sat : bool; c_domain : Z; c_drand : bool; c_bool_finite : bool;
  c_file : option text; c_model_file : option text;
  c_time : Z; c_restarts : Z; c_heur : heuristic
}.

(** Global.cc:187-201 *)
Definition default_cline : cline :=
  mkCline true false false (-1) (-1) 3 true 10 false false None None 3600000 0 BK.

Definition with_model (c : cline) : cline :=
  mkCline true (c_watch c) (c_log c) (c_num_var c) (c_num_clause c) (c_clause_size c) (c_sat c) (c_domain c)
    (c_drand c) (c_bool_finite c) (c_file c) (c_model_file c) (c_time c) (c_restarts c) (c_heur c).
Definition with_log (c : cline) : cline :=
  mkCline (c_model c) (c_watch c) true (c_num_var c) (c_num_clause c) (c_clause_size c) (c_sat c) (c_domain c)
    (c_drand c) (c_bool_finite c) (c_file c) (c_model_file c) (c_time c) (c_restarts c) (c_heur c).
Definition with_var (n : Z) (c : cline) : cline :=
  mkCline (c_model c) (c_watch c) (c_log c) n (c_num_clause c) (c_clause_size c) (c_sat c) (c_domain c)
    (c_drand c) (c_bool_finite c) (c_file c) (c_model_file c) (c_time c) (c_restarts c) (c_heur c).
Definition with_clause (n : Z) (c : cline) : cline :=
  mkCline (c_model c) (c_watch c) (c_log c) (c_num_var c) n (c_clause_size c) (c_sat c) (c_domain c)
    (c_drand c) (c_bool_finite c) (c_file c) (c_model_file c) (c_time c) (c_restarts c) (c_heur c).
Definition with_clause_size (n : Z) (c : cline) : cline :=
  mkCline (c_model c) (c_watch c) (c_log c) (c_num_var c) (c_num_clause c) n (c_sat c) (c_domain c)
    (c_drand c) (c_bool_finite c) (c_file c) (c_model_file c) (c_time c) (c_restarts c) (c_heur c).
(** The conversion of an int to bool. *)
Definition to_bool (n : Z) : bool := negb (n =? 0).
Definition with_sat (n : Z) (c : cline) : cline :=
  mkCline (c_model c) (c_watch c) (c_log c) (c_num_var c) (c_num_clause c) (c_clause_size c) (to_bool n) (c_domain c)
    (c_drand c) (c_bool_finite c) (c_file c) (c_model_file c) (c_time c) (c_restarts c) (c_heur c).
Definition with_domain (n : Z) (c : cline) : cline :=
  mkCline (c_model c) (c_watch c) (c_log c) (c_num_var c) (c_num_clause c) (c_clause_size c) (c_sat c) n
    (c_drand c) (c_bool_finite c) (c_file c) (c_model_file c) (c_time c) (c_restarts c) (c_heur c).
Definition with_drand (n : Z) (c : cline) : cline :=
  mkCline (c_model c) (c_watch c) (c_log c) (c_num_var c) (c_num_clause c) (c_clause_size c) (c_sat c) (c_domain c)
    (to_bool n) (c_bool_finite c) (c_file c) (c_model_file c) (c_time c) (c_restarts c) (c_heur c).
Definition with_bool (n : Z) (c : cline) : cline :=
  mkCline (c_model c) (c_watch c) (c_log c) (c_num_var c) (c_num_clause c) (c_clause_size c) (c_sat c) (c_domain c)
    (c_drand c) (to_bool n) (c_file c) (c_model_file c) (c_time c) (c_restarts c) (c_heur c).
Definition with_file (f : option text) (c : cline) : cline :=
  mkCline (c_model c) (c_watch c) (c_log c) (c_num_var c) (c_num_clause c) (c_clause_size c) (c_sat c) (c_domain c)
    (c_drand c) (c_bool_finite c) f (c_model_file c) (c_time c) (c_restarts c) (c_heur c).
Definition with_model_file (f : option text) (c : cline) : cline :=
  mkCline (c_model c) (c_watch c) (c_log c) (c_num_var c) (c_num_clause c) (c_clause_size c) (c_sat c) (c_domain c)
    (c_drand c) (c_bool_finite c) (c_file c) f (c_time c) (c_restarts c) (c_heur c).
Definition with_time (n : Z) (c : cline) : cline :=
  mkCline (c_model c) (c_watch c) (c_log c) (c_num_var c) (c_num_clause c) (c_clause_size c) (c_sat c) (c_domain c)
    (c_drand c) (c_bool_finite c) (c_file c) (c_model_file c) n (c_restarts c) (c_heur c).
Definition with_restarts (n : Z) (c : cline) : cline :=
  mkCline (c_model c) (c_watch c) (c_log c) (c_num_var c) (c_num_clause c) (c_clause_size c) (c_sat c) (c_domain c)
    (c_drand c) (c_bool_finite c) (c_file c) (c_model_file c) (c_time c) n (c_heur c).
Definition with_heur (h : heuristic) (c : cline) : cline :=
  mkCline (c_model c) (c_watch c) (c_log c) (c_num_var c) (c_num_clause c) (c_clause_size c) (c_sat c) (c_domain c)
    (c_drand c) (c_bool_finite c) (c_file c) (c_model_file c) (c_time c) (c_restarts c) h.
(** Global.cc:321-325 *)
Definition with_wl (c : cline) : cline :=
  mkCline (c_model c) true (c_log c) (c_num_var c) (c_num_clause c) (c_clause_size c) (c_sat c) (c_domain c)
    (c_drand c) (c_bool_finite c) (c_file c) (c_model_file c) (c_time c) (c_restarts c)
    (match c_heur c with BK => VSIDS | h => h end).

(** What one branch of the chains of [if(!strcmp(argv[current], ...))] does. *)
Inductive effect :=
| EInt (f : Z -> cline -> cline)            (* ... = atoi(argv[++current]) *)
| EStr (f : option text -> cline -> cline)  (* ... = argv[++current] *)
| EFlag (f : cline -> cline).

Definition table := list (text * effect).

Fixpoint text_eqb (a b : text) : bool :=
  match a, b with
  | [], [] => true
  | x :: a', y :: b' => Ascii.eqb x y && text_eqb a' b'
  | _, _ => false
  end.

Fixpoint lookup (a : text) (tb : table) : option effect :=
  match tb with
  | [] => None
  | (k, e) :: tb' => if text_eqb a k then Some e else lookup a tb'
  end.

(** The loops [for(current = 2; current < argc; current++)].  An option that takes a number as
    the last argument passes NULL to atoi; one that takes a name stores NULL. *)
Fixpoint parse_loop (tb : table) (args : list text) (c : cline) : outcome cline :=
  match args with
  | [] => Ok c
  | a :: rest =>
      match lookup a tb with
      | Some (EFlag f) => parse_loop tb rest (f c)
      | Some (EInt f) =>
          match rest with
          | [] => Undef NullArg
          | x :: rest' => let* n := atoi x in parse_loop tb rest' (f n c)
          end
      | Some (EStr f) =>
          match rest with
          | [] => Ok (f None c)
          | x :: rest' => parse_loop tb rest' (f (Some x) c)
          end
      | None => parse_loop tb rest c
      end
  end.

(** Global.cc:219-242 *)
Definition tb_genben : table :=
  [(txt "-var", EInt with_var); (txt "-clause", EInt with_clause); (txt "-clausesize", EInt with_clause_size);
   (txt "-sat", EInt with_sat); (txt "-domain", EInt with_domain); (txt "-drand", EInt with_drand);
   (txt "-bool", EInt with_bool); (txt "-file", EStr with_file)].
(** Global.cc:245-284, three times the same *)
Definition tb_convert : table := [(txt "-file", EStr with_file); (txt "-model", EStr with_model_file)].
(** Global.cc:287-311 *)
Definition tb_solvech : table :=
  [(txt "-var", EInt with_var); (txt "-clause", EInt with_clause); (txt "-clausesize", EInt with_clause_size);
   (txt "-file", EStr with_file); (txt "-model", EStr with_model_file); (txt "-time", EInt with_time);
   (txt "-lazy", EFlag (with_heur Lazy)); (txt "-verbose", EFlag with_log)].
(** Global.cc:314-349 *)
Definition tb_solvenc : table :=
  [(txt "-restart", EInt with_restarts); (txt "-verbose", EFlag with_log); (txt "-wl", EFlag with_wl);
   (txt "-vsids", EFlag (with_heur VSIDS)); (txt "-vsids_pos", EFlag (with_heur VSIDS_pos));
   (txt "-lazy", EFlag (with_heur Lazy)); (txt "-model", EFlag with_model); (txt "-var", EInt with_var);
   (txt "-clause", EInt with_clause); (txt "-clausesize", EInt with_clause_size); (txt "-file", EStr with_file);
   (txt "-time", EInt with_time)].

(** What main does (Main.cc:42-95).  [Help]: PrintHelp, an interactive menu on standard input
    (ModelMenu.v), which does not return. *)
Inductive command :=
| Help
| GenBenFin (c : cline) | GenBenBool (c : cline)
| Boolean2Finite (c : cline) | LinearEncode (c : cline) | QuadraticEncode (c : cline)
| SolveFinite (c : cline) (m : mode).

Definition dispatch (args : list text) : outcome command :=
  match args with
  | [] => Ok Help
  | a :: rest =>
      if text_eqb a (txt "-help") then Ok Help
      else if text_eqb a (txt "-genben") then
        let* c := parse_loop tb_genben rest default_cline in
        Ok (if c_bool_finite c then GenBenFin c else GenBenBool c)
      else if text_eqb a (txt "-b2f") then
        let* c := parse_loop tb_convert rest default_cline in Ok (Boolean2Finite c)
      else if text_eqb a (txt "-linenc") then
        let* c := parse_loop tb_convert rest default_cline in Ok (LinearEncode c)
      else if text_eqb a (txt "-quadenc") then
        let* c := parse_loop tb_convert rest default_cline in Ok (QuadraticEncode c)
      else if text_eqb a (txt "-solvech") then
        let* c := parse_loop tb_solvech rest default_cline in Ok (SolveFinite c Chrono)
      else if text_eqb a (txt "-solvenc") then
        let* c := parse_loop tb_solvenc rest default_cline in Ok (SolveFinite c NonChrono)
      else Ok Help
  end.

(** ** SolveFinite (src/SolveFinite.cc:21-94) *)

(** The files that exist, with their contents. *)
Definition files := text -> option text.

Inductive solved := NotOpened | Solved (rep : report) (s : state).

(** [lenient] is the reading of learnClause's missing return (see State.v), [clk] the outcome of
    the clock checks, which depends on TIME and the machine.  A negative -clausesize makes the
    Clause constructor throw an exception as soon as there is a line (Clause.cc:27, called at
    Formula.cc:98).  RESTARTS is passed to both learning searches (SolveFinite.cc:54-66, where
    the branch for 0 passes 0). *)
Definition solve_finite (fuel : nat) (len : bool) (clk : nat -> bool) (fs : files) (c : cline) (m : mode)
  : outcome solved :=
  match c_file c with
  | None => Undef NullArg
  | Some f =>
      match fs f with
      | None => Ok NotOpened
      | Some t =>
          if (c_clause_size c <? 0) && negb (Nat.eqb (length (getlines [] t)) 0) then Undef BadAlloc
          else
            let* q := solve_file fuel m (mkCfg (c_heur c) (c_watch c) len) clk (c_restarts c) t in
            let (rep, s) := q in Ok (Solved rep s)
      end
  end.
