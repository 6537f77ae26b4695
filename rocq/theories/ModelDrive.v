(** * The programs that run the solver on series of problems

    benchmarks/Nqueens/Test.cc and benchmarks/Pigeonhole/Test.cc.  Files are named by full paths;
    the shell replaces ~ by [home].  The output file is kept apart from the files of the problems.
    A run of the solver with undefined behaviour is undefined behaviour of the whole.  It is assumed
    that the files can be opened and the solver can be started; the line "Done!" on the screen of the
    driver is left out. *)

From Coq Require Import Ascii String.
From Verif Require Import Spec Outcome State TextSpec ModelText ModelCli ModelEncode ModelMenu ModelMain ModelBench.
#[local] Open Scope char_scope.
#[local] Open Scope list_scope.
#[local] Open Scope Z_scope.

(** fgets with room for [k] characters and the NUL (Nqueens/Test.cc:19, Pigeonhole/Test.cc:20): what
    is read, and what is left. *)
Fixpoint fgets (k : nat) (t : text) : text * text :=
  match k, t with
  | S k', a :: t' =>
      if Ascii.eqb a LF then ([a], t')
      else let (l, r) := fgets k' t' in (a :: l, r)
  | _, _ => ([], t)
  end.

(** The loop of run_solver, Nqueens/Test.cc:17-22, Pigeonhole/Test.cc:18-23: fputs writes up to the
    first NUL; the loop ends when nothing is left, by feof or by the result of fgets. *)
Fixpoint copy (fuel : nat) (t : text) : outcome text :=
  match fuel with
  | O => OutOfFuel
  | S fuel' =>
      match t with
      | [] => Ok []
      | _ => let (l, r) := fgets 99 t in let* o := copy fuel' r in Ok (cstr l ++ o)
      end
  end.
(** The same, Nqueens/Test.cc:17-22: each call of fgets takes at least one character. *)
Definition copy_out (t : text) : outcome text := copy (S (length t)) t.

(** The environment of a run of the solver (popen, Nqueens/Test.cc:16), with the files [fs]. *)
Definition on_files (fs : files) (w : machine) : machine :=
  mkMachine fs (writable w) (stdin_of w) (numbers_of w) (elapsed w) (time1 w) (time2 w) (time3 w) (logged w) (missing_return w).

(** One round, Nqueens/Test.cc:33-76, Pigeonhole/Test.cc:35-71: the file of the problem [n] is written into the folder [dir], the solver is run on
    the file of that name in the folder [path], and its output is appended to [out]. *)
Definition drive_step (fuel : nat) (args : text -> list text) (dir path : text) (name file : Z -> text) (env : Z -> machine)
  (s : files * text) (n : Z) : outcome (files * text) :=
  let (fs, out) := s in
  let fs := write_file fs (dir ++ name n) (file n) in
  let* r := main fuel (args (path ++ name n)) (on_files fs (env n)) in
  let* o := copy_out (screen r) in
  Ok (after r, out ++ o).

(** Nqueens/Test.cc:28-84.  The file is that of Nqueens.cc (compare Test.cc:36-74 with Nqueens.cc:17-61). *)
Definition queens_test (fuel : nat) (home dir : text) (env : Z -> machine) (s : files * text) : outcome (files * text) :=
  foldM (drive_step fuel (fun f => [txt "-solvenc"; txt "-file"; f]) dir
           (home ++ txt "/netshare/mvl-solver/benchmarks/Nqueens/") (fun n => num n ++ txt "queens") queens_file env)
    (loop 43 76) s.

(** Pigeonhole/Test.cc:30-79.  The file is that of pigeon_script.cc (Test.cc:36-69). *)
Definition pigeon_test (fuel : nat) (home dir : text) (env : Z -> machine) (s : files * text) : outcome (files * text) :=
  foldM (drive_step fuel (fun f => [txt "-solvenc"; txt "-vsids"; txt "-file"; f]) dir
           (home ++ txt "/netshare/mvl-solver/benchmarks/Pigeonhole/") (fun n => txt "pgn" ++ num n) pigeon_file env)
    (loop 4 15) s.
