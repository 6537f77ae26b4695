(** * Theorems about the programs that run series of problems

    [queens_test fuel home dir env (fs, out)] is benchmarks/Nqueens/Test.cc started in the folder
    [dir] by a user with the home folder [home]: [fs] are the files, [out] is what the output file
    holds, [env n] the environment of the run on [n] queens; [pigeon_test] is
    benchmarks/Pigeonhole/Test.cc.  [queens_output] and [pigeon_output] are in DriveSpec.v. *)

From Coq Require Import Ascii String.
From Verif Require Import Spec Outcome State TextSpec ModelText ModelCli ModelEncode ModelMenu ModelMain MainSpec BenchSpec ModelBench ModelDrive DriveSpec Encode Drive.
#[local] Open Scope char_scope.
#[local] Open Scope list_scope.
#[local] Open Scope Z_scope.

(** ** C91: the series of problems *)

(** Started in the folder the solver is told to look in: for each number of queens the file is
    written, and the output file grows by the output of a run that shows a solution or ran out of
    time, never "UNSAT".  parse_results.cc makes a table with one row for each run of what is added. *)
Theorem C91_queens home env fs out :
  let dir := home ++ txt "/netshare/mvl-solver/benchmarks/Nqueens/" in
  let name := fun n => dir ++ num n ++ txt "queens" in
  (forall n, 43 <= n < 76 -> missing_return (env n) = true /\ ~ In NUL (home ++ time1 (env n) ++ time2 (env n) ++ time3 (env n))) ->
  exists N fs' qs,
    (forall fuel, (N <= fuel)%nat -> queens_test fuel home dir env (fs, out) = Ok (fs', out ++ List.concat (map fst qs))) /\
    Forall2 (fun n q => queens_output (name n) (env n) n (fst q) (snd q)) (loop 43 76) qs /\
    ((forall n, 43 <= n < 76 -> calm (home ++ time1 (env n) ++ time2 (env n) ++ time3 (env n))) ->
       parse_results (List.concat (map fst qs)) = List.concat (map snd qs)) /\
    (forall n, 43 <= n < 76 -> fs' (name n) = Some (queens_file n)) /\
    (forall g, (forall n, 43 <= n < 76 -> g <> name n) -> fs' g = fs g).
Proof.
  intros dir name H. pose proof (queens_series home env) as Q. setoid_rewrite in_loop in Q. exact (Q H fs out).
Qed.
Print Assumptions C91_queens.

(** No run on pigeons prints "SAT". *)
Theorem C91_pigeons home env fs out :
  let dir := home ++ txt "/netshare/mvl-solver/benchmarks/Pigeonhole/" in
  let name := fun n => dir ++ txt "pgn" ++ num n in
  (forall n, 4 <= n < 15 -> missing_return (env n) = true /\ ~ In NUL (home ++ time1 (env n) ++ time2 (env n) ++ time3 (env n))) ->
  exists N fs' qs,
    (forall fuel, (N <= fuel)%nat -> pigeon_test fuel home dir env (fs, out) = Ok (fs', out ++ List.concat (map fst qs))) /\
    Forall2 (fun n q => pigeon_output (name n) (env n) n (fst q) (snd q)) (loop 4 15) qs /\
    ((forall n, 4 <= n < 15 -> calm (home ++ time1 (env n) ++ time2 (env n) ++ time3 (env n))) ->
       parse_results (List.concat (map fst qs)) = List.concat (map snd qs)) /\
    (forall n, 4 <= n < 15 -> fs' (name n) = Some (pigeon_file n)) /\
    (forall g, (forall n, 4 <= n < 15 -> g <> name n) -> fs' g = fs g).
Proof.
  intros dir name H. pose proof (pigeon_series home env) as Q. setoid_rewrite in_loop in Q. exact (Q H fs out).
Qed.
Print Assumptions C91_pigeons.

(** Copying the output of the solver in pieces of at most 99 characters loses nothing but what
    follows a NUL in a piece. *)
Theorem C91_copy t : ~ In NUL t -> copy_out t = Ok t.
Proof. apply copy_out_all. Qed.
Print Assumptions C91_copy.

Theorem C91_copy_refuted : exists t, copy_out t <> Ok t.
Proof. exists [NUL; "a"]. vm_compute. discriminate. Qed.
Print Assumptions C91_copy_refuted.

(** Started in another folder, with no such files where the solver looks: every run fails, and the
    output file gets nothing but error messages. *)
Theorem C91_elsewhere fuel home dir env fs out :
  let queens := fun n => num n ++ txt "queens" in
  let pigeons := fun n => txt "pgn" ++ num n in
  let failed := title ++ unlines (error_lines (txt "Could not open input file : ")) in
  ((forall m n, 43 <= m < 76 -> 43 <= n < 76 -> (home ++ txt "/netshare/mvl-solver/benchmarks/Nqueens/") ++ queens m <> dir ++ queens n) ->
   (forall n, 43 <= n < 76 -> fs ((home ++ txt "/netshare/mvl-solver/benchmarks/Nqueens/") ++ queens n) = None) ->
   exists fs', queens_test fuel home dir env (fs, out) = Ok (fs', out ++ List.concat (repeat failed 33))) /\
  ((forall m n, 4 <= m < 15 -> 4 <= n < 15 -> (home ++ txt "/netshare/mvl-solver/benchmarks/Pigeonhole/") ++ pigeons m <> dir ++ pigeons n) ->
   (forall n, 4 <= n < 15 -> fs ((home ++ txt "/netshare/mvl-solver/benchmarks/Pigeonhole/") ++ pigeons n) = None) ->
   exists fs', pigeon_test fuel home dir env (fs, out) = Ok (fs', out ++ List.concat (repeat failed 11))).
Proof.
  split; intros D F.
  - apply queens_lost; intros *; rewrite ?in_loop; auto.
  - apply pigeon_lost; intros *; rewrite ?in_loop; auto.
Qed.
Print Assumptions C91_elsewhere.

Definition home1 : text := txt "/home/u".
Definition env1 (n : Z) : machine :=
  mkMachine (fun _ => None) (fun _ => true) [] [] (fun _ => 0) (txt "0.1") (txt "0.2") (txt "0.3") [] true.
Example C91_hypotheses : (forall n, 43 <= n < 76 -> missing_return (env1 n) = true /\ ~ In NUL (home1 ++ time1 (env1 n) ++ time2 (env1 n) ++ time3 (env1 n))) /\
  (forall n, calm (home1 ++ time1 (env1 n) ++ time2 (env1 n) ++ time3 (env1 n))).
Proof. split; [intros n _; split; [reflexivity|apply nn_txt_ok; reflexivity]|intro n; apply calm_ok; reflexivity]. Qed.

(** One round on four pigeons. *)
Definition round4 (dir : text) : outcome (files * text) :=
  drive_step 200 (fun f => [txt "-solvenc"; txt "-vsids"; txt "-file"; f]) dir
    (home1 ++ txt "/netshare/mvl-solver/benchmarks/Pigeonhole/") (fun n => txt "pgn" ++ num n) pigeon_file env1 (fun _ => None, txt "before") 4.
Example C91_case : match round4 (home1 ++ txt "/netshare/mvl-solver/benchmarks/Pigeonhole/") with
  | Ok (_, o) => o = txt "before" ++ solver_screen (txt "/home/u/netshare/mvl-solver/benchmarks/Pigeonhole/pgn4") (txt "0.1") (txt "0.2") (txt "0.3") []
                       (answer_lines (txt "UNSAT") 6 28 5 21 4 23 0) /\
                 parse_results (skipn 6 o) = row [6; 28; 5; 21; 4; 23; 0]
  | _ => False
  end.
Proof. vm_compute. split; reflexivity. Qed.

(** The same in the home folder: the error; the hypotheses of C91_elsewhere hold. *)
Example C91_elsewhere_case :
  (match round4 (home1 ++ txt "/") with
   | Ok (_, o) => o = txt "before" ++ title ++ unlines (error_lines (txt "Could not open input file : "))
   | _ => False
   end) /\
  (forall m n, (home1 ++ txt "/netshare/mvl-solver/benchmarks/Pigeonhole/") ++ txt "pgn" ++ num m <> (home1 ++ txt "/") ++ txt "pgn" ++ num n).
Proof. split; [vm_compute; reflexivity|]. intros m n E. cbn in E. discriminate E. Qed.
